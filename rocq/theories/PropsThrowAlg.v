(* C78: hash algorithms of users that throw exceptions inside hash_append (ModelThrowAlg.v).  T is any class whose update(), copy constructor or
   result() may throw, having done anything to the object (update only) and to the world outside of it. *)
From Verif Require Import Base BaseFacts SpecCommon Hasher GenBlk Types ModelResult ModelAppend SpecAppend
  ProofMsg ProofMsgEq ProofMsgExt ProofAppend Behaves ProofSpooky Instances ProofRuns PropsHistory Samples PropsAppend PropsCalls PropsUpdates ModelThrowAlg ProofThrowAlg1 ProofThrowAlg2.
From Verif Require PropsThrow.
Open Scope N_scope.

(* ---------- any algorithm ---------- *)
(* No unordered containers: a sequence of calls of update() that does not depend on the algorithm, and is the one made if nothing throws; they are made
   in this order until one of them throws, and nothing else is done to the object or to the world *)
Theorem C78_calls i f k : call_ok (im_psz i) k -> ordered_call k ->
  exists ls, good_calls ls /\ (productive k -> ls <> []) /\ (forall q, passed ls = call_message i f k q) /\
    (forall h gir st, ha_call h gir i f k st = do_updates h st ls) /\
    forall T gir w st, eha_call T gir i f k w st = until_throw T w st ls.
Proof.
  intros HK HO. destruct (call_efixed i f k HK HO) as (ls & V & E1 & E2). exists ls. split; [exact V|].
  destruct (C75_calls i f k HK HO) as (l2 & V2 & N2 & M2 & F2). split; [|split; [|split; [exact E1|exact E2]]].
  - intros HP ->. specialize (E1 spy (fun _ => Ok 0) []). rewrite F2, (do_updates_spy l2 V2) in E1. cbn [do_updates app] in E1. injection E1 as E1. apply map_eq_nil in E1. now apply N2.
  - intros q. rewrite <- (M2 q). specialize (E1 recorder (fun _ => Ok 0) []). rewrite F2, (do_updates_recorder l2 V2), (do_updates_recorder ls V) in E1. injection E1 as E1. now symmetry.
Qed.
(* Every call: the state the object is left in comes from calls of update() on it, of which only the last may have thrown *)
Theorem C78_any T gir i f k w st w' st' b : call_ok (im_psz i) k -> eha_call T gir i f k w st = Ok (w', st', b) ->
  exists ls b', good_calls ls /\ (productive k -> b = false -> ls <> []) /\ updated T st ls st' b' /\ (b = false -> b' = false).
Proof. intros HK E. exact (call_edoes T gir i f k w st HK w' st' b E). Qed.
(* Unordered ranges and containers: an exception leaves the object unchanged, whatever has been done to its copies, unless it is thrown by
   update() on the object itself, for the combined value or the size *)
Theorem C78_unordered T gir i f k w st w' st' : call_ok (im_psz i) k -> unordered_call k -> eha_call T gir i f k w st = Ok (w', st', true) ->
  st' = st \/ exists ls, good_calls ls /\ (length ls = 1 \/ length ls = 2)%nat /\ updated T st ls st' true.
Proof.
  intros HK U E.
  assert (HF : exists F vs, eha_call T gir i f k w st = eunord_range T gir i f F vs w st).
  { destruct k as [t v|d t vs|d t vs|t vs|z]; cbn [unordered_call] in U; try contradiction.
    - destruct t; try contradiction. destruct v as [z|vs]; [contradiction|]. cbn [eha_call eform eha contiguously_hashable trivially_comparable andb]. rewrite not_contig. eauto.
    - cbn [eha_call eform]. eauto. }
  destruct HF as (F & vs & HF). rewrite HF in E. destruct (edoes_unord T gir i f F vs w st w' st' true E) as (ls & b' & V & L & _ & D & _ & HN).
  destruct b'.
  - right. exists ls. split; [exact V|]. split; [|exact D].
    destruct ls as [|l ls]; [inversion D|]. cbn [length] in *. lia.
  - left. rewrite (HN eq_refl eq_refl) in D. now inversion D.
Qed.

(* ---------- an algorithm whose operations throw before they do anything ---------- *)
(* the calls of update() that do not throw *)
Fixpoint granted {W} (may : W -> event -> W * bool) (w : W) (ls : list (ptr * nat)) : W * nat * bool :=
  match ls with
  | [] => (w, 0%nat, false)
  | (p, n) :: ls => match may w (EUpdate p n) with
                    | (w, true) => (w, 0%nat, true)
                    | (w, false) => match granted may w ls with (w, j, b) => (w, S j, b) end
                    end
  end.
(* the program with an update for each such call instead of each GCall (lss: the updates of each), and which of them are left by an exception *)
Fixpoint cut {W} (may : W -> event -> W * bool) (w : W) (xs : list gstep) (lss : list (list (ptr * nat))) : list ustep * list bool :=
  match xs, lss with
  | [], _ => ([], [])
  | GPlain x :: xs, _ => match cut may w xs lss with (ys, bs) => (x :: ys, bs) end
  | GCall k :: xs, ls :: lss =>
      match granted may w ls with (w, j, b) =>
        match cut may w xs lss with (ys, bs) => (map (fun a => SUpdate (fst a) (snd a)) (firstn j ls) ++ ys, b :: bs) end end
  | GCall k :: xs, [] => ([], [])
  end.
(* the calls *)
Fixpoint gcalls (xs : list gstep) : list call :=
  match xs with [] => [] | GPlain _ :: xs => gcalls xs | GCall k :: xs => k :: gcalls xs end.

Lemma until_guarded h W may ls : forall (w : W) st,
  until_throw (guarded h W may) w st ls = (match granted may w ls with (w, j, b) => s <- do_updates h st (firstn j ls) ;; Ok (w, s, b) end).
Proof.
  induction ls as [|[p n] ls IH]; intros w st; cbn [until_throw granted]; [reflexivity|]. cbn [t_update guarded]. destruct (may w (EUpdate p n)) as [w1 [|]] eqn:EM.
  - reflexivity.
  - destruct (h_update h st p n) as [s1| | |] eqn:EU.
    + cbn [ebind bind]. rewrite IH. destruct (granted may w1 ls) as [[w2 j] b]. cbn [firstn do_updates]. rewrite EU. reflexivity.
    + cbn [ebind bind]. destruct (granted may w1 ls) as [[w2 j] b]. cbn [firstn do_updates]. rewrite EU. reflexivity.
    + cbn [ebind bind]. destruct (granted may w1 ls) as [[w2 j] b]. cbn [firstn do_updates]. rewrite EU. reflexivity.
    + cbn [ebind bind]. destruct (granted may w1 ls) as [[w2 j] b]. cbn [firstn do_updates]. rewrite EU. reflexivity.
Qed.
Lemma prun_updates h gir i f ls post : forall s, prun h gir i f s (map (fun a => SUpdate (fst a) (snd a)) ls ++ post) = (s <- do_updates h s ls ;; prun h gir i f s post).
Proof.
  induction ls as [|[p n] ls IH]; intros s; cbn [map app do_updates prun fst snd]; [reflexivity|]. destruct (h_update h s p n) as [s1| | |]; cbn [bind]; [apply IH|reflexivity..].
Qed.
Lemma gprun_cut h W may gir i f xs lss :
  Forall2 (fun k ls => forall T gir w st, eha_call T gir i f k w st = until_throw T w st ls) (gcalls xs) lss ->
  forall (w : W) s, gprun h W may gir i f w s xs = (rs <- prun h gir i f s (fst (cut may w xs lss)) ;; Ok (rs, snd (cut may w xs lss))).
Proof.
  revert lss. induction xs as [|[x|k] xs IH]; intros lss HF w s.
  - destruct lss; reflexivity.
  - cbn [gcalls] in HF. specialize (IH lss HF w). cbn [cut]. destruct (cut may w xs lss) as [ys bs]. cbn [fst snd] in *. destruct x as [p n| |k]; cbn [gprun prun].
    + destruct (h_update h s p n) as [s1| | |]; cbn [bind]; [apply IH|reflexivity..].
    + destruct (h_result h s) as [[r s1]| | |]; cbn [bind fst snd]; [|reflexivity..]. rewrite IH. destruct (prun h gir i f s1 ys); reflexivity.
    + destruct (ha_call h gir i f k s) as [s1| | |]; cbn [bind]; [apply IH|reflexivity..].
  - cbn [gcalls] in HF. inversion HF as [|? ls ? lss' HE HF']; subst. cbn [cut gprun]. rewrite HE, until_guarded. destruct (granted may w ls) as [[w1 j] b].
    specialize (IH lss' HF' w1). destruct (cut may w1 xs lss') as [ys bs]. cbn [fst snd] in *. rewrite prun_updates.
    destruct (do_updates h s (firstn j ls)) as [s1| | |]; cbn [bind]; [|reflexivity..]. rewrite IH. destruct (prun h gir i f s1 ys); reflexivity.
Qed.
(* Programs without unordered containers: a call left by an exception has done exactly the first of its updates.  Equality in all cases: for every class,
   state and world, even if the program fails. *)
Theorem C78_exact i f xs : Forall (fun k => call_ok (im_psz i) k /\ ordered_call k) (gcalls xs) ->
  exists lss, Forall2 (fun k ls => good_calls ls /\ (productive k -> ls <> []) /\ forall q, passed ls = call_message i f k q) (gcalls xs) lss /\
    forall e a c W (may : W -> event -> W * bool) w, e_impl e = i ->
      gruns e a f c may w xs = (rs <- runs e a f c (fst (cut may w xs lss)) ;; Ok (rs, snd (cut may w xs lss))).
Proof.
  intros HK.
  assert (HL : exists lss, Forall2 (fun k ls => good_calls ls /\ (productive k -> ls <> []) /\ forall q, passed ls = call_message i f k q) (gcalls xs) lss /\
    Forall2 (fun k ls => forall T gir w st, eha_call T gir i f k w st = until_throw T w st ls) (gcalls xs) lss).
  { clear - HK. induction HK as [|k ks [HK HO] _ (lss & H1 & H2)]; [exists []; split; constructor|].
    destruct (C78_calls i f k HK HO) as (ls & V & HN & HM & _ & HE). exists (ls :: lss). split; constructor; auto. }
  destruct HL as (lss & H1 & H2). exists lss. split; [exact H1|]. intros e a c W may w <-. unfold gruns, runs, program.
  destruct (construct (pk_h (pack e a)) c) as [s| | |]; cbn [bind]; [|reflexivity..].
  rewrite (gprun_cut (pk_h (pack e a)) W may (pk_gir (pack e a)) (e_impl e) f xs lss H2 w s).
  destruct (prun (pk_h (pack e a)) (pk_gir (pack e a)) (e_impl e) f s (fst (cut may w xs lss))); reflexivity.
Qed.

(* ---------- all programs ---------- *)
(* the calls a program makes *)
Definition called (x : gstep) : ustep := match x with GPlain x => x | GCall k => SCall k end.
Definition valid_calls e a c (xs : list gstep) : Prop := valid_program e a c (map called xs) /\ room e a c (map called xs).

Section Abs.
Variable h : hasher.
Variable W : Type.
Variable may : W -> event -> W * bool.
Variable nul : bool.
Variables A R : Type.
Variables (au : A -> list N -> A) (ar' : A -> h_R h * A) (ar : A -> R * A) (out : h_R h -> R).
Variables (ok : A -> Prop) (Rel : A -> h_S h -> Prop) (fits : A -> nat -> Prop).
Hypothesis RF : refines h nul A au ar' ok Rel.
Hypothesis FL : fits_laws au ar' ok fits.
Hypothesis HO : forall a, out (fst (ar' a)) = fst (ar a) /\ snd (ar' a) = snd (ar a).
Variable gir : h_R h -> res N.
Variable g : R -> N.
Hypothesis Hg : forall a r, out r = fst (ar a) -> gir r = Ok (g (out r)).
Variable i : impl.
Variable f : flavor.
Notation CM := (call_message i f).
Fixpoint gmatch (a : A) (xs : list gstep) (ys : list ustep) (bs : list bool) : Prop :=
  match xs, ys with
  | [], [] => bs = []
  | GPlain x :: xs, y :: ys => y = x /\ gmatch (asteps au ar g CM a [x]) xs ys bs
  | GCall k :: xs, y :: ys =>
      match bs with
      | [] => False
      | b :: bs =>
          (exists j, y = feed (firstn j (CM k (aq au ar g a))) /\
            (b = false -> firstn j (CM k (aq au ar g a)) = CM k (aq au ar g a)) /\
            (b = true -> throws W may /\ (unordered_call k -> (j = 0 \/ j = 8)%nat))) /\
          gmatch (asteps au ar g CM a [y]) xs ys bs
      end
  | _, _ => False
  end.
Lemma feed_steps a m : asteps au ar g CM a [feed m] = au a m.
Proof. cbn [asteps feed data]. now rewrite firstn_all. Qed.
Lemma gprun_ok xs : forall a w s, Rel a s -> Forall (valid_step nul i) (map called xs) -> fits a (weight (map called xs)) ->
  exists rs bs ys, gprun h W may gir i f w s xs = Ok (rs, bs) /\ gmatch a xs ys bs /\ map out rs = aprun au ar g CM a ys /\
    Forall (valid_step nul i) ys /\ (weight ys <= weight (map called xs))%nat.
Proof.
  assert (Hg' : forall a, gir (fst (ar' a)) = Ok (g (out (fst (ar' a))))) by (intros a; apply (Hg a), HO).
  induction xs as [|x xs IH]; intros a w s R0 HX F0.
  - exists [], [], []. repeat split; [constructor|apply le_n].
  - inversion HX as [|? ? Hx HX']; subst.
    unfold weight in F0. cbn [map lsum fold_right] in F0. change (fold_right Nat.add 0%nat (map step_weight (map called xs))) with (weight (map called xs)) in F0.
    assert (OK : ok a) by (exact (fl_ok _ _ _ _ FL _ _ F0)).
    destruct x as [[p n| |k]|k]; cbn [called step_weight gprun] in *.
    + assert (F1 : fits (au a (data p n)) (weight (map called xs))).
      { apply (fl_au _ _ _ _ FL). now rewrite (proj2 (valid_data _ _ _ Hx)). }
      destruct (rf_update _ _ _ _ _ _ _ RF a s p n R0 OK Hx (fl_ok _ _ _ _ FL _ _ F1)) as (s1 & E1 & R1). rewrite E1. cbn [bind].
      destruct (IH _ w _ R1 HX' F1) as (rs & bs & ys & E & M & O & V & L). exists rs, bs, (SUpdate p n :: ys). split; [exact E|]. split; [now split|]. split; [exact O|].
      split; [now constructor|]. cbn [map called]. rewrite !weight_cons. cbn [step_weight]. lia.
    + assert (F1 : fits (snd (ar' a)) (weight (map called xs))) by (now apply (fl_ar _ _ _ _ FL)).
      destruct (rf_result _ _ _ _ _ _ _ RF a s R0 OK (fl_ok _ _ _ _ FL _ _ F1)) as (s1 & E1 & R1). rewrite E1. cbn [bind].
      destruct (HO a) as [O1 O2]. rewrite O2 in R1, F1. destruct (IH _ w _ R1 HX' F1) as (rs & bs & ys & E & M & O & V & L). cbn [fst snd]. rewrite E. cbn [bind].
      exists (fst (ar' a) :: rs), bs, (SResult :: ys). split; [reflexivity|]. split; [now split|]. split; [cbn [map aprun]; now rewrite O1, O|].
      split; [now constructor|]. cbn [map called]. rewrite !weight_cons. cbn [step_weight]. lia.
    + assert (FM : fits a (call_blen k)) by (apply (fl_mono _ _ _ _ FL _ _ _ F0); lia).
      destruct (call_feeds h nul A au ar' ok Rel RF fits FL gir (fun r => g (out r)) Hg' i f k a s (proj2 Hx) R0 (proj1 Hx) FM) as (s1 & E1 & R1).
      rewrite E1. cbn [bind].
      assert (EM : call_msg (order_le (fl_order f)) (fl_size f) (im_psz i) (fadd0 i 8 23) (fadd0 i 11 52) k
                     (qa h A au ar' (fun r => g (out r)) a) = CM k (aq au ar g a)).
      { apply call_msg_ext. intros m. unfold qa, aq. destruct (HO (au a m)) as [O1 _]. now rewrite O1. }
      rewrite EM in R1. destruct (IH _ w _ R1 HX') as (rs & bs & ys & E & M & O & V & L).
      { apply (fl_au _ _ _ _ FL). apply (fl_mono _ _ _ _ FL _ _ _ F0). apply Nat.add_le_mono_r. apply call_blen_ok. }
      exists rs, bs, (SCall k :: ys). split; [exact E|]. split; [now split|]. split; [exact O|]. split; [now constructor|]. cbn [map called]. rewrite !weight_cons. cbn [step_weight]. lia.
    + assert (FM : fits a (call_blen k)) by (apply (fl_mono _ _ _ _ FL _ _ _ F0); lia).
      assert (HJ : exists w1 s1 b j, eha_call (guarded h W may) gir i f k w s = Ok (w1, s1, b) /\ Rel (au a (firstn j (CM k (aq au ar g a)))) s1 /\
                    (b = false -> firstn j (CM k (aq au ar g a)) = CM k (aq au ar g a)) /\ (b = true -> throws W may /\ (unordered_call k -> (j = 0 \/ j = 8)%nat))).
      { assert (EM : call_msg (order_le (fl_order f)) (fl_size f) (im_psz i) (fadd0 i 8 23) (fadd0 i 11 52) k
                     (qa h A au ar' (fun r => g (out r)) a) = CM k (aq au ar g a)).
        { apply call_msg_ext. intros m. unfold qa, aq. destruct (HO (au a m)) as [O1 _]. now rewrite O1. }
        assert (D : unordered_call k \/ ~ unordered_call k) by (destruct k as [[] [] | | | |]; cbn; auto). destruct D as [D|D].
        - destruct (unordered_feeds h W may nul A au ar' ok Rel RF fits FL gir (fun r => g (out r)) Hg' i f k a w s (proj2 Hx) D R0 (proj1 Hx) FM) as (w1 & s1 & b & j & E1 & R1 & H1 & H2).
          rewrite EM in R1, H1. exists w1, s1, b, j. split; [exact E1|]. split; [exact R1|]. split; [exact H1|]. intros Hb. destruct (H2 Hb). split; auto.
        - destruct (xcall_feeds h W may nul A au ar' ok Rel RF fits FL gir (fun r => g (out r)) Hg' i f k a w s (proj2 Hx) R0 (proj1 Hx) FM) as (w1 & s1 & b & j & E1 & R1 & H1 & H2).
          rewrite EM in R1, H1. exists w1, s1, b, j. split; [exact E1|]. split; [exact R1|]. split; [exact H1|]. intros Hb. split; [now apply H2|contradiction]. }
      destruct HJ as (w1 & s1 & b & j & E1 & R1 & H1 & H2).
      match goal with |- exists rs bs ys, bind ?r _ = _ /\ _ => replace r with (Ok (w1, s1, b)) by (exact (eq_sym E1)) end. cbn [bind].
      assert (BL : (length (firstn j (CM k (aq au ar g a))) <= call_blen k)%nat).
      { pose proof (call_blen_ok (order_le (fl_order f)) (fl_size f) (im_psz i) (fadd0 i 8 23) (fadd0 i 11 52) k (aq au ar g a)) as H. rewrite firstn_length. unfold call_message. lia. }
      destruct (IH _ w1 _ R1 HX') as (rs & bs & ys & E & M & O & V & L).
      { apply (fl_au _ _ _ _ FL). apply (fl_mono _ _ _ _ FL _ _ _ F0). now apply Nat.add_le_mono_r. }
      rewrite E. cbn [bind fst snd].
      exists rs, (b :: bs), (feed (firstn j (CM k (aq au ar g a))) :: ys). split; [reflexivity|]. split; [|split; [|split]].
      * cbn [gmatch]. split; [exists j; auto|]. rewrite feed_steps. exact M.
      * cbn [aprun feed data]. rewrite firstn_all. exact O.
      * constructor; [|exact V]. split; [apply le_n|]. apply PropsThrow.prefix_bytes, call_msg_bytes.
      * cbn [map called]. rewrite !weight_cons. cbn [step_weight feed]. lia.
Qed.
End Abs.

(* some operation throws an exception, in some world *)
Definition may_throw {W} (may : W -> event -> W * bool) : Prop := exists w e, snd (may w e) = true.
(* a program leaves each GCall having fed the hash algorithm a prefix of the message of the call *)
(* [ys]: the program with an update instead of each GCall; [q]: as in append_feeds, the 64-bit result of the program so far followed by an update *)
Fixpoint left_as e a f c {W} (may : W -> event -> W * bool) (before : list ustep) (xs : list gstep) (ys : list ustep) (thrown : list bool) : Prop :=
  match xs, ys, thrown with
  | [], [], [] => True
  | GPlain x :: xs, y :: ys, thrown => y = x /\ left_as e a f c may (before ++ [y]) xs ys thrown
  | GCall k :: xs, y :: ys, b :: thrown =>
      (exists q m j, is_query e a f c before (call_blen k) q /\ m = call_message (e_impl e) f k q /\
         y = feed (firstn j m) /\
         (b = false -> firstn j m = m) /\                                  (* the call returned: all of the message *)
         (b = true -> may_throw may) /\
         (b = true -> unordered_call k -> (j = 0 \/ j = 8)%nat)) /\        (* unordered ranges and containers: nothing, or the combined value *)
      left_as e a f c may (before ++ [y]) xs ys thrown
  | _, _, _ => False
  end.
Lemma gruns_ok e a f c W (may : W -> event -> W * bool) w xs : valid_env e -> valid_calls e a c xs ->
  exists rs bs ys, gruns e a f c may w xs = Ok (rs, bs) /\
    gmatch W may _ _ (mc_au (machine_of (e_cw e) a)) (mc_ar (machine_of (e_cw e) a)) result64 (e_impl e) f (mc_start (machine_of (e_cw e) a) c) xs ys bs /\
    rs = expected e a f c ys /\ valid_program e a c ys /\ (weight ys <= weight (map called xs))%nat.
Proof.
  intros HE [[HC HX] HR]. destruct (alg_behaves e a HE) as (Rel & ar' & ok & fits & RF & FL & HO & HS).
  destruct (HS c _ HC HR) as (s0 & E0 & R0 & F0).
  destruct (gprun_ok _ W may _ _ _ _ _ _ _ _ _ _ RF FL HO (pk_gir (pack e a)) result64) with (i := e_impl e) (f := f) (xs := xs) (a := mc_start (machine_of (e_cw e) a) c) (s := s0) (w := w)
    as (rs & bs & ys & E & M & O & V & L); [|exact R0|exact HX|exact F0|].
  - intros x r H. apply pack_gir. rewrite H. apply machine_digest.
  - exists (map (pk_out (pack e a)) rs), bs, ys. split; [|split; [exact M|split; [exact O|split; [now split|exact L]]]].
    unfold gruns. rewrite E0. cbn [bind]. rewrite E. reflexivity.
Qed.
Lemma match_left e a f c W (may : W -> event -> W * bool) xs : valid_env e -> forall before ys bs,
  gmatch W may _ _ (mc_au (machine_of (e_cw e) a)) (mc_ar (machine_of (e_cw e) a)) result64 (e_impl e) f (state e a f c before) xs ys bs ->
  valid_program e a c (before ++ ys) -> roomy e a c (weight before + weight (map called xs)) ->
  left_as e a f c may before xs ys bs.
Proof.
  intros HE. induction xs as [|x xs IH]; intros before ys bs M HV HR.
  - destruct ys; [|contradiction]. cbn [gmatch] in M. subst bs. exact I.
  - assert (NX : forall y, asteps (mc_au (machine_of (e_cw e) a)) (mc_ar (machine_of (e_cw e) a)) result64 (call_message (e_impl e) f) (state e a f c before) [y] = state e a f c (before ++ [y])).
    { intros y. unfold state. now rewrite asteps_app. }
    destruct ys as [|y ys]; [destruct x; contradiction|].
    assert (HV' : valid_program e a c ((before ++ [y]) ++ ys)) by (now rewrite <- app_assoc).
    assert (HN : roomy e a c (weight (before ++ [y]) + weight (map called xs)) -> forall bs,
      gmatch W may _ _ (mc_au (machine_of (e_cw e) a)) (mc_ar (machine_of (e_cw e) a)) result64 (e_impl e) f (state e a f c (before ++ [y])) xs ys bs -> left_as e a f c may (before ++ [y]) xs ys bs).
    { intros R bs' M'. now apply IH. }
    cbn [map called] in HR. rewrite weight_cons in HR.
    destruct x as [x|k]; cbn [gmatch] in M.
    + destruct M as [-> M]. rewrite NX in M. assert (G : left_as e a f c may (before ++ [x]) xs ys bs).
      { apply HN; [|exact M]. apply (roomy_mono _ _ _ _ _ HR). rewrite weight_app, weight_cons. cbn [called]. unfold weight at 2. cbn [map lsum fold_right]. lia. }
      cbn [left_as]. destruct bs; now split.
    + destruct bs as [|b bs]; [contradiction|]. destruct M as ((j & EY & H1 & H2) & M). rewrite NX in M. cbn [called step_weight] in HR.
      change (aq (mc_au (machine_of (e_cw e) a)) (mc_ar (machine_of (e_cw e) a)) result64 (state e a f c before)) with (query e a f c before) in *.
      cbn [left_as]. split.
      * exists (query e a f c before), (call_message (e_impl e) f k (query e a f c before)), j.
        assert (HQ : is_query e a f c before (call_blen k) (query e a f c before)).
        { intros x Bx Lx. apply query_runs; [exact HE|exact (valid_app _ _ _ _ _ HV)|exact Bx|]. apply (roomy_mono _ _ _ _ _ HR). lia. }
        split; [exact HQ|]. split; [reflexivity|]. split; [exact EY|]. split; [exact H1|]. split; intros Hb; [exact (proj1 (H2 Hb))|exact (proj2 (H2 Hb))].
      * apply HN; [|exact M]. apply (roomy_mono _ _ _ _ _ HR). rewrite weight_app. subst y. unfold weight at 2, feed. cbn [map step_weight lsum fold_right].
        pose proof (call_blen_ok (order_le (fl_order f)) (fl_size f) (im_psz (e_impl e)) (fadd0 (e_impl e) 8 23) (fadd0 (e_impl e) 11 52) k (query e a f c before)) as H.
        rewrite firstn_length. unfold call_message in *. lia.
Qed.
(* every program with exceptions runs to completion, and its results are those of a program without *)
Theorem C78_programs e a f c W (may : W -> event -> W * bool) w xs : valid_env e -> valid_calls e a c xs ->
  exists rs thrown ys, gruns e a f c may w xs = Ok (rs, thrown) /\ left_as e a f c may [] xs ys thrown /\ runs e a f c ys = Ok rs.
Proof.
  intros HE HX. destruct (gruns_ok e a f c W may w xs HE HX) as (rs & bs & ys & E & M & O & V & L). exists rs, bs, ys. split; [exact E|]. split.
  - apply match_left; [exact HE|exact M|exact V|exact (proj2 HX)].
  - rewrite O. apply runs_expected; [exact HE|exact V|]. unfold room. apply (roomy_mono _ _ _ _ _ (proj2 HX) L).
Qed.
Lemma left_plain e a f c W (may : W -> event -> W * bool) xs rest : forall before ys bs, left_as e a f c may before (map GPlain xs ++ rest) ys bs ->
  exists ys', ys = xs ++ ys' /\ left_as e a f c may (before ++ xs) rest ys' bs.
Proof.
  induction xs as [|x xs IH]; intros before ys bs H.
  - exists ys. split; [reflexivity|]. now rewrite app_nil_r.
  - destruct ys as [|y ys]; [destruct H|]. assert (H' : y = x /\ left_as e a f c may (before ++ [y]) (map GPlain xs ++ rest) ys bs) by (cbn [map app left_as] in H; destruct bs; exact H).
    destruct H' as [-> H']. destruct (IH _ _ _ H') as (ys' & -> & H2). exists ys'. split; [reflexivity|]. now rewrite <- app_assoc in H2.
Qed.
Lemma left_all_plain e a f c W (may : W -> event -> W * bool) xs before ys bs : left_as e a f c may before (map GPlain xs) ys bs -> ys = xs /\ bs = [].
Proof.
  intros H. rewrite <- (app_nil_r (map GPlain xs)) in H. destruct (left_plain _ _ _ _ _ _ _ _ _ _ _ H) as (ys' & -> & H2).
  destruct ys'; [|destruct bs; destruct H2]. destruct bs; [|destruct H2]. split; [apply app_nil_r|reflexivity].
Qed.
Lemma called_plain xs : map called (map GPlain xs) = xs.
Proof. rewrite map_map. apply map_id. Qed.
(* the program pre, a call on the object whose operations may throw, and post *)
Notation with_throw pre k post := (map GPlain pre ++ [GCall k] ++ map GPlain post) (only parsing).
Lemma valid_with e a c pre k post : valid_program e a c (pre ++ [SCall k] ++ post) -> room e a c (pre ++ [SCall k] ++ post) -> valid_calls e a c (with_throw pre k post).
Proof. intros HV HR. unfold valid_calls. rewrite !map_app. cbn [map called]. rewrite !called_plain. now split. Qed.
(* one call: q as in append_feeds *)
Theorem C78_prefix e a f c W (may : W -> event -> W * bool) w pre k post q : valid_env e ->
  valid_program e a c (pre ++ [SCall k] ++ post) -> room e a c (pre ++ [SCall k] ++ post) ->
  is_query e a f c pre (call_blen k) q ->
  exists rs thrown j, gruns e a f c may w (with_throw pre k post) = Ok (rs, [thrown]) /\
    runs e a f c (pre ++ [feed (firstn j (call_message (e_impl e) f k q))] ++ post) = Ok rs /\
    (thrown = false -> runs e a f c (pre ++ [SCall k] ++ post) = Ok rs) /\
    (thrown = true -> may_throw may) /\
    (thrown = true -> unordered_call k -> (j = 0 \/ j = 8)%nat).
Proof.
  intros HE HV HR HQ. destruct (C78_programs e a f c W may w _ HE (valid_with e a c pre k post HV HR)) as (rs & bs & ys & E & L & RS).
  apply left_plain in L. destruct L as (ys' & -> & L). cbn [app] in L.
  destruct ys' as [|y ys']; [destruct L|]. destruct bs as [|b bs]; [destruct L|]. cbn [left_as] in L. destruct L as ((q1 & m & j & Q1 & EM & -> & H1 & H2 & H3) & L).
  apply left_all_plain in L. destruct L as [-> ->]. exists rs, b, j.
  rewrite (PropsThrow.same_message e a f c pre (call_blen k) q q1 k (le_n _) HQ Q1), <- EM. split; [exact E|]. split; [exact RS|]. split; [|split; [exact H2|exact H3]].
  intros Hb. rewrite (H1 Hb) in RS. destruct (append_feeds e a f c pre k post q1 m HE HV HR Q1 EM) as (rs' & A1 & A2). cbn [app] in RS, A2. rewrite A2 in RS. congruence.
Qed.
(* when no operation throws, nothing is lost *)
Theorem C78_never e a f c W (may : W -> event -> W * bool) w pre k post : valid_env e ->
  valid_program e a c (pre ++ [SCall k] ++ post) -> room e a c (pre ++ [SCall k] ++ post) ->
  (forall w x, snd (may w x) = false) ->
  exists rs, gruns e a f c may w (with_throw pre k post) = Ok (rs, [false]) /\ runs e a f c (pre ++ [SCall k] ++ post) = Ok rs.
Proof.
  intros HE HV HR HM. destruct (query_exists e a f c pre k post HE HV HR) as (q & HQ).
  destruct (C78_prefix e a f c W may w pre k post q HE HV HR HQ) as (rs & b & j & E & _ & H1 & H2 & _). exists rs. destruct b.
  - destruct (H2 eq_refl) as (w0 & x & H). rewrite HM in H. discriminate.
  - split; [exact E|now apply H1].
Qed.

(* Unordered ranges and containers, exactly: for each element the object is copied, the copy is fed the element and asked for its result; the first of
   these operations to throw ends the call.  Then the combined value and the number of elements are appended to the object itself. *)
Fixpoint on_copies (T : thrower) (gir : t_R T -> res N) (w : t_W T) (st : t_S T) (lss : list (list (ptr * nat))) (x : N) : res (t_W T * option N) :=
  match lss with
  | [] => Ok (w, Some x)
  | ls :: lss =>
      c <- t_copy T w st ;;
      match c with
      | (w, None) => Ok (w, None)
      | (w, Some h2) =>
          y <- until_throw T w h2 ls ;;
          match y with
          | (w, _, true) => Ok (w, None)
          | (w, h2, false) =>
              r <- t_result T w h2 ;;
              match r with
              | (w, None) => Ok (w, None)
              | (w, Some r) => z <- gir r ;; on_copies T gir w st lss ((x + z) mod 2 ^ 64)
              end
          end
      end
  end.
Lemma eunord_copies T gir i f t vs lss w st : Forall2 (fun v ls => forall T gir w st, eha T gir i f t v w st = until_throw T w st ls) vs lss -> forall x m,
  eunord T gir (eha T gir i f t) w st vs x m =
    (o <- on_copies T gir w st lss x ;; Ok (fst o, match snd o with Some x => Some (x, (m + length vs)%nat) | None => None end)).
Proof.
  intros H. revert w. induction H as [|v ls vs lss HV _ IH]; intros w x m; cbn [eunord on_copies bind fst snd length].
  - now rewrite Nat.add_0_r.
  - destruct (t_copy T w st) as [[w1 [h2|]]| | |]; cbn [bind]; try reflexivity. rewrite HV. destruct (until_throw T w1 h2 ls) as [[[w2 s2] [|]]| | |]; cbn [bind]; try reflexivity.
    destruct (t_result T w2 s2) as [[w3 [r|]]| | |]; cbn [bind]; try reflexivity. destruct (gir r) as [z| | |]; cbn [bind]; try reflexivity.
    unfold add64 at 1, w64. rewrite IH. destruct (on_copies T gir w3 st lss ((x + z) mod 2 ^ 64)) as [[w4 [y|]]| | |]; cbn [bind fst snd]; try reflexivity.
    do 4 f_equal. lia.
Qed.
Theorem C78_copies i f t vs : ordered t -> Forall (has_type (im_psz i) t) vs ->
  exists lss, Forall2 (fun v ls => good_calls ls /\ ls <> [] /\ forall q, passed ls = call_message i f (KVal t v) q) vs lss /\
    forall k, (k = KUnord t vs \/ k = KVal (TUnord t) (VList vs)) -> forall T gir w st,
      eha_call T gir i f k w st =
        (o <- on_copies T gir w st lss 0 ;;
         match o with
         | (w, None) => Ok (w, st, true)
         | (w, Some x) =>
             until_throw T w st [(Ptr (enc (order_le (fl_order f)) 8 (Z.of_N x)), 8%nat);
                                 (Ptr (size_msg (order_le (fl_order f)) (fl_size f) (length vs)), ibytes (fl_size f))]
         end).
Proof.
  intros HO HV.
  assert (HL : exists lss, Forall2 (fun v ls => good_calls ls /\ ls <> [] /\ forall q, passed ls = call_message i f (KVal t v) q) vs lss /\
    Forall2 (fun v ls => forall T gir w st, eha T gir i f t v w st = until_throw T w st ls) vs lss).
  { induction HV as [|v vs Hv _ (lss & H1 & H2)]; [exists []; split; constructor|].
    destruct (C78_calls i f (KVal t v) Hv HO) as (ls & V & HN & HM & _ & HE). exists (ls :: lss). split; constructor; auto. split; [exact V|]. split; [now apply HN|exact HM]. }
  destruct HL as (lss & H1 & H2). exists lss. split; [exact H1|]. intros k HK T gir w st.
  assert (HU : eha_call T gir i f k w st = eunord_range T gir i f (eha T gir i f t) vs w st).
  { destruct HK as [-> | ->]; cbn [eha_call eform]; [reflexivity|]. cbn [eha contiguously_hashable trivially_comparable andb]. rewrite not_contig. reflexivity. }
  rewrite HU. unfold eunord_range. rewrite (eunord_copies T gir i f t vs lss w st H2). destruct (on_copies T gir w st lss 0) as [[w1 [x|]]| | |]; cbn [bind fst snd]; try reflexivity.
  cbn [until_throw]. rewrite int_update. cbn [ibytes]. destruct (t_update T w1 st _ 8) as [[[w2 s2] [|]]| | |]; cbn [ebind bind]; try reflexivity.
  unfold esize, esize_of. rewrite int_update. unfold size_msg. rewrite Nat.add_0_l. symmetry. refine (eq_trans (ebind_done _ _) _). f_equal. f_equal.
  unfold enc. rewrite Z.mod_mod; [reflexivity|]. apply Z.pow_nonzero; lia.
Qed.

(* ---------- examples ---------- *)
(* every operation counts; the n-th and all later ones throw *)
Definition budget (n : nat) (x : event) : nat * bool := match n with O => (O, true) | S n => (n, false) end.
(* a class that keeps the bytes in a buffer that can hold so many; update() throws when it is full, and has then written a part of the data *)
Definition small_buffer (cap : nat) : thrower :=
  {| t_W := unit; t_S := list N; t_R := list N;
     t_update := fun w s p n => let s' := s ++ data p n in Ok (w, firstn cap s', (cap <? length s')%nat);
     t_copy := fun w s => Ok (w, Some s);
     t_result := fun w s => Ok (w, Some s) |}.
Definition list_ex : list val := [VInt 3; VInt (-3); VInt 5].
Definition int_list : call := KVal (TList CRandom (TInt I16 true)) (VList list_ex).
Definition unord_ex : call := KUnord (TList CInput (TInt I8 true)) [VList [VInt 3]; VList []; VList [VInt 5; VInt (-7)]].
Definition bools : call := KVal (TUnord TBool) (VList [VInt 0; VInt 1]).
Lemma bools_ok i : call_ok (im_psz i) bools.
Proof. cbn. repeat constructor; lia. Qed.
(* the second int16_t does not fit any more *)
Example C78_calls_ex : exists ls, passed ls = [0; 1; 255; 254; 0; 0; 0; 2; 1; 0; 1; 0; 0; 0; 3] /\
  eha_call (small_buffer 3) (fun _ => Ok 0) (e_impl env_be) be32_flavor (KVal nested_ty nested_val) tt [] = until_throw (small_buffer 3) tt [] ls /\
  until_throw (small_buffer 3) tt [] ls = Ok (tt, [0; 1; 255], true).
Proof.
  destruct (C78_calls (e_impl env_be) be32_flavor (KVal nested_ty nested_val) (nested_ok _) nested_ordered) as (ls & V & HN & HM & _ & E).
  exists ls. split; [rewrite (HM (fun _ => 0)); reflexivity|]. split; [apply E|]. rewrite <- (E (small_buffer 3) (fun _ => Ok 0) tt []). reflexivity.
Qed.
Example C78_any_ex : exists ls b', good_calls ls /\ updated (small_buffer 3) [] ls [0; 1; 255] b'.
Proof.
  destruct (C78_any (small_buffer 3) (fun _ => Ok 0) (e_impl env_be) be32_flavor (KVal nested_ty nested_val) tt [] tt [0; 1; 255] true (nested_ok _)) as (ls & b' & V & _ & U & _).
  - reflexivity.
  - exists ls, b'. now split.
Qed.
(* 9 bytes have been fed: the combined value does not fit *)
Example C78_unordered_ex : let st := repeat 7 9 in
  st ++ repeat 0 7 = st \/ exists ls, good_calls ls /\ (length ls = 1 \/ length ls = 2)%nat /\ updated (small_buffer 16) st ls (st ++ repeat 0 7) true.
Proof.
  intros st. apply (C78_unordered (small_buffer 16) (fun _ => Ok 0) (e_impl env_be) be32_flavor bools tt st tt (st ++ repeat 0 7) (bools_ok _) I). reflexivity.
Qed.
(* the copy for the second element throws: the object is as before *)
Example C78_unordered_copy_ex : eha_call (guarded call_counter nat budget) (fun r => Ok r) (e_impl env_be) be32_flavor bools 3%nat 7 = Ok (0%nat, 7, true).
Proof. reflexivity. Qed.
Example C78_copies_ex : exists lss, Forall2 (fun v ls => good_calls ls /\ ls <> [] /\ forall q, passed ls = call_message (e_impl env_be) be32_flavor (KVal TBool v) q) [VInt 0; VInt 1] lss /\
  forall n, eha_call (guarded call_counter nat budget) (fun r => Ok r) (e_impl env_be) be32_flavor bools n 7 =
    (o <- on_copies (guarded call_counter nat budget) (fun r => Ok r) n 7 lss 0 ;;
     match o with
     | (w, None) => Ok (w, 7, true)
     | (w, Some x) => until_throw (guarded call_counter nat budget) w 7 [(Ptr (enc false 8 (Z.of_N x)), 8%nat); (Ptr (enc false 4 2), 4%nat)]
     end).
Proof.
  destruct (C78_copies (e_impl env_be) be32_flavor TBool [VInt 0; VInt 1] Logic.I (bools_ok (e_impl env_be))) as (lss & HF & H).
  exists lss. split; [exact HF|]. intros n. exact (H bools (or_intror eq_refl) (guarded call_counter nat budget) (fun r => Ok r) n 7).
Qed.
Ltac at_sample := match goal with |- valid_program _ _ _ (sample ++ ?xs) => apply (steps_valid env_pc); [reflexivity|exact eq_refl|unfold steps_ok; rewrite !Forall_app; split; [exact sample_ok|]; split; [|repeat constructor]; unfold int_list, unord_ex, list_ex; ok] end.
(* after 2 calls of update(), int_list throws; then everything does *)
Definition budget_ex : list gstep := map GPlain sample ++ [GCall int_list; GPlain SResult; GCall int_list; GPlain SResult].
Example C78_exact_ex : exists l1 l2, passed l1 = [3; 0; 253; 255; 5; 0; 3; 0; 0; 0; 0; 0; 0; 0] /\
  forall a, gruns env_pc a le_flavor (CSeed 7) budget 2%nat budget_ex =
    (rs <- runs env_pc a le_flavor (CSeed 7) (fst (cut budget 2%nat budget_ex [l1; l2])) ;; Ok (rs, snd (cut budget 2%nat budget_ex [l1; l2]))).
Proof.
  assert (HK : Forall (fun k => call_ok (im_psz (e_impl env_pc)) k /\ ordered_call k) (gcalls budget_ex)).
  { unfold budget_ex, sample. cbn [map app gcalls]. repeat constructor; unfold in_int; cbn; lia. }
  destruct (C78_exact (e_impl env_pc) le_flavor budget_ex HK) as (lss & H1 & H2).
  assert (HG : gcalls budget_ex = [int_list; int_list]) by reflexivity. rewrite HG in H1.
  inversion H1 as [|? l1 ? r1 A1 B1 E1 E1']; subst. inversion B1 as [|? l2 ? r2 A2 B2 E2 E2']; subst. inversion B2; subst. exists l1, l2. split.
  - rewrite (proj2 (proj2 A1) (fun _ => 0)). reflexivity.
  - intros a. apply (H2 env_pc a (CSeed 7) nat budget 2%nat eq_refl).
Qed.
Definition throws_ex : list gstep := map GPlain sample ++ [GCall unord_ex; GCall int_list; GPlain SResult; GCall int_list; GPlain SResult].
Example C78_programs_ex a n : exists rs thrown ys, gruns env_pc a le_flavor (CSeed 7) budget n throws_ex = Ok (rs, thrown) /\
  left_as env_pc a le_flavor (CSeed 7) budget [] throws_ex ys thrown /\ runs env_pc a le_flavor (CSeed 7) ys = Ok rs.
Proof.
  apply C78_programs; [exact env_pc_valid|]. split.
  - unfold throws_ex. rewrite map_app, called_plain. cbn [map called]. apply (steps_valid env_pc); [reflexivity|exact eq_refl|]. unfold steps_ok. rewrite Forall_app. split; [exact sample_ok|].
    unfold int_list, unord_ex, list_ex. ok.
  - unfold throws_ex. rewrite map_app, called_plain. room_ex.
Qed.
Example C78_prefix_ex a n : exists q rs thrown j, gruns env_pc a le_flavor (CSeed 7) budget n (with_throw sample unord_ex [SResult]) = Ok (rs, [thrown]) /\
    runs env_pc a le_flavor (CSeed 7) (sample ++ [feed (firstn j (call_message (e_impl env_pc) le_flavor unord_ex q))] ++ [SResult]) = Ok rs /\
    (thrown = false -> runs env_pc a le_flavor (CSeed 7) (sample ++ [SCall unord_ex] ++ [SResult]) = Ok rs) /\
    (thrown = true -> may_throw budget) /\
    (thrown = true -> unordered_call unord_ex -> (j = 0 \/ j = 8)%nat).
Proof.
  assert (HV : valid_program env_pc a (CSeed 7) (sample ++ [SCall unord_ex] ++ [SResult])) by at_sample.
  assert (HR : room env_pc a (CSeed 7) (sample ++ [SCall unord_ex] ++ [SResult])) by room_ex.
  destruct (query_exists env_pc a le_flavor (CSeed 7) sample unord_ex [SResult] env_pc_valid HV HR) as (q & HQ). exists q.
  exact (C78_prefix env_pc a le_flavor (CSeed 7) nat budget n sample unord_ex [SResult] q env_pc_valid HV HR HQ).
Qed.
(* a world that records the operations *)
Example C78_never_ex a : exists rs, gruns env_pc a le_flavor (CSeed 7) (fun w x => (w ++ [x], false)) [] (with_throw sample unord_ex [SResult]) = Ok (rs, [false]) /\
    runs env_pc a le_flavor (CSeed 7) (sample ++ [SCall unord_ex] ++ [SResult]) = Ok rs.
Proof. apply C78_never; [exact env_pc_valid|at_sample|room_ex|reflexivity]. Qed.

(* C77: exceptions thrown by code of the user that hash_append calls.  Programs of ModelThrow.v: some of the calls (XCall k n) are made with iterators,
   containers, tuple-like classes and tag_invoke functions whose operations throw: n of them succeed, the next one throws; the caller catches the exception
   and goes on using the hash object. *)
From Verif Require Import Base BaseFacts SpecCommon Hasher GenBlk Types ModelResult ModelAppend SpecAppend
  ProofMsg ProofMsgEq ProofMsgExt ProofAppend Behaves ProofSpooky Instances ProofRuns PropsHistory Samples PropsAppend PropsInvoke ModelThrow ProofThrow.
Open Scope N_scope.

(* the calls a program makes *)
Definition called (x : xstep) : ustep := match x with XPlain x => x | XCall k _ => SCall k end.
Definition valid_calls e a c (xs : list xstep) : Prop := valid_program e a c (map called xs) /\ room e a c (map called xs).

Lemma prefix_bytes j m : bytes m -> bytes (firstn j m).
Proof. unfold bytes. rewrite !Forall_forall. intros H x Hx. apply H. rewrite <- (firstn_skipn j m). apply in_or_app. now left. Qed.

Section Abs.
Variable h : hasher.
Variable nul : bool.
Variables A R : Type.
Variables (au : A -> list N -> A) (ar' : A -> h_R h * A) (ar : A -> R * A) (out : h_R h -> R).
Variables (ok : A -> Prop) (Rel : A -> h_S h -> Prop) (fits : A -> nat -> Prop).
Hypothesis RF : refines h nul A au ar' ok Rel.
Hypothesis FL : fits_laws au ar' ok fits.
Hypothesis HO : forall a, out (fst (ar' a)) = fst (ar a) /\ snd (ar' a) = snd (ar a).
Variable gir : h_R h -> res N.
Variable g : R -> N.
Hypothesis Hg : forall a r, out r = fst (ar a) -> gir r = Ok (g (out r)).
Variable i : impl.
Variable f : flavor.
Notation CM := (call_message i f).
(* what a program that may be left by exceptions did: the updates it comes to *)
Fixpoint xmatch (a : A) (xs : list xstep) (ys : list ustep) (bs : list bool) : Prop :=
  match xs, ys with
  | [], [] => bs = []
  | XPlain x :: xs, y :: ys => y = x /\ xmatch (asteps au ar g CM a [x]) xs ys bs
  | XCall k n :: xs, y :: ys =>
      match bs with
      | [] => False
      | b :: bs =>
          (exists j, y = feed (firstn j (CM k (aq au ar g a))) /\
            (b = false -> firstn j (CM k (aq au ar g a)) = CM k (aq au ar g a)) /\ (b = true -> unordered_call k -> firstn j (CM k (aq au ar g a)) = [])) /\
          (forall N, points N (fun h gir n st => xha_call h gir i f k n st) (fun h gir st => ha_call h gir i f k st) -> b = (n <? N)%nat) /\
          xmatch (asteps au ar g CM a [y]) xs ys bs
      end
  | _, _ => False
  end.
Lemma feed_steps a m : asteps au ar g CM a [feed m] = au a m.
Proof. cbn [asteps feed data]. now rewrite firstn_all. Qed.
Lemma xprun_ok xs : forall a s, Rel a s -> Forall (valid_step nul i) (map called xs) -> fits a (weight (map called xs)) ->
  exists rs bs ys, xprun h gir i f s xs = Ok (rs, bs) /\ xmatch a xs ys bs /\ map out rs = aprun au ar g CM a ys /\
    Forall (valid_step nul i) ys /\ (weight ys <= weight (map called xs))%nat.
Proof.
  assert (Hg' : forall a, gir (fst (ar' a)) = Ok (g (out (fst (ar' a))))) by (intros a; apply (Hg a), HO).
  induction xs as [|x xs IH]; intros a s R0 HX F0.
  - exists [], [], []. repeat split; [constructor|apply le_n].
  - inversion HX as [|? ? Hx HX']; subst.
    unfold weight in F0. cbn [map lsum fold_right] in F0. change (fold_right Nat.add 0%nat (map step_weight (map called xs))) with (weight (map called xs)) in F0.
    assert (OK : ok a) by (exact (fl_ok _ _ _ _ FL _ _ F0)).
    destruct x as [[p n| |k]|k n]; cbn [called step_weight xprun] in *.
    + assert (F1 : fits (au a (data p n)) (weight (map called xs))).
      { apply (fl_au _ _ _ _ FL). now rewrite (proj2 (valid_data _ _ _ Hx)). }
      destruct (rf_update _ _ _ _ _ _ _ RF a s p n R0 OK Hx (fl_ok _ _ _ _ FL _ _ F1)) as (s1 & E1 & R1). rewrite E1. cbn [bind].
      destruct (IH _ _ R1 HX' F1) as (rs & bs & ys & E & M & O & V & W). exists rs, bs, (SUpdate p n :: ys). split; [exact E|]. split; [now split|]. split; [exact O|].
      split; [now constructor|]. cbn [map called]. rewrite !weight_cons. cbn [step_weight]. lia.
    + assert (F1 : fits (snd (ar' a)) (weight (map called xs))) by (now apply (fl_ar _ _ _ _ FL)).
      destruct (rf_result _ _ _ _ _ _ _ RF a s R0 OK (fl_ok _ _ _ _ FL _ _ F1)) as (s1 & E1 & R1). rewrite E1. cbn [bind].
      destruct (HO a) as [O1 O2]. rewrite O2 in R1, F1. destruct (IH _ _ R1 HX' F1) as (rs & bs & ys & E & M & O & V & W). rewrite E. cbn [bind].
      exists (fst (ar' a) :: rs), bs, (SResult :: ys). split; [reflexivity|]. split; [now split|]. split; [cbn [map aprun]; now rewrite O1, O|].
      split; [now constructor|]. cbn [map called]. rewrite !weight_cons. cbn [step_weight]. lia.
    + assert (FM : fits a (call_blen k)) by (apply (fl_mono _ _ _ _ FL _ _ _ F0); lia).
      destruct (call_feeds h nul A au ar' ok Rel RF fits FL gir (fun r => g (out r)) Hg' i f k a s (proj2 Hx) R0 (proj1 Hx) FM) as (s1 & E1 & R1).
      rewrite E1. cbn [bind].
      assert (EM : call_msg (order_le (fl_order f)) (fl_size f) (im_psz i) (fadd0 i 8 23) (fadd0 i 11 52) k
                     (qa h A au ar' (fun r => g (out r)) a) = CM k (aq au ar g a)).
      { apply call_msg_ext. intros m. unfold qa, aq. destruct (HO (au a m)) as [O1 _]. now rewrite O1. }
      rewrite EM in R1. destruct (IH _ _ R1 HX') as (rs & bs & ys & E & M & O & V & W).
      { apply (fl_au _ _ _ _ FL). apply (fl_mono _ _ _ _ FL _ _ _ F0). apply Nat.add_le_mono_r. apply call_blen_ok. }
      exists rs, bs, (SCall k :: ys). split; [exact E|]. split; [now split|]. split; [exact O|]. split; [now constructor|]. cbn [map called]. rewrite !weight_cons. cbn [step_weight]. lia.
    + assert (FM : fits a (call_blen k)) by (apply (fl_mono _ _ _ _ FL _ _ _ F0); lia).
      destruct (call_feeds h nul A au ar' ok Rel RF fits FL gir (fun r => g (out r)) Hg' i f k a s (proj2 Hx) R0 (proj1 Hx) FM) as (s0 & E0 & _).
      destruct (xcall_feeds h nul A au ar' ok Rel RF fits FL gir (fun r => g (out r)) Hg' i f k a s n (proj2 Hx) R0 (proj1 Hx) FM) as (s1 & o & j & E1 & R1 & HF).
      assert (EM : call_msg (order_le (fl_order f)) (fl_size f) (im_psz i) (fadd0 i 8 23) (fadd0 i 11 52) k
                     (qa h A au ar' (fun r => g (out r)) a) = CM k (aq au ar g a)).
      { apply call_msg_ext. intros m. unfold qa, aq. destruct (HO (au a m)) as [O1 _]. now rewrite O1. }
      rewrite EM in R1, HF. clear EM. rewrite E1. cbn [bind].
      assert (HJ : exists j, Rel (au a (firstn j (CM k (aq au ar g a)))) s1 /\ (o <> None -> firstn j (CM k (aq au ar g a)) = CM k (aq au ar g a)) /\
                    (o = None -> unordered_call k -> firstn j (CM k (aq au ar g a)) = [])).
      { destruct o as [n1|]; [exists j; repeat split; auto; discriminate|].
        assert (D : unordered_call k \/ ~ unordered_call k) by (destruct k as [[] [] | | | |]; cbn; auto).
        destruct D as [D|D]; [|exists j; repeat split; auto; try easy].
        exists 0%nat. rewrite (unordered_throw _ _ _ _ _ _ _ _ D E1). cbn [firstn]. rewrite (rf_nil _ _ _ _ _ _ _ RF). repeat split; easy. }
      clear R1 HF j. destruct HJ as (j & R1 & HF & HU).
      assert (BL : (length (firstn j (CM k (aq au ar g a))) <= call_blen k)%nat).
      { pose proof (call_blen_ok (order_le (fl_order f)) (fl_size f) (im_psz i) (fadd0 i 8 23) (fadd0 i 11 52) k (aq au ar g a)) as H. rewrite firstn_length. unfold call_message. lia. }
      destruct (IH _ _ R1 HX') as (rs & bs & ys & E & M & O & V & W).
      { apply (fl_au _ _ _ _ FL). apply (fl_mono _ _ _ _ FL _ _ _ F0). now apply Nat.add_le_mono_r. }
      rewrite E. cbn [bind]. set (b := match o with None => true | Some _ => false end).
      exists rs, (b :: bs), (feed (firstn j (CM k (aq au ar g a))) :: ys). split; [reflexivity|]. split; [|split; [|split]].
      * cbn [xmatch]. split; [|split].
        -- exists j. split; [reflexivity|]. subst b. destruct o; split; intros H; try discriminate; [apply HF|apply HU]; easy.
        -- intros N HN. destruct (HN h gir s) as [P1 P2]. destruct (Nat.ltb_spec n N) as [L|L].
           ++ destruct (P2 n s0 L E0) as (s' & E'). assert (EO : o = None) by congruence. subst b. now rewrite EO.
           ++ specialize (P1 (n - N)%nat). replace (N + (n - N))%nat with n in P1 by lia. rewrite E0 in P1. unfold run in P1. cbn [bind] in P1.
              assert (EO : o = Some (n - N)%nat) by congruence. subst b. now rewrite EO.
        -- rewrite feed_steps. exact M.
      * cbn [aprun feed data]. rewrite firstn_all. exact O.
      * constructor; [|exact V]. split; [apply le_n|]. apply prefix_bytes, call_msg_bytes.
      * cbn [map called]. rewrite !weight_cons. cbn [step_weight feed]. lia.
Qed.
End Abs.

(* a program leaves each XCall having fed the hash algorithm a prefix of the message of the call *)
(* [ys]: the program with an update instead of each XCall; [q]: as in append_feeds, the 64-bit result of the program so far followed by an update *)
Fixpoint left_as e a f c (before : list ustep) (xs : list xstep) (ys : list ustep) (thrown : list bool) : Prop :=
  match xs, ys, thrown with
  | [], [], [] => True
  | XPlain x :: xs, y :: ys, thrown => y = x /\ left_as e a f c (before ++ [y]) xs ys thrown
  | XCall k n :: xs, y :: ys, b :: thrown =>
      (exists q m j, is_query e a f c before (call_blen k) q /\ m = call_message (e_impl e) f k q /\
         y = feed (firstn j m) /\
         (b = false -> firstn j m = m) /\                                  (* the call returned: all of the message *)
         (b = true -> unordered_call k -> firstn j m = [])) /\             (* unordered ranges and containers: all or nothing *)
      left_as e a f c (before ++ [y]) xs ys thrown
  | _, _, _ => False
  end.

Lemma xruns_ok e a f c xs : valid_env e -> valid_calls e a c xs ->
  exists rs bs ys, xruns e a f c xs = Ok (rs, bs) /\
    xmatch _ _ (mc_au (machine_of (e_cw e) a)) (mc_ar (machine_of (e_cw e) a)) result64 (e_impl e) f (mc_start (machine_of (e_cw e) a) c) xs ys bs /\
    rs = expected e a f c ys /\ valid_program e a c ys /\ (weight ys <= weight (map called xs))%nat.
Proof.
  intros HE [[HC HX] HR]. destruct (alg_behaves e a HE) as (Rel & ar' & ok & fits & RF & FL & HO & HS).
  destruct (HS c _ HC HR) as (s0 & E0 & R0 & F0).
  destruct (xprun_ok _ _ _ _ _ _ _ _ _ _ _ RF FL HO (pk_gir (pack e a)) result64) with (i := e_impl e) (f := f) (xs := xs) (a := mc_start (machine_of (e_cw e) a) c) (s := s0)
    as (rs & bs & ys & E & M & O & V & W); [|exact R0|exact HX|exact F0|].
  - intros x r H. apply pack_gir. rewrite H. apply machine_digest.
  - exists (map (pk_out (pack e a)) rs), bs, ys. split; [|split; [exact M|split; [exact O|split; [now split|exact W]]]].
    unfold xruns. rewrite E0. cbn [bind]. rewrite E. reflexivity.
Qed.
Lemma match_left e a f c xs : valid_env e -> forall before ys bs,
  xmatch _ _ (mc_au (machine_of (e_cw e) a)) (mc_ar (machine_of (e_cw e) a)) result64 (e_impl e) f (state e a f c before) xs ys bs ->
  valid_program e a c (before ++ ys) -> roomy e a c (weight before + weight (map called xs)) ->
  left_as e a f c before xs ys bs.
Proof.
  intros HE. induction xs as [|x xs IH]; intros before ys bs M HV HR.
  - destruct ys; [|contradiction]. cbn [xmatch] in M. subst bs. exact I.
  - assert (NX : forall y, asteps (mc_au (machine_of (e_cw e) a)) (mc_ar (machine_of (e_cw e) a)) result64 (call_message (e_impl e) f) (state e a f c before) [y] = state e a f c (before ++ [y])).
    { intros y. unfold state. now rewrite asteps_app. }
    destruct ys as [|y ys]; [destruct x; contradiction|].
    assert (HV' : valid_program e a c ((before ++ [y]) ++ ys)) by (now rewrite <- app_assoc).
    assert (HN : roomy e a c (weight (before ++ [y]) + weight (map called xs)) -> forall bs,
      xmatch _ _ (mc_au (machine_of (e_cw e) a)) (mc_ar (machine_of (e_cw e) a)) result64 (e_impl e) f (state e a f c (before ++ [y])) xs ys bs -> left_as e a f c (before ++ [y]) xs ys bs).
    { intros R bs' M'. now apply IH. }
    cbn [map called] in HR. rewrite weight_cons in HR.
    destruct x as [x|k n]; cbn [xmatch] in M.
    + destruct M as [-> M]. rewrite NX in M. assert (G : left_as e a f c (before ++ [x]) xs ys bs).
      { apply HN; [|exact M]. apply (roomy_mono _ _ _ _ _ HR). rewrite weight_app, weight_cons. cbn [called]. unfold weight at 2. cbn [map lsum fold_right]. lia. }
      cbn [left_as]. destruct bs; now split.
    + destruct bs as [|b bs]; [contradiction|]. destruct M as ((j & EY & H1 & H2) & _ & M). rewrite NX in M. cbn [called step_weight] in HR.
      change (aq (mc_au (machine_of (e_cw e) a)) (mc_ar (machine_of (e_cw e) a)) result64 (state e a f c before)) with (query e a f c before) in *.
      cbn [left_as]. split.
      * exists (query e a f c before), (call_message (e_impl e) f k (query e a f c before)), j. split; [|now repeat (split; [assumption || reflexivity|])].
        intros x Bx Lx. apply query_runs; [exact HE|exact (valid_app _ _ _ _ _ HV)|exact Bx|]. apply (roomy_mono _ _ _ _ _ HR). lia.
      * apply HN; [|exact M]. apply (roomy_mono _ _ _ _ _ HR). rewrite weight_app. subst y. unfold weight at 2, feed. cbn [map step_weight lsum fold_right].
        pose proof (call_blen_ok (order_le (fl_order f)) (fl_size f) (im_psz (e_impl e)) (fadd0 (e_impl e) 8 23) (fadd0 (e_impl e) 11 52) k (query e a f c before)) as H.
        rewrite firstn_length. unfold call_message in *. lia.
Qed.

(* every program with exceptions runs to completion, and its results are those of a program without *)
Theorem C77_programs e a f c xs : valid_env e -> valid_calls e a c xs ->
  exists rs thrown ys, xruns e a f c xs = Ok (rs, thrown) /\ left_as e a f c [] xs ys thrown /\ runs e a f c ys = Ok rs.
Proof.
  intros HE HX. destruct (xruns_ok e a f c xs HE HX) as (rs & bs & ys & E & M & O & V & W). exists rs, bs, ys. split; [exact E|]. split.
  - apply match_left; [exact HE|exact M|exact V|exact (proj2 HX)].
  - rewrite O. apply runs_expected; [exact HE|exact V|]. unfold room. apply (roomy_mono _ _ _ _ _ (proj2 HX) W).
Qed.

Lemma left_plain e a f c xs rest : forall before ys bs, left_as e a f c before (map XPlain xs ++ rest) ys bs ->
  exists ys', ys = xs ++ ys' /\ left_as e a f c (before ++ xs) rest ys' bs.
Proof.
  induction xs as [|x xs IH]; intros before ys bs H.
  - exists ys. split; [reflexivity|]. now rewrite app_nil_r.
  - destruct ys as [|y ys]; [destruct H|]. assert (H' : y = x /\ left_as e a f c (before ++ [y]) (map XPlain xs ++ rest) ys bs) by (cbn [map app left_as] in H; destruct bs; exact H).
    destruct H' as [-> H']. destruct (IH _ _ _ H') as (ys' & -> & H2). exists ys'. split; [reflexivity|]. now rewrite <- app_assoc in H2.
Qed.
Lemma left_all_plain e a f c xs before ys bs : left_as e a f c before (map XPlain xs) ys bs -> ys = xs /\ bs = [].
Proof.
  intros H. rewrite <- (app_nil_r (map XPlain xs)) in H. destruct (left_plain _ _ _ _ _ _ _ _ _ H) as (ys' & -> & H2).
  destruct ys'; [|destruct bs; destruct H2]. destruct bs; [|destruct H2]. split; [apply app_nil_r|reflexivity].
Qed.
Lemma called_plain xs : map called (map XPlain xs) = xs.
Proof. rewrite map_map. apply map_id. Qed.
(* the program pre, a call during which operations of the user may throw, and post *)
Notation with_throw pre k n post := (map XPlain pre ++ [XCall k n] ++ map XPlain post) (only parsing).
Lemma valid_with e a c pre k n post : valid_program e a c (pre ++ [SCall k] ++ post) -> room e a c (pre ++ [SCall k] ++ post) -> valid_calls e a c (with_throw pre k n post).
Proof. intros HV HR. unfold valid_calls. rewrite !map_app. cbn [map called]. rewrite !called_plain. now split. Qed.
Lemma same_message e a f c pre L q1 q2 k : (call_blen k <= L)%nat -> is_query e a f c pre L q1 -> is_query e a f c pre L q2 -> call_message (e_impl e) f k q1 = call_message (e_impl e) f k q2.
Proof.
  intros HL H1 H2. apply call_ext_b. intros x Bx Lx. destruct (H1 x Bx ltac:(lia)) as (rs1 & r1 & E1 & F1). destruct (H2 x Bx ltac:(lia)) as (rs2 & r2 & E2 & F2).
  rewrite E1 in E2. injection E2 as E2. apply app_inj_tail in E2. destruct E2 as [_ <-]. congruence.
Qed.
(* one call that may throw *)
Theorem C77_prefix e a f c pre k n post q : valid_env e ->
  valid_program e a c (pre ++ [SCall k] ++ post) -> room e a c (pre ++ [SCall k] ++ post) ->
  is_query e a f c pre (call_blen k) q ->
  exists rs thrown j, xruns e a f c (with_throw pre k n post) = Ok (rs, [thrown]) /\
    runs e a f c (pre ++ [feed (firstn j (call_message (e_impl e) f k q))] ++ post) = Ok rs /\
    (thrown = false -> runs e a f c (pre ++ [SCall k] ++ post) = Ok rs) /\
    (thrown = true -> unordered_call k -> runs e a f c (pre ++ post) = Ok rs).
Proof.
  intros HE HV HR HQ. destruct (C77_programs e a f c _ HE (valid_with e a c pre k n post HV HR)) as (rs & bs & ys & E & L & RS).
  apply left_plain in L. destruct L as (ys' & -> & L). cbn [app] in L.
  destruct ys' as [|y ys']; [destruct L|]. destruct bs as [|b bs]; [destruct L|]. cbn [left_as] in L. destruct L as ((q1 & m & j & Q1 & EM & -> & H1 & H2) & L).
  apply left_all_plain in L. destruct L as [-> ->]. exists rs, b, j.
  rewrite (same_message e a f c pre (call_blen k) q q1 k (le_n _) HQ Q1), <- EM. split; [exact E|]. split; [exact RS|]. split.
  - intros Hb. rewrite (H1 Hb) in RS. destruct (append_feeds e a f c pre k post q1 m HE HV HR Q1 EM) as (rs' & A1 & A2). cbn [app] in RS, A2. rewrite A2 in RS. congruence.
  - intros Hb U. rewrite (H2 Hb U) in RS.
    destruct (interchange e a f c pre [feed []] [] post HE) as (rs' & A1 & A2).
    + apply (valid_replace e a c pre [SCall k]); [exact HV|]. constructor; [|constructor]. split; [apply le_n|constructor].
    + apply (room_replace e a c pre [SCall k]); [exact HR|]. cbn. lia.
    + constructor.
    + apply le_n.
    + constructor; [discriminate|constructor].
    + constructor.
    + rewrite feed_state, app_nil_r. apply machine_nil.
    + cbn [app] in RS, A1, A2. rewrite A1 in RS. rewrite A2. exact RS.
Qed.
(* the strong exception guarantee for unordered ranges and containers: thrown before the end, the object is as before the call *)
Theorem C77_unordered e a f c pre k n post : valid_env e -> unordered_call k ->
  valid_program e a c (pre ++ [SCall k] ++ post) -> room e a c (pre ++ [SCall k] ++ post) ->
  exists rs thrown, xruns e a f c (with_throw pre k n post) = Ok (rs, [thrown]) /\
    runs e a f c (pre ++ (if thrown then [] else [SCall k]) ++ post) = Ok rs.
Proof.
  intros HE U HV HR. destruct (query_exists e a f c pre k post HE HV HR) as (q & HQ).
  destruct (C77_prefix e a f c pre k n post q HE HV HR HQ) as (rs & thrown & j & E & _ & H1 & H2). exists rs, thrown. split; [exact E|].
  destruct thrown; [now apply H2|now apply H1].
Qed.
(* how many operations a call makes depends neither on the algorithm nor on what it was fed before *)
Lemma match_plain {A R} au ar g i f xs rest : forall (a : A) ys bs, xmatch A R au ar g i f a (map XPlain xs ++ rest) ys bs ->
  exists ys', ys = xs ++ ys' /\ xmatch A R au ar g i f (asteps au ar g (call_message i f) a xs) rest ys' bs.
Proof.
  induction xs as [|x xs IH]; intros a ys bs H.
  - exists ys. split; [reflexivity|exact H].
  - destruct ys as [|y ys]; [destruct H|]. cbn [map app xmatch] in H. destruct H as [-> H]. destruct (IH _ _ _ H) as (ys' & -> & H2). exists ys'. split; [reflexivity|].
    change (x :: xs) with ([x] ++ xs). rewrite asteps_app. exact H2.
Qed.
Theorem C77_points i f k : exists N, forall e a c pre n post, e_impl e = i -> valid_env e ->
  valid_program e a c (pre ++ [SCall k] ++ post) -> room e a c (pre ++ [SCall k] ++ post) ->
  exists rs, xruns e a f c (with_throw pre k n post) = Ok (rs, [(n <? N)%nat]) /\ ((N <= n)%nat -> runs e a f c (pre ++ [SCall k] ++ post) = Ok rs).
Proof.
  destruct (call_points i f k) as (N & HN). exists N. intros e a c pre n post <- HE HV HR.
  destruct (query_exists e a f c pre k post HE HV HR) as (q & HQ).
  destruct (C77_prefix e a f c pre k n post q HE HV HR HQ) as (rs & thrown & j & E & _ & H1 & _).
  destruct (xruns_ok e a f c _ HE (valid_with e a c pre k n post HV HR)) as (rs' & bs & ys & E' & M & _). rewrite E in E'. injection E' as <- <-.
  apply match_plain in M. destruct M as (ys' & _ & M). cbn [app] in M. destruct ys' as [|y ys']; [destruct M|]. cbn [xmatch] in M. destruct M as (_ & HT & _).
  specialize (HT N HN). subst thrown. exists rs. split; [exact E|]. intros L. apply H1. now apply Nat.ltb_ge.
Qed.

(* ---------- exactly where ---------- *)
Definition scalar (t : ty) : Prop := match t with TInt _ _ | TEnum _ _ | TBool | TPtr | TNullptr | TFlt32 | TFlt64 => True | _ => False end.
Lemma scalar_xha h gir i f t v n st : scalar t -> xha h gir i f t v n st = run h (ha h gir i f t v st) n.
Proof. destruct t; try contradiction; intros _; cbn [xha ha]; destruct (negb (p_cx (im_pf i)) && _)%bool; try reflexivity; destruct v; reflexivity. Qed.
(* what xloop does with elements that do not throw *)
Lemma xloop_exact h (F : val -> nat -> h_S h -> out h) (G : val -> h_S h -> res (h_S h)) vs : (forall v n st, F v n st = run h (G v st) n) -> forall n st,
  xloop h true F vs n st = (s <- ha_loop h G (firstn ((n + 1) / 3) vs) st ;; Ok (s, if (n <? 3 * length vs + 1)%nat then None else Some (n - (3 * length vs + 1))%nat)).
Proof.
  intros HF. induction vs as [|v vs IH]; intros n st.
  - rewrite firstn_nil. cbn [xloop may_throw_if ha_loop bind length Nat.mul Nat.add]. destruct n as [|n]; cbn [may_throw]; [reflexivity|].
    replace (S n <? 1)%nat with false by (symmetry; apply Nat.ltb_ge; lia). unfold done. do 3 f_equal. lia.
  - cbn [xloop may_throw_if]. destruct n as [|[|n]]; [reflexivity| |].
    { cbn [may_throw]. change ((1 + 1) / 3)%nat with 0%nat. cbn [firstn ha_loop bind length]. replace (1 <? 3 * S (length vs) + 1)%nat with true by (symmetry; apply Nat.ltb_lt; lia). reflexivity. }
    cbn [may_throw]. rewrite HF.
    replace (S (S n) + 1)%nat with (1 * 3 + n)%nat by lia. rewrite Nat.div_add_l by discriminate. change (1 + n / 3)%nat with (S (n / 3)). cbn [firstn ha_loop].
    destruct (G v st) as [s1| | |]; cbn [run bind xbind]; try reflexivity. destruct n as [|n]; cbn [may_throw].
    + change (0 / 3)%nat with 0%nat. cbn [firstn ha_loop bind length]. replace (2 <? 3 * S (length vs) + 1)%nat with true by (symmetry; apply Nat.ltb_lt; lia). reflexivity.
    + rewrite IH. replace (n + 1)%nat with (S n) by lia. cbn [length]. replace (S (S (S n)) <? 3 * S (length vs) + 1)%nat with (n <? 3 * length vs + 1)%nat.
      * replace (S (S (S n)) - (3 * S (length vs) + 1))%nat with (n - (3 * length vs + 1))%nat by lia. reflexivity.
      * destruct (Nat.ltb_spec n (3 * length vs + 1)), (Nat.ltb_spec (S (S (S n))) (3 * S (length vs) + 1)); try reflexivity; lia.
Qed.
(* in every state the call that may throw does what the calls ks do *)
Definition throws_as i f (k : call) (ks : list call) (n : nat) (b : bool) : Prop :=
  forall h gir st, exists o, xha_call h gir i f k n st = (s <- ha_loop h (ha_call h gir i f) ks st ;; Ok (s, o)) /\ b = match o with None => true | Some _ => false end.
Lemma prun_calls h gir i f ks post : forall s, prun h gir i f s (map SCall ks ++ post) = (s <- ha_loop h (ha_call h gir i f) ks s ;; prun h gir i f s post).
Proof. induction ks as [|k ks IH]; intros s; cbn [map app prun ha_loop bind]; [reflexivity|]. destruct (ha_call h gir i f k s); cbn [bind]; auto. Qed.
Lemma xprun_as h gir i f k ks n b : throws_as i f k ks n b -> forall pre post s,
  xprun h gir i f s (with_throw pre k n post) = (rs <- prun h gir i f s (pre ++ map SCall ks ++ post) ;; Ok (rs, [b])).
Proof.
  intros H pre post. assert (HP : forall post s, xprun h gir i f s (map XPlain post) = (rs <- prun h gir i f s post ;; Ok (rs, []))).
  { clear. induction post as [|[p n| |k] post IH]; intros s; cbn [map xprun prun].
    - reflexivity.
    - destruct (h_update h s p n); cbn [bind]; auto.
    - destruct (h_result h s) as [[r s']| | |]; cbn [bind]; auto. rewrite IH. destruct (prun h gir i f s' post); reflexivity.
    - destruct (ha_call h gir i f k s); cbn [bind]; auto. }
  induction pre as [|[p m| |k0] pre IH]; intros s.
  - destruct (H h gir s) as (o & E & EB). cbn [map app xprun]. rewrite E, prun_calls. destruct (ha_loop h (ha_call h gir i f) ks s) as [s1| | |]; cbn [bind]; auto. rewrite HP.
    destruct (prun h gir i f s1 post); cbn [bind]; auto. now rewrite EB.
  - cbn [map app xprun prun]. destruct (h_update h s p m); cbn [bind]; auto.
  - cbn [map app xprun prun]. destruct (h_result h s) as [[r s']| | |]; cbn [bind]; auto. cbn [app] in IH. rewrite IH. destruct (prun h gir i f s' (pre ++ map SCall ks ++ post)); reflexivity.
  - cbn [map app xprun prun]. destruct (ha_call h gir i f k0 s); cbn [bind]; auto.
Qed.
Lemma xruns_as e a f c k ks n b pre post rs : throws_as (e_impl e) f k ks n b -> runs e a f c (pre ++ map SCall ks ++ post) = Ok rs ->
  xruns e a f c (with_throw pre k n post) = Ok (rs, [b]).
Proof.
  unfold runs, program, xruns. intros H. destruct (construct (pk_h (pack e a)) c) as [s| | |]; cbn [bind]; try discriminate. rewrite (xprun_as _ _ _ _ _ _ _ _ H pre post s).
  destruct (prun (pk_h (pack e a)) (pk_gir (pack e a)) (e_impl e) f s (pre ++ map SCall ks ++ post)); cbn [bind]; try discriminate. congruence.
Qed.
Lemma exact_intro e a f c pre k n post b ks : valid_env e ->
  valid_program e a c (pre ++ [SCall k] ++ post) -> room e a c (pre ++ [SCall k] ++ post) ->
  throws_as (e_impl e) f k ks n b -> Forall (fun k => call_ok (im_psz (e_impl e)) k /\ (call_null_free k \/ valid_step (nul_of a) (e_impl e) (SCall k))) ks ->
  (lsum (map call_blen ks) <= call_blen k)%nat ->
  exists rs, xruns e a f c (with_throw pre k n post) = Ok (rs, [b]) /\ runs e a f c (pre ++ map SCall ks ++ post) = Ok rs.
Proof.
  intros HE HV HR HT HK HB.
  assert (R : runs e a f c (pre ++ map SCall ks ++ post) = Ok (expected e a f c (pre ++ map SCall ks ++ post))).
  { apply runs_expected; [exact HE| |].
    - apply (valid_replace e a c pre [SCall k]); [exact HV|]. rewrite Forall_forall in *. intros x Hx. apply in_map_iff in Hx. destruct Hx as (k0 & <- & Hx).
      destruct (HK k0 Hx) as [H1 [H2|H2]]; [|exact H2]. split; [exact H1|]. now right.
    - apply (room_replace e a c pre [SCall k]); [exact HR|]. unfold weight. rewrite map_map. change (fun x => step_weight (SCall x)) with call_blen.
      cbn [map step_weight lsum fold_right]. unfold lsum in *. lia. }
  eexists. split; [|exact R]. exact (xruns_as _ _ _ _ _ _ _ _ _ _ _ HT R).
Qed.
Lemma loop_calls h gir i f t vs st : ha_loop h (ha_call h gir i f) (map (KVal t) vs) st = ha_loop h (ha h gir i f t) vs st.
Proof. revert st. induction vs as [|v vs IH]; intros st; cbn [map ha_loop]; [reflexivity|]. change (ha_call h gir i f (KVal t v) st) with (ha h gir i f t v st). destruct (ha h gir i f t v st); cbn [bind]; auto. Qed.
Lemma lsum_first (g : val -> nat) j vs : (lsum (map g (firstn j vs)) <= lsum (map g vs))%nat.
Proof. revert j. induction vs as [|v vs IH]; intros [|j]; cbn [firstn map lsum fold_right]; try lia. specialize (IH j). unfold lsum in IH. lia. Qed.
Lemma scalar_null t v : scalar t -> call_null_free (KVal t v).
Proof. destruct t; try contradiction; intros _; exact I. Qed.
Lemma first_ok psz t vs j : scalar t -> Forall (has_type psz t) vs -> forall P : call -> Prop, Forall (fun k => call_ok psz k /\ (call_null_free k \/ P k)) (map (KVal t) (firstn j vs)).
Proof.
  intros HS HV P. rewrite Forall_forall in *. intros k Hk. apply in_map_iff in Hk. destruct Hk as (v & <- & Hv). split; [|left; now apply scalar_null].
  apply HV. rewrite <- (firstn_skipn j vs). apply in_or_app. now left.
Qed.
Lemma first_blen t vs j : (lsum (map call_blen (map (KVal t) (firstn j vs))) <= lsum (map (blen t) vs))%nat.
Proof. rewrite map_map. apply (lsum_first (blen t)). Qed.

Lemma loop_run h gir i f t vs : scalar t -> forall n st,
  xloop h true (xha h gir i f t) vs n st = (s <- ha_loop h (ha_call h gir i f) (map (KVal t) (firstn ((n + 1) / 3) vs)) st ;; Ok (s, if (n <? 3 * length vs + 1)%nat then None else Some (n - (3 * length vs + 1))%nat)).
Proof. intros HS n st. rewrite loop_calls. apply xloop_exact. intros v m s. now apply scalar_xha. Qed.
Lemma range_throws i f cat t vs n : scalar t -> throws_as i f (KRange (IIter cat) t vs) (map (KVal t) (firstn ((n + 1) / 3) vs)) n (n <? 3 * length vs + 1)%nat.
Proof.
  intros HS h gir st. exists (if (n <? 3 * length vs + 1)%nat then None else Some (n - (3 * length vs + 1))%nat). split; [|destruct (n <? 3 * length vs + 1)%nat; reflexivity].
  cbn [xha_call xform]. now apply loop_run.
Qed.
Lemma all_read {X} n (vs : list X) : (3 * length vs + 1 <= n)%nat -> firstn ((n + 1) / 3) vs = vs.
Proof. intros H. apply firstn_all2. apply Nat.div_le_lower_bound; lia. Qed.
Lemma sized_throws i f cat t vs n : scalar t -> let N := (3 * length vs + match cat with CInput => 1 | CRandom => 2 end)%nat in
  throws_as i f (KSized (IIter cat) t vs) (if (n <? N)%nat then map (KVal t) (firstn ((n + 1) / 3) vs) else [KSized (IIter cat) t vs]) n (n <? N)%nat.
Proof.
  intros HS N h gir st. exists (if (n <? N)%nat then None else Some (n - N)%nat). split; [|destruct (n <? N)%nat; reflexivity].
  assert (HF : (N <= n)%nat -> ha_loop h (ha_call h gir i f) [KSized (IIter cat) t vs] st = (s <- ha_loop h (ha_call h gir i f) (map (KVal t) (firstn ((n + 1) / 3) vs)) st ;; ha_size h i f (length vs) s)).
  { intros L. rewrite loop_calls, all_read by (subst N; destruct cat; lia). cbn [ha_loop ha_call form_ha]. unfold ha_size.
    clear N L. destruct cat; (destruct (ha_loop h (ha h gir i f t) vs st) as [s| | |]; cbn [bind]; try reflexivity; destruct (ha_size_of h i f (Z.of_nat (length vs)) s); reflexivity). }
  cbn [xha_call xform]. rewrite loop_run by exact HS. destruct cat; subst N.
  - destruct (Nat.ltb_spec n (3 * length vs + 1)) as [L|L].
    + clear HF; destruct (ha_loop h (ha_call h gir i f) (map (KVal t) (firstn ((n + 1) / 3) vs)) st); reflexivity.
    + rewrite HF by exact L. destruct (ha_loop h (ha_call h gir i f) (map (KVal t) (firstn ((n + 1) / 3) vs)) st) as [s| | |]; cbn [bind xbind]; reflexivity.
  - destruct (Nat.ltb_spec n (3 * length vs + 1)) as [L|L].
    + replace (n <? 3 * length vs + 2)%nat with true by (symmetry; apply Nat.ltb_lt; lia). clear HF; destruct (ha_loop h (ha_call h gir i f) (map (KVal t) (firstn ((n + 1) / 3) vs)) st); reflexivity.
    + destruct (n - (3 * length vs + 1))%nat as [|m] eqn:EM.
      * replace (n <? 3 * length vs + 2)%nat with true by (symmetry; apply Nat.ltb_lt; lia). clear HF; destruct (ha_loop h (ha_call h gir i f) (map (KVal t) (firstn ((n + 1) / 3) vs)) st); reflexivity.
      * replace (n <? 3 * length vs + 2)%nat with false by (symmetry; apply Nat.ltb_ge; lia). rewrite HF by lia.
        replace (n - (3 * length vs + 2))%nat with m by lia.
        destruct (ha_loop h (ha_call h gir i f) (map (KVal t) (firstn ((n + 1) / 3) vs)) st) as [s| | |]; cbn [bind xbind may_throw]; reflexivity.
Qed.
Lemma list_throws i f cat t vs n : scalar t -> let N := (1 + 3 * length vs + match cat with CInput => 1 | CRandom => 2 end)%nat in
  throws_as i f (KVal (TList cat t) (VList vs)) (if (n <? N)%nat then map (KVal t) (firstn (n / 3) vs) else [KVal (TList cat t) (VList vs)]) n (n <? N)%nat.
Proof.
  intros HS N h gir st. destruct n as [|n].
  - exists None. split; [|reflexivity]. cbn [Nat.ltb Nat.leb N Nat.add]. change (0 / 3)%nat with 0%nat. cbn [firstn map ha_loop bind xha_call xform].
    cbn [xha contiguously_hashable trivially_comparable andb]. rewrite not_contig. destruct cat; reflexivity.
  - destruct (sized_throws i f cat t vs n HS h gir st) as (o & E & B). cbv zeta in E, B. exists o.
    assert (EN : (S n <? N)%nat = (n <? 3 * length vs + match cat with CInput => 1 | CRandom => 2 end)%nat) by reflexivity. rewrite EN. split; [|exact B].
    assert (EX : xha_call h gir i f (KVal (TList cat t) (VList vs)) (S n) st = xha_call h gir i f (KSized (IIter cat) t vs) n st).
    { cbn [xha_call xform]. cbn [xha contiguously_hashable trivially_comparable andb]. rewrite not_contig. destruct cat; reflexivity. }
    rewrite EX, E. replace (n + 1)%nat with (S n) by lia. destruct (n <? _)%nat; [reflexivity|]. f_equal. cbn [ha_loop]. f_equal.
    cbn [ha_call form_ha]. cbn [ha contiguously_hashable trivially_comparable andb]. rewrite not_contig. reflexivity.
Qed.
Lemma each_throws i f h gir ts vs psz : Forall scalar ts -> Zip (has_type psz) ts vs -> forall n st,
  xeach i f h gir true ts vs n st = (s <- ha_loop h (ha_call h gir i f) (map (fun '(t, v) => KVal t v) (firstn n (combine ts vs))) st ;; Ok (s, if (n <? length ts)%nat then None else Some (n - length ts)%nat)).
Proof.
  intros HS. revert vs. induction HS as [|t ts Ht _ IH]; intros [|v vs] HZ n st; cbn [Zip] in HZ; try contradiction.
  - cbn [combine]. rewrite firstn_nil. cbn [map ha_loop bind xeach length Nat.ltb Nat.leb]. unfold done. now rewrite Nat.sub_0_r.
  - cbn [xeach may_throw_if combine length]. destruct n as [|n]; [reflexivity|]. cbn [may_throw firstn map ha_loop]. rewrite scalar_xha by exact Ht.
    change (ha_call h gir i f (KVal t v) st) with (ha h gir i f t v st). destruct (ha h gir i f t v st) as [s| | |]; cbn [run bind xbind]; try reflexivity. rewrite IH by apply HZ. reflexivity.
Qed.
Lemma tuple_throws i f ts vs n psz : ts <> [] -> Forall scalar ts -> Zip (has_type psz) ts vs ->
  throws_as i f (KVal (TTuple ts) (VList vs)) (map (fun '(t, v) => KVal t v) (firstn n (combine ts vs))) n (n <? length ts)%nat.
Proof.
  intros HN HS HZ h gir st. exists (if (n <? length ts)%nat then None else Some (n - length ts)%nat). split; [|destruct (n <? length ts)%nat; reflexivity].
  cbn [xha_call xform]. rewrite xha_tuple by exact HN. now apply each_throws with (psz := psz).
Qed.
Lemma elements_ok psz ts vs n (P : call -> Prop) : Forall scalar ts -> Zip (has_type psz) ts vs ->
  Forall (fun k => call_ok psz k /\ (call_null_free k \/ P k)) (map (fun '(t, v) => KVal t v) (firstn n (combine ts vs))).
Proof.
  intros HS. revert vs n. induction HS as [|t ts Ht _ IH]; intros [|v vs] [|n] HZ; cbn [combine firstn map]; try constructor; cbn [Zip] in HZ; try contradiction.
  - split; [apply HZ|left; now apply scalar_null].
  - apply IH, HZ.
Qed.
Lemma elements_blen ts vs n : (lsum (map call_blen (map (fun '(t, v) => KVal t v) (firstn n (combine ts vs)))) <= tup_blen ts vs)%nat.
Proof.
  revert vs n. induction ts as [|t ts IH]; intros [|v vs] [|n]; cbn [combine firstn map lsum fold_right tup_blen]; try lia. specialize (IH vs n). unfold lsum in IH. cbn [call_blen form_blen]. lia.
Qed.
(* hash_append_range over iterators of class types: !=, * and ++ for each element; all elements read before the exception have been appended *)
Theorem C77_range e a f c pre cat t vs n post : valid_env e -> scalar t ->
  valid_program e a c (pre ++ [SCall (KRange (IIter cat) t vs)] ++ post) -> room e a c (pre ++ [SCall (KRange (IIter cat) t vs)] ++ post) ->
  exists rs, xruns e a f c (with_throw pre (KRange (IIter cat) t vs) n post) = Ok (rs, [(n <? 3 * length vs + 1)%nat]) /\
    runs e a f c (pre ++ map (fun v => SAppend t v) (firstn ((n + 1) / 3) vs) ++ post) = Ok rs.
Proof.
  intros HE HS HV HR. rewrite <- (map_map (KVal t) SCall). apply exact_intro; try assumption.
  - apply range_throws; exact HS.
  - apply first_ok; [exact HS|]. exact (proj1 (valid_call _ _ _ _ _ _ HV)).
  - cbn [call_blen form_blen]. apply first_blen.
Qed.
(* hash_append_sized_range: then last - first, for random access iterators, and the size *)
Theorem C77_sized e a f c pre cat t vs n post : valid_env e -> scalar t ->
  valid_program e a c (pre ++ [SCall (KSized (IIter cat) t vs)] ++ post) -> room e a c (pre ++ [SCall (KSized (IIter cat) t vs)] ++ post) ->
  let N := (3 * length vs + match cat with CInput => 1 | CRandom => 2 end)%nat in
  exists rs, xruns e a f c (with_throw pre (KSized (IIter cat) t vs) n post) = Ok (rs, [(n <? N)%nat]) /\
    runs e a f c (pre ++ (if (n <? N)%nat then map (fun v => SAppend t v) (firstn ((n + 1) / 3) vs) else [SCall (KSized (IIter cat) t vs)]) ++ post) = Ok rs.
Proof.
  intros HE HS HV HR N. assert (HK := valid_call _ _ _ _ _ _ HV).
  replace (if (n <? N)%nat then map (fun v => SAppend t v) (firstn ((n + 1) / 3) vs) else [SCall (KSized (IIter cat) t vs)])
    with (map SCall (if (n <? N)%nat then map (KVal t) (firstn ((n + 1) / 3) vs) else [KSized (IIter cat) t vs])) by (destruct (n <? N)%nat; [apply map_map|reflexivity]).
  apply exact_intro; try assumption.
  - apply sized_throws; exact HS.
  - destruct (n <? N)%nat; [apply first_ok; [exact HS|]; exact (proj1 HK)|constructor; [split; [exact (proj1 HK)|right; exact HK]|constructor]].
  - cbn [call_blen form_blen]. destruct (n <? N)%nat; [pose proof (first_blen t vs ((n + 1) / 3)%nat); lia|]. cbn [map call_blen form_blen lsum fold_right]. lia.
Qed.
(* a range that is not contiguous, e.g. std::list: v.begin() and v.end() first *)
Theorem C77_list e a f c pre cat t vs n post : valid_env e -> scalar t ->
  valid_program e a c (pre ++ [SAppend (TList cat t) (VList vs)] ++ post) -> room e a c (pre ++ [SAppend (TList cat t) (VList vs)] ++ post) ->
  let N := (1 + 3 * length vs + match cat with CInput => 1 | CRandom => 2 end)%nat in
  exists rs, xruns e a f c (with_throw pre (KVal (TList cat t) (VList vs)) n post) = Ok (rs, [(n <? N)%nat]) /\
    runs e a f c (pre ++ (if (n <? N)%nat then map (fun v => SAppend t v) (firstn (n / 3) vs) else [SAppend (TList cat t) (VList vs)]) ++ post) = Ok rs.
Proof.
  intros HE HS HV HR N. assert (HK := valid_call _ _ _ _ _ _ HV).
  replace (if (n <? N)%nat then map (fun v => SAppend t v) (firstn (n / 3) vs) else [SAppend (TList cat t) (VList vs)])
    with (map SCall (if (n <? N)%nat then map (KVal t) (firstn (n / 3) vs) else [KVal (TList cat t) (VList vs)])) by (destruct (n <? N)%nat; [apply map_map|reflexivity]).
  apply exact_intro; try assumption.
  - apply list_throws; exact HS.
  - destruct (n <? N)%nat; [apply first_ok; [exact HS|]; exact (proj1 HK)|constructor; [split; [exact (proj1 HK)|right; exact HK]|constructor]].
  - cbn [call_blen form_blen blen]. destruct (n <? N)%nat; [pose proof (first_blen t vs (n / 3)%nat); lia|]. cbn [map call_blen form_blen blen lsum fold_right]. lia.
Qed.
(* tuple-like classes: get<I>() for each element *)
Theorem C77_tuple e a f c pre ts vs n post : valid_env e -> ts <> [] -> Forall scalar ts ->
  valid_program e a c (pre ++ [SAppend (TTuple ts) (VList vs)] ++ post) -> room e a c (pre ++ [SAppend (TTuple ts) (VList vs)] ++ post) ->
  exists rs, xruns e a f c (with_throw pre (KVal (TTuple ts) (VList vs)) n post) = Ok (rs, [(n <? length ts)%nat]) /\
    runs e a f c (pre ++ map (fun '(t, v) => SAppend t v) (firstn n (combine ts vs)) ++ post) = Ok rs.
Proof.
  intros HE HN HS HV HR. assert (HK := valid_call _ _ _ _ _ _ HV). assert (HZ : Zip (has_type (im_psz (e_impl e))) ts vs).
  { destruct HK as [HK _]. cbn [call_ok form_ok] in HK. now apply has_type_tuple in HK. }
  replace (map (fun '(t, v) => SAppend t v) (firstn n (combine ts vs))) with (map SCall (map (fun '(t, v) => KVal t v) (firstn n (combine ts vs)))) by (rewrite map_map; apply map_ext; now intros [t v]).
  apply exact_intro; try assumption.
  - now apply tuple_throws with (psz := im_psz (e_impl e)).
  - now apply elements_ok.
  - cbn [call_blen form_blen]. rewrite blen_tuple. pose proof (elements_blen ts vs n). lia.
Qed.
(* tag_invoke that passes members of such types one by one: it may also throw after the last *)
Theorem C77_tag_invoke e a f c pre ts vs n post : valid_env e -> Forall scalar ts ->
  valid_program e a c (pre ++ [SAppend (TTag ts) (VList vs)] ++ post) -> room e a c (pre ++ [SAppend (TTag ts) (VList vs)] ++ post) ->
  exists rs, xruns e a f c (with_throw pre (KVal (TTag ts) (VList vs)) n post) = Ok (rs, [(n <? length ts + 1)%nat]) /\
    runs e a f c (pre ++ map (fun '(t, v) => SAppend t v) (firstn n (combine ts vs)) ++ post) = Ok rs.
Proof.
  intros HE HS HV HR. assert (HK := valid_call _ _ _ _ _ _ HV). assert (HZ : Zip (has_type (im_psz (e_impl e))) ts vs).
  { destruct HK as [HK _]. cbn [call_ok form_ok] in HK. cbn [has_type] in HK. rewrite each_ty in HK. apply HK. }
  replace (map (fun '(t, v) => SAppend t v) (firstn n (combine ts vs))) with (map SCall (map (fun '(t, v) => KVal t v) (firstn n (combine ts vs)))) by (rewrite map_map; apply map_ext; now intros [t v]).
  apply exact_intro; try assumption.
  - intros h gir st. exists (if (n <? length ts + 1)%nat then None else Some (n - (length ts + 1))%nat). split; [|destruct (n <? length ts + 1)%nat; reflexivity].
    cbn [xha_call xform]. rewrite xha_tag. rewrite (each_throws (e_impl e) f h gir ts vs _ HS HZ). clear.
    destruct (ha_loop h (ha_call h gir (e_impl e) f) (map (fun '(t, v) => KVal t v) (firstn n (combine ts vs))) st) as [s| | |]; cbn [bind xbind]; try reflexivity.
    destruct (Nat.ltb_spec n (length ts)) as [L|L].
    + replace (n <? length ts + 1)%nat with true by (symmetry; apply Nat.ltb_lt; lia). reflexivity.
    + destruct (n - length ts)%nat as [|m] eqn:E; cbn [may_throw].
      * replace (n <? length ts + 1)%nat with true by (symmetry; apply Nat.ltb_lt; lia). reflexivity.
      * replace (n <? length ts + 1)%nat with false by (symmetry; apply Nat.ltb_ge; lia). unfold done. do 3 f_equal. lia.
  - now apply elements_ok.
  - cbn [call_blen form_blen]. rewrite blen_tag. pose proof (elements_blen ts vs n). lia.
Qed.

(* any tag_invoke whose calls run no code of the user: hash_append_size, scalars, ranges of pointers to scalars *)
Definition atomic (k : call) : Prop :=
  match k with KSize _ => True | KVal t _ | KRange IPtr t _ | KSized IPtr t _ => scalar t | _ => False end.
Lemma atomic_xha h gir i f k n st : atomic k -> xha_call h gir i f k n st = run h (ha_call h gir i f k st) n.
Proof.
  assert (HP : forall t vs st, scalar t -> xptr_range h i f t (xha h gir i f t) vs n st = run h (ha_ptr_range h i f t (ha h gir i f t) vs st) n).
  { clear st. intros t vs st HS.
    assert (HL : forall vs st, xloop h false (xha h gir i f t) vs n st = run h (ha_loop h (ha h gir i f t) vs st) n).
    { clear vs st. induction vs as [|v vs IH]; intros st; cbn [xloop may_throw_if ha_loop]; [reflexivity|]. rewrite scalar_xha by exact HS.
      destruct (ha h gir i f t v st) as [s| | |]; cbn [run bind xbind]; try reflexivity. apply IH. }
    unfold xptr_range, ha_ptr_range. destruct t as [[| | |] [|]| | | | | | | | | | | | | | | | | |]; try contradiction;
      try reflexivity; (destruct (contiguously_hashable i f _); [destruct (negb (p_cx (im_pf i)))|]; try reflexivity; apply HL). }
  destruct k as [t v|[|d] t vs|[|d] t vs|t vs|z]; cbn [atomic xha_call ha_call xform form_ha]; try contradiction; intros HS.
  - now apply scalar_xha.
  - now apply HP.
  - rewrite HP by exact HS. destruct (ha_ptr_range h i f t (ha h gir i f t) vs st) as [s| | |]; reflexivity.
  - reflexivity.
Qed.
Lemma typed_xha h gir i f ts c k n st : typed ts c = Some k ->
  ucase (fun z => run h (ha_size_of h i f z st) n) (fun t => xform h gir i f c t (xha h gir i f t) n st) UB ts c = xha_call h gir i f k n st.
Proof.
  destruct c as [j v|d j vs|d j vs|j vs|z]; cbn [typed ucase]; intros H;
    try (destruct (nth_error ts j) as [t|] eqn:E; [|discriminate]; cbn in H; rewrite (alt_nth ts j t E)); injection H as <-; reflexivity.
Qed.
Lemma user_throws i f g ts v ks n : map (typed ts) (g v) = map Some ks -> Forall atomic ks ->
  throws_as i f (KVal (TUser g ts) v) (firstn n ks) n (n <? length ks + 1)%nat.
Proof.
  intros HK HA h gir st. exists (if (n <? length ks + 1)%nat then None else Some (n - (length ks + 1))%nat). split; [|destruct (n <? length ks + 1)%nat; reflexivity].
  assert (E : xha_call h gir i f (KVal (TUser g ts) v) n st = xcalls h (fun c n st => ucase (fun z => run h (ha_size_of h i f z st) n) (fun t => xform h gir i f c t (xha h gir i f t) n st) UB ts c) (g v) n st).
  { cbn [xha_call xform xha contiguously_hashable trivially_comparable andb]. rewrite not_contig. destruct v; reflexivity. }
  rewrite E. clear E. revert ks HK HA n st. induction (g v) as [|c cs IH]; intros [|k ks] HK HA n st; try discriminate; cbn [xcalls].
  - rewrite firstn_nil. cbn [ha_loop bind length Nat.add]. destruct n as [|n]; cbn [may_throw]; [reflexivity|]. unfold done. cbn [Nat.ltb Nat.leb Nat.sub]. now rewrite Nat.sub_0_r.
  - injection HK as H1 H2. inversion HA; subst. destruct n as [|n]; cbn [may_throw firstn ha_loop]; [reflexivity|]. rewrite (typed_xha h gir i f ts c k n st H1), atomic_xha by assumption.
    destruct (ha_call h gir i f k st) as [s| | |]; cbn [run bind xbind]; try reflexivity. rewrite (IH ks) by assumption. reflexivity.
Qed.
Theorem C77_user_calls e a f c pre g ts v ks n post : valid_env e -> map (typed ts) (g v) = map Some ks -> Forall atomic ks ->
  valid_program e a c (pre ++ [SAppend (TUser g ts) v] ++ post) -> room e a c (pre ++ [SAppend (TUser g ts) v] ++ post) ->
  exists rs, xruns e a f c (with_throw pre (KVal (TUser g ts) v) n post) = Ok (rs, [(n <? length ks + 1)%nat]) /\
    runs e a f c (pre ++ map SCall (firstn n ks) ++ post) = Ok rs.
Proof.
  intros HE HK HA HV HR. destruct (valid_call _ _ _ _ _ _ HV) as [HC HN].
  cbn [call_ok form_ok] in HC. rewrite has_type_user in HC. destruct HC as [_ HC].
  cbn [call_null_free form_null] in HN. rewrite null_free_user in HN.
  apply exact_intro; try assumption.
  - now apply user_throws.
  - clear - HC HN HK. revert ks HK n. induction (g v) as [|c cs IH]; intros [|k ks] HK [|n]; try discriminate; cbn [firstn]; constructor.
    + injection HK as H1 _. destruct (typed_case ts c k H1) as (HO & _ & HF & _). inversion HC; subst. split; [now apply HO|]. right. split; [now apply HO|].
      intros E. destruct (HN E) as [H|H]; [now left|right]. inversion H; subst. now apply HF.
    + injection HK as _ H2. inversion HC; subst. apply IH; [assumption| |exact H2]. intros E. destruct (HN E) as [H'|H']; [now left|right].
      now inversion H'.
  - cbn [call_blen form_blen]. rewrite blen_user. clear - HK. revert ks HK n. induction (g v) as [|c cs IH]; intros [|k ks] HK [|n]; try discriminate; cbn [firstn map lsum fold_right]; try lia.
    injection HK as H1 H2. destruct (typed_case ts c k H1) as (_ & HB & _). specialize (IH ks H2 n). rewrite HB. unfold lsum in IH. lia.
Qed.

(* ---------- examples ---------- *)
Definition bytes_ex : list val := [VInt 3; VInt (-3); VInt 5].
Definition int_list : call := KVal (TList CRandom (TInt I16 true)) (VList bytes_ex).
Definition unord_ex : call := KUnord (TList CInput (TInt I8 true)) [VList [VInt 3]; VList []; VList [VInt 5; VInt (-7)]].
Ltac at_sample := match goal with |- valid_program _ _ _ (sample ++ ?xs) => apply (steps_valid env_pc); [reflexivity|exact eq_refl|unfold steps_ok; rewrite !Forall_app; split; [exact sample_ok|]; split; [|repeat constructor]; unfold int_list, unord_ex, bytes_ex; ok] end.
(* an unordered range of lists that throws inside the third list, then a list that throws at the second element, then a whole list *)
Definition throws_ex : list xstep := map XPlain sample ++ [XCall unord_ex 20; XCall int_list 6; XPlain SResult; XCall int_list 12; XPlain SResult].
Example C77_programs_ex a : exists rs thrown ys, xruns env_pc a le_flavor (CSeed 7) throws_ex = Ok (rs, thrown) /\ left_as env_pc a le_flavor (CSeed 7) [] throws_ex ys thrown /\ runs env_pc a le_flavor (CSeed 7) ys = Ok rs.
Proof.
  apply C77_programs; [exact env_pc_valid|]. split.
  - unfold throws_ex. rewrite map_app, called_plain. cbn [map called]. apply (steps_valid env_pc); [reflexivity|exact eq_refl|]. unfold steps_ok. rewrite Forall_app. split; [exact sample_ok|].
    unfold int_list, unord_ex, bytes_ex. ok.
  - unfold throws_ex. rewrite map_app, called_plain. room_ex.
Qed.
Example C77_prefix_ex a : exists q rs thrown j, xruns env_pc a le_flavor (CSeed 7) (with_throw sample int_list 6 [SResult]) = Ok (rs, [thrown]) /\
    runs env_pc a le_flavor (CSeed 7) (sample ++ [feed (firstn j (call_message (e_impl env_pc) le_flavor int_list q))] ++ [SResult]) = Ok rs /\
    (thrown = false -> runs env_pc a le_flavor (CSeed 7) (sample ++ [SCall int_list] ++ [SResult]) = Ok rs) /\
    (thrown = true -> unordered_call int_list -> runs env_pc a le_flavor (CSeed 7) (sample ++ [SResult]) = Ok rs).
Proof.
  assert (HV : valid_program env_pc a (CSeed 7) (sample ++ [SCall int_list] ++ [SResult])) by at_sample.
  assert (HR : room env_pc a (CSeed 7) (sample ++ [SCall int_list] ++ [SResult])) by room_ex.
  destruct (query_exists env_pc a le_flavor (CSeed 7) sample int_list [SResult] env_pc_valid HV HR) as (q & HQ). exists q.
  exact (C77_prefix env_pc a le_flavor (CSeed 7) sample int_list 6 [SResult] q env_pc_valid HV HR HQ).
Qed.
Example C77_unordered_ex a : exists rs thrown, xruns env_pc a le_flavor (CSeed 7) (with_throw sample unord_ex 20 [SResult]) = Ok (rs, [thrown]) /\
    runs env_pc a le_flavor (CSeed 7) (sample ++ (if thrown then [] else [SCall unord_ex]) ++ [SResult]) = Ok rs.
Proof. apply C77_unordered; [exact env_pc_valid|exact I|at_sample|room_ex]. Qed.
Example C77_points_ex : exists N, forall a n, exists rs,
    xruns env_pc a le_flavor (CSeed 7) (with_throw sample unord_ex n [SResult]) = Ok (rs, [(n <? N)%nat]) /\
    ((N <= n)%nat -> runs env_pc a le_flavor (CSeed 7) (sample ++ [SCall unord_ex] ++ [SResult]) = Ok rs).
Proof.
  destruct (C77_points (e_impl env_pc) le_flavor unord_ex) as (N & HN). exists N. intros a n. apply HN; [reflexivity|exact env_pc_valid|at_sample|room_ex].
Qed.
Example C77_range_ex a : exists rs, xruns env_pc a le_flavor (CSeed 7) (with_throw sample (KRange (IIter CInput) (TInt I16 true) bytes_ex) 6 [SResult]) = Ok (rs, [true]) /\
    runs env_pc a le_flavor (CSeed 7) (sample ++ [SAppend (TInt I16 true) (VInt 3); SAppend (TInt I16 true) (VInt (-3))] ++ [SResult]) = Ok rs.
Proof. apply (C77_range env_pc a le_flavor (CSeed 7) sample CInput (TInt I16 true) bytes_ex 6 [SResult]); [exact env_pc_valid|exact I|at_sample|room_ex]. Qed.
Example C77_sized_ex a : exists rs, xruns env_pc a le_flavor (CSeed 7) (with_throw sample (KSized (IIter CRandom) (TInt I16 true) bytes_ex) 10 [SResult]) = Ok (rs, [true]) /\
    runs env_pc a le_flavor (CSeed 7) (sample ++ [SAppend (TInt I16 true) (VInt 3); SAppend (TInt I16 true) (VInt (-3)); SAppend (TInt I16 true) (VInt 5)] ++ [SResult]) = Ok rs.
Proof. apply (C77_sized env_pc a le_flavor (CSeed 7) sample CRandom (TInt I16 true) bytes_ex 10 [SResult]); [exact env_pc_valid|exact I|at_sample|room_ex]. Qed.
Example C77_list_ex a : exists rs, xruns env_pc a le_flavor (CSeed 7) (with_throw sample int_list 5 [SResult]) = Ok (rs, [true]) /\
    runs env_pc a le_flavor (CSeed 7) (sample ++ [SAppend (TInt I16 true) (VInt 3)] ++ [SResult]) = Ok rs.
Proof. apply (C77_list env_pc a le_flavor (CSeed 7) sample CRandom (TInt I16 true) bytes_ex 5 [SResult]); [exact env_pc_valid|exact I|at_sample|room_ex]. Qed.
Example C77_tuple_ex a : exists rs, xruns env_pc a le_flavor (CSeed 7) (with_throw sample (KVal (TTuple [TInt I16 true; TBool; TFlt64]) (VList [VInt 3; VInt 1; VInt 0])) 2 [SResult]) = Ok (rs, [true]) /\
    runs env_pc a le_flavor (CSeed 7) (sample ++ [SAppend (TInt I16 true) (VInt 3); SAppend TBool (VInt 1)] ++ [SResult]) = Ok rs.
Proof.
  apply (C77_tuple env_pc a le_flavor (CSeed 7) sample [TInt I16 true; TBool; TFlt64] [VInt 3; VInt 1; VInt 0] 2 [SResult]); [exact env_pc_valid|discriminate|repeat constructor|at_sample|room_ex].
Qed.
Example C77_tag_invoke_ex a : exists rs, xruns env_pc a le_flavor (CSeed 7) (with_throw sample (KVal (TTag [TInt I16 true; TBool]) (VList [VInt 3; VInt 1])) 2 [SResult]) = Ok (rs, [true]) /\
    runs env_pc a le_flavor (CSeed 7) (sample ++ [SAppend (TInt I16 true) (VInt 3); SAppend TBool (VInt 1)] ++ [SResult]) = Ok rs.
Proof.
  apply (C77_tag_invoke env_pc a le_flavor (CSeed 7) sample [TInt I16 true; TBool] [VInt 3; VInt 1] 2 [SResult]); [exact env_pc_valid|repeat constructor|at_sample|room_ex].
Qed.
(* the class Str of the documentation (PropsInvoke.v): its characters, then hash_append_size; left before the latter *)
Example C77_user_calls_ex a : let v := VList [VInt 2; VList (repeat (VInt 65) 32)] in
  exists rs, xruns env_pc a le_flavor (CSeed 7) (with_throw sample (KVal Str v) 1 [SResult]) = Ok (rs, [true]) /\
    runs env_pc a le_flavor (CSeed 7) (sample ++ [SCall (KRange IPtr (TInt I8 true) [VInt 65; VInt 65])] ++ [SResult]) = Ok rs.
Proof.
  intros v. apply (C77_user_calls env_pc a le_flavor (CSeed 7) sample Str_invoke [TInt I8 true] v [KRange IPtr (TInt I8 true) [VInt 65; VInt 65]; KSize 2] 1 [SResult]);
    [exact env_pc_valid|reflexivity|repeat constructor| |subst v; room_ex].
  apply (steps_valid env_pc); [reflexivity|exact eq_refl|]. unfold steps_ok. rewrite !Forall_app. split; [exact sample_ok|]. split; [|repeat constructor]. constructor; [|constructor]. split.
  - apply (Str_type I64 2). split; [lia|]. split; [reflexivity|]. cbn [repeat]. ok.
  - cbn [call_null_free form_null]. apply null_free_user. unfold UNF, v. cbn [Str_invoke Z.to_nat firstn repeat Pos.to_nat Pos.iter_op Nat.add]. cbn. ok.
Qed.

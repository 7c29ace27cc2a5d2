(* C81: exceptions of the hash algorithm (C78) and of other code of users (C77) in the same calls of hash_append (ModelThrowBoth.v).  T is any class whose
   update(), copy constructor or result() may throw, uop says which operations of iterators, containers and tag_invoke throw; both may depend on
   everything that happened before, and on each other. *)
From Verif Require Import Base BaseFacts SpecCommon Hasher GenBlk Types ModelResult ModelAppend SpecAppend
  ProofMsg ProofMsgEq ProofMsgExt ProofAppend Behaves ProofSpooky Instances ProofRuns PropsHistory Samples PropsAppend PropsInvoke PropsCalls PropsUpdates ModelThrow ModelThrowAlg ProofThrowAlg1 ProofThrowAlg2 ModelThrowBoth ProofThrowBoth1 ProofThrowBoth2 ProofThrowBoth3 ProofThrowBoth4.
From Verif Require PropsThrow.
Open Scope N_scope.

(* ---------- any algorithm, any operations ---------- *)
(* No unordered containers: a sequence of operations of users and of calls of update() that depends neither on the algorithm nor on what throws; they are
   made in this order until one of them throws, and nothing else is done to the object or to the world.  The calls of update() are those made if nothing
   throws *)
Theorem C81_sequence i f k : call_ok (im_psz i) k -> ordered_call k ->
  exists ls, good_calls (act_updates ls) /\ (productive k -> act_updates ls <> []) /\ (forall q, passed (act_updates ls) = call_message i f k q) /\
    (forall h gir st, ha_call h gir i f k st = do_updates h st (act_updates ls)) /\
    forall T uop gir w st, bha_call T uop gir i f k w st = until_any T uop w st ls.
Proof.
  intros HK HO. destruct (call_bfixed i f k HK HO) as (ls & V & E1 & E2). exists ls. split; [exact V|].
  destruct (C75_calls i f k HK HO) as (l2 & V2 & N2 & M2 & F2). split; [|split; [|split; [exact E1|exact E2]]].
  - intros HP HE. specialize (E1 spy (fun _ => Ok 0) []). rewrite F2, (do_updates_spy l2 V2), HE in E1. cbn [do_updates app] in E1. injection E1 as E1. apply map_eq_nil in E1. now apply N2.
  - intros q. rewrite <- (M2 q). specialize (E1 recorder (fun _ => Ok 0) []). rewrite F2, (do_updates_recorder l2 V2), (do_updates_recorder _ V) in E1. injection E1 as E1. now symmetry.
Qed.
(* which operations they are: ls is such a sequence for k *)
Definition performs (i : impl) (f : flavor) (k : call) (ls : list act) : Prop :=
  good_calls (act_updates ls) /\ (productive k -> act_updates ls <> []) /\ (forall q, passed (act_updates ls) = call_message i f k q) /\
  forall T uop gir w st, bha_call T uop gir i f k w st = until_any T uop w st ls.
Lemma all_perform i f ks : Forall (fun k => call_ok (im_psz i) k /\ ordered_call k) ks -> exists lss, Forall2 (performs i f) ks lss.
Proof.
  induction 1 as [|k ks [HK HO] _ (lss & IH)]; [exists []; constructor|].
  destruct (C81_sequence i f k HK HO) as (ls & V & HN & HM & _ & E). exists (ls :: lss). constructor; [|exact IH]. split; [exact V|]. split; [exact HN|]. split; [exact HM|exact E].
Qed.
(* iterators of class types: for each element *first != last, *first, the element, ++first *)
Definition iteration (lss : list (list act)) : list act := flat_map (fun ls => [AOp OTest; AOp ODeref] ++ ls ++ [AOp ONext]) lss ++ [AOp OTest].
Definition distance (c : icat) : list act := match c with CRandom => [AOp ODistance] | CInput => [] end.
Definition size_update (i : impl) (f : flavor) (n : nat) : act := AUpdate (Ptr (size_msg (order_le (fl_order f)) (fl_size f) n)) (ibytes (fl_size f)).
Lemma until_size i f T uop n w st : esize T i f n w st = until_any T uop w st [size_update i f n].
Proof.
  unfold esize, esize_of. rewrite int_update. unfold size_update, size_msg, enc. cbn [until_any]. rewrite Z.mod_mod by (apply Z.pow_nonzero; lia).
  destruct (t_update T w st _ _) as [[[w1 s1] [|]]| | | ]; reflexivity.
Qed.
Lemma any_one T uop p n w st : until_any T uop w st [AUpdate p n] = t_update T w st p n.
Proof. cbn [until_any]. destruct (t_update T w st p n) as [[[w1 s1] [|]]| | | ]; reflexivity. Qed.
Lemma until_op T uop o w st : buser T uop true o w st = until_any T uop w st [AOp o].
Proof. unfold buser. cbn [until_any]. destruct (uop w o) as [w1 [|]]; reflexivity. Qed.
Lemma until_distance T uop c w st : buser T uop (match c with CRandom => true | CInput => false end) ODistance w st = until_any T uop w st (distance c).
Proof. destruct c; [reflexivity|apply until_op]. Qed.
Lemma until_loop i f t vs lss : Forall2 (performs i f) (map (KVal t) vs) lss -> forall T uop gir w st, bloop T uop true (bha T uop gir i f t) vs w st = until_any T uop w st (iteration lss).
Proof.
  intros H T uop gir. revert lss H. induction vs as [|v vs IH]; intros lss H w st; inversion H as [|? ls ? lss' Hv H']; subst; [apply until_op|].
  assert (EI : iteration (ls :: lss') = [AOp OTest] ++ [AOp ODeref] ++ ls ++ [AOp ONext] ++ iteration lss') by (unfold iteration; cbn [flat_map app]; now rewrite <- !app_assoc).
  rewrite EI. cbn [bloop]. rewrite any_app, until_op.
  apply ebind_ext. intros w1 s1. rewrite any_app, until_op. apply ebind_ext. intros w2 s2. rewrite any_app, <- (proj2 (proj2 (proj2 Hv)) T uop gir). apply ebind_ext. intros w3 s3.
  rewrite any_app, until_op. apply ebind_ext. intros w4 s4. apply IH. exact H'.
Qed.
Theorem C81_iterators i f t c vs : ordered t -> Forall (has_type (im_psz i) t) vs ->
  exists lss, Forall2 (performs i f) (map (KVal t) vs) lss /\
    forall T uop gir w st,
      bha_call T uop gir i f (KRange (IIter c) t vs) w st = until_any T uop w st (iteration lss) /\
      bha_call T uop gir i f (KSized (IIter c) t vs) w st = until_any T uop w st (iteration lss ++ distance c ++ [size_update i f (length vs)]) /\
      bha_call T uop gir i f (KVal (TList c t) (VList vs)) w st = until_any T uop w st ([AOp OView] ++ iteration lss ++ distance c ++ [size_update i f (length vs)]).
Proof.
  intros HO HV. destruct (all_perform i f (map (KVal t) vs)) as (lss & H).
  { rewrite Forall_map. eapply Forall_impl; [|exact HV]. intros v Hv. split; [exact Hv|exact HO]. }
  exists lss. split; [exact H|]. intros T uop gir w st. cbn [bha_call bform]. split; [now apply until_loop|].
  assert (HS : forall w st, ebind T (bloop T uop true (bha T uop gir i f t) vs w st) (fun w st =>
    ebind T (buser T uop (match c with CRandom => true | CInput => false end) ODistance w st) (fun w st => esize T i f (length vs) w st)) =
    until_any T uop w st (iteration lss ++ distance c ++ [size_update i f (length vs)])).
  { intros w0 s0. rewrite any_app, (until_loop i f t vs lss H). apply ebind_ext. intros w1 s1. rewrite any_app, until_distance. apply ebind_ext. intros w2 s2. apply until_size. }
  split; [apply HS|]. cbn [bha contiguously_hashable trivially_comparable andb]. rewrite not_contig, any_app, until_op. apply ebind_ext. intros w1 s1. apply HS.
Qed.
(* tuple-like classes: get<I>( v ) before each element *)
Theorem C81_tuples i f ts vs : ts <> [] -> Forall ordered ts -> Forall2 (has_type (im_psz i)) ts vs ->
  exists lss, Forall2 (performs i f) (map (fun tv => KVal (fst tv) (snd tv)) (combine ts vs)) lss /\
    forall T uop gir w st, bha_call T uop gir i f (KVal (TTuple ts) (VList vs)) w st = until_any T uop w st (flat_map (fun ls => [AOp OGet] ++ ls) lss).
Proof.
  intros HN HO HV. destruct (all_perform i f (map (fun tv => KVal (fst tv) (snd tv)) (combine ts vs))) as (lss & H).
  { rewrite Forall_map. clear HN. induction HV as [|t v ts vs Hv _ IH]; [constructor|]. inversion HO; subst. cbn [combine]. constructor; [split; assumption|now apply IH]. }
  exists lss. split; [exact H|]. intros T uop gir w st. cbn [bha_call bform]. rewrite bha_tuple by exact HN. clear HN HO.
  revert lss H w st. induction HV as [|t v ts vs Hv _ IH]; intros lss H w st; cbn [combine map] in H; inversion H as [|? ls ? lss' H1 H']; subst; [reflexivity|].
  cbn [beach flat_map]. rewrite <- app_assoc, any_app, until_op. apply ebind_ext. intros w1 s1. rewrite any_app, <- (proj2 (proj2 (proj2 H1)) T uop gir). apply ebind_ext. intros w2 s2.
  now apply IH.
Qed.
(* tag_invoke: code of the user before, between and after the calls of hash_append it makes *)
Theorem C81_invoke i f g ts v ks : map (typed ts) (g v) = map Some ks -> Forall (fun k => call_ok (im_psz i) k /\ ordered_call k) ks ->
  exists lss, Forall2 (performs i f) ks lss /\
    forall T uop gir w st, bha_call T uop gir i f (KVal (TUser g ts) v) w st = until_any T uop w st (flat_map (fun ls => [AOp OCode] ++ ls) lss ++ [AOp OCode]).
Proof.
  intros HT HK. destruct (all_perform i f ks HK) as (lss & H). exists lss. split; [exact H|]. intros T uop gir w st. cbn [bha_call bform bha contiguously_hashable trivially_comparable andb].
  assert (HC : forall w st, bcalls T uop (fun c w st => ucase (fun z => esize_of T i f z w st) (fun t => bform T uop gir i f c t (bha T uop gir i f t) w st) UB ts c) (g v) w st =
    until_any T uop w st (flat_map (fun ls => [AOp OCode] ++ ls) lss ++ [AOp OCode])).
  { clear w st HK. revert ks lss HT H. induction (g v) as [|c cs IH]; intros [|k ks] lss HT H w st; try discriminate; inversion H as [|? ls ? lss' H1 H']; subst; [apply until_op|].
    cbn [map] in HT. injection HT as HT1 HT. cbn [bcalls flat_map]. rewrite <- !app_assoc, any_app, until_op. apply ebind_ext. intros w1 s1.
    rewrite any_app, <- (proj2 (proj2 (proj2 H1)) T uop gir).
    assert (E : ucase (fun z => esize_of T i f z w1 s1) (fun t => bform T uop gir i f c t (bha T uop gir i f t) w1 s1) UB ts c = bha_call T uop gir i f k w1 s1).
    { destruct c as [n x|d n xs|d n xs|n xs|z]; cbn [typed ucase] in *;
        try (destruct (nth_error ts n) as [t|] eqn:E; [|discriminate]; cbn in HT1; injection HT1 as <-; rewrite (alt_nth ts n t E); reflexivity).
      injection HT1 as <-. reflexivity. }
    rewrite E. apply ebind_ext. intros w2 s2. now apply (IH ks). }
  destruct v; rewrite not_contig; apply HC.
Qed.
(* Unordered ranges and containers, exactly: for each element *first != last, a copy of the object, *first, the element on the copy, the result of the
   copy, ++first; the first of these operations to throw ends the call.  Then the combined value and the number of elements are appended to the object *)
Fixpoint any_copies (T : thrower) (uop : t_W T -> user_op -> t_W T * bool) (gir : t_R T -> res N) (w : t_W T) (st : t_S T) (lss : list (list act)) (x : N) : res (t_W T * option N) :=
  match lss with
  | [] => match uop w OTest with (w, true) => Ok (w, None) | (w, false) => Ok (w, Some x) end
  | ls :: lss =>
      match uop w OTest with
      | (w, true) => Ok (w, None)
      | (w, false) =>
          c <- t_copy T w st ;;
          match c with
          | (w, None) => Ok (w, None)
          | (w, Some h2) =>
              y <- until_any T uop w h2 ([AOp ODeref] ++ ls) ;;
              match y with
              | (w, _, true) => Ok (w, None)
              | (w, h2, false) =>
                  r <- t_result T w h2 ;;
                  match r with
                  | (w, None) => Ok (w, None)
                  | (w, Some r) =>
                      z <- gir r ;;
                      match uop w ONext with
                      | (w, true) => Ok (w, None)
                      | (w, false) => any_copies T uop gir w st lss ((x + z) mod 2 ^ 64)
                      end
                  end
              end
          end
      end
  end.
Lemma bunord_copies T uop gir i f t vs lss : Forall2 (performs i f) (map (KVal t) vs) lss -> forall w st x m,
  bunord T uop gir (bha T uop gir i f t) w st vs x m =
    (o <- any_copies T uop gir w st lss x ;; Ok (fst o, match snd o with Some x => Some (x, (m + length vs)%nat) | None => None end)).
Proof.
  revert lss. induction vs as [|v vs IH]; intros lss H w st x m; inversion H as [|? ls ? lss' Hv H']; subst; cbn [bunord any_copies].
  - destruct (uop w OTest) as [w1 [|]]; cbn [bind fst snd length]; [reflexivity|now rewrite Nat.add_0_r].
  - destruct (uop w OTest) as [w1 [|]]; [reflexivity|]. destruct (t_copy T w1 st) as [[w2 [h2|]]| | | ]; cbn [bind]; try reflexivity.
    assert (E : ebind T (buser T uop true ODeref w2 h2) (bha T uop gir i f t v) = until_any T uop w2 h2 ([AOp ODeref] ++ ls)).
    { rewrite any_app, until_op. apply ebind_ext. intros w3 s3. exact (proj2 (proj2 (proj2 Hv)) T uop gir w3 s3). }
    rewrite E. destruct (until_any T uop w2 h2 ([AOp ODeref] ++ ls)) as [[[w3 s3] [|]]| | | ]; cbn [bind]; try reflexivity.
    destruct (t_result T w3 s3) as [[w4 [r|]]| | | ]; cbn [bind]; try reflexivity. destruct (gir r) as [z| | |]; cbn [bind]; try reflexivity.
    destruct (uop w4 ONext) as [w5 [|]]; [reflexivity|]. unfold add64, w64. rewrite (IH lss' H').
    destruct (any_copies T uop gir w5 st lss' ((x + z) mod 2 ^ 64)) as [[w6 [y|]]| | | ]; cbn [bind fst snd]; try reflexivity. cbn [length]. do 4 f_equal. lia.
Qed.
Theorem C81_copies i f t vs : ordered t -> Forall (has_type (im_psz i) t) vs ->
  exists lss, Forall2 (performs i f) (map (KVal t) vs) lss /\
    forall T uop gir w st,
      let run w :=
        (o <- any_copies T uop gir w st lss 0 ;;
         match o with
         | (w, None) => Ok (w, st, true)
         | (w, Some x) => until_any T uop w st [AUpdate (Ptr (enc (order_le (fl_order f)) 8 (Z.of_N x))) 8; size_update i f (length vs)]
         end) in
      bha_call T uop gir i f (KUnord t vs) w st = run w /\
      bha_call T uop gir i f (KVal (TUnord t) (VList vs)) w st = match uop w OView with (w, true) => Ok (w, st, true) | (w, false) => run w end.
Proof.
  intros HO HV. destruct (all_perform i f (map (KVal t) vs)) as (lss & H).
  { rewrite Forall_map. eapply Forall_impl; [|exact HV]. intros v Hv. split; [exact Hv|exact HO]. }
  exists lss. split; [exact H|]. intros T uop gir w st run.
  assert (HR : forall w, bunord_range T uop gir i f (bha T uop gir i f t) vs w st = run w).
  { intros w0. unfold bunord_range, run. rewrite (bunord_copies T uop gir i f t vs lss H). destruct (any_copies T uop gir w0 st lss 0) as [[w1 [x|]]| | |]; cbn [bind fst snd]; try reflexivity.
    change [AUpdate ?p ?n; ?b] with ([AUpdate p n] ++ [b]). rewrite any_app, int_update, Nat.add_0_l. cbn [ibytes].
    rewrite any_one. apply ebind_ext. intros w2 s2. apply until_size. }
  split; [apply HR|]. cbn [bha_call bform bha contiguously_hashable trivially_comparable andb]. rewrite not_contig. unfold buser. destruct (uop w OView) as [w1 [|]]; cbn [fst snd ebind bind]; [reflexivity|apply HR].
Qed.
(* Every call: the state the object is left in comes from calls of update() on it, of which only the last may have thrown *)
Theorem C81_any T uop gir i f k w st w' st' b : call_ok (im_psz i) k -> bha_call T uop gir i f k w st = Ok (w', st', b) ->
  exists ls b', good_calls ls /\ (productive k -> b = false -> ls <> []) /\ updated T st ls st' b' /\ (b = false -> b' = false).
Proof. intros HK E. exact (call_bdoes T uop gir i f k w st HK w' st' b E). Qed.
(* Unordered ranges and containers: an exception leaves the object unchanged, unless it is thrown by update() on the object itself *)
Theorem C81_unordered T uop gir i f k w st w' st' : call_ok (im_psz i) k -> unordered_call k -> bha_call T uop gir i f k w st = Ok (w', st', true) ->
  st' = st \/ exists ls, good_calls ls /\ (length ls = 1 \/ length ls = 2)%nat /\ updated T st ls st' true.
Proof.
  intros HK U E.
  assert (HF : st' = st \/ exists F vs w0, bunord_range T uop gir i f F vs w0 st = Ok (w', st', true)).
  { destruct k as [t v|d t vs|d t vs|t vs|z]; cbn [unordered_call] in U; try contradiction.
    - destruct t; try contradiction. destruct v as [z|vs]; [contradiction|]. cbn [bha_call bform bha contiguously_hashable trivially_comparable andb] in E. rewrite not_contig in E.
      unfold buser in E. destruct (uop w OView) as [w0 [|]]; cbn [fst snd ebind bind] in E; [left; congruence|right; eauto].
    - cbn [bha_call bform] in E. eauto. }
  destruct HF as [HF|(F & vs & w0 & HF)]; [now left|]. destruct (edoes_unord T uop gir i f F vs w0 st w' st' true HF) as (ls & b' & V & L & _ & D & _ & HN).
  destruct b'.
  - right. exists ls. split; [exact V|]. split; [|exact D].
    destruct ls as [|l ls]; [inversion D|]. cbn [length] in *. lia.
  - left. rewrite (HN eq_refl eq_refl) in D. now inversion D.
Qed.

(* ---------- an algorithm whose operations throw before they do anything ---------- *)
(* the program, without the exceptions *)
Definition called (x : gstep) : ustep := match x with GPlain x => x | GCall k => SCall k end.
Definition valid_calls e a c (xs : list gstep) : Prop := valid_program e a c (map called xs) /\ room e a c (map called xs).

Section Abs.
Variable h : hasher.
Variable W : Type.
Variable may : W -> event -> W * bool.
Variable uop : W -> user_op -> W * bool.
Variable nul : bool.
Variables A R : Type.
Variables (au : A -> list N -> A) (ar' : A -> h_R h * A) (ar : A -> R * A) (out : h_R h -> R).
Variables (ok : A -> Prop) (Rel : A -> h_S h -> Prop) (fits : A -> nat -> Prop).
Hypothesis RF : refines h nul A au ar' ok Rel.
Hypothesis FL : fits_laws au ar' ok fits.
Hypothesis HO : forall a, out (fst (ar' a)) = fst (ar a) /\ snd (ar' a) = snd (ar a).
Variable gir : h_R h -> res N.
Variable g : R -> N.
Hypothesis Hg : forall a r, out r = fst (ar a) -> gir r = Ok (g (out r)).
Variable i : impl.
Variable f : flavor.
Notation CM := (call_message i f).
Fixpoint bmatch (a : A) (xs : list gstep) (ys : list ustep) (bs : list bool) : Prop :=
  match xs, ys with
  | [], [] => bs = []
  | GPlain x :: xs, y :: ys => y = x /\ bmatch (asteps au ar g CM a [x]) xs ys bs
  | GCall k :: xs, y :: ys =>
      match bs with
      | [] => False
      | b :: bs =>
          (exists j, y = feed (firstn j (CM k (aq au ar g a))) /\
            (b = false -> firstn j (CM k (aq au ar g a)) = CM k (aq au ar g a)) /\
            (b = true -> bthrows W may uop /\ (unordered_call k -> j = 0%nat \/ (j = 8%nat /\ throws W may)))) /\
          bmatch (asteps au ar g CM a [y]) xs ys bs
      end
  | _, _ => False
  end.
Lemma feed_steps a m : asteps au ar g CM a [feed m] = au a m.
Proof. cbn [asteps feed data]. now rewrite firstn_all. Qed.
Lemma bprun_ok xs : forall a w s, Rel a s -> Forall (valid_step nul i) (map called xs) -> fits a (weight (map called xs)) ->
  exists rs bs ys, bprun h W may uop gir i f w s xs = Ok (rs, bs) /\ bmatch a xs ys bs /\ map out rs = aprun au ar g CM a ys /\
    Forall (valid_step nul i) ys /\ (weight ys <= weight (map called xs))%nat.
Proof.
  assert (Hg' : forall a, gir (fst (ar' a)) = Ok (g (out (fst (ar' a))))) by (intros a; apply (Hg a), HO).
  induction xs as [|x xs IH]; intros a w s R0 HX F0.
  - exists [], [], []. repeat split; [constructor|apply le_n].
  - inversion HX as [|? ? Hx HX']; subst.
    unfold weight in F0. cbn [map lsum fold_right] in F0. change (fold_right Nat.add 0%nat (map step_weight (map called xs))) with (weight (map called xs)) in F0.
    assert (OK : ok a) by (exact (fl_ok _ _ _ _ FL _ _ F0)).
    destruct x as [[p n| |k]|k]; cbn [called step_weight bprun] in *.
    + assert (F1 : fits (au a (data p n)) (weight (map called xs))).
      { apply (fl_au _ _ _ _ FL). now rewrite (proj2 (valid_data _ _ _ Hx)). }
      destruct (rf_update _ _ _ _ _ _ _ RF a s p n R0 OK Hx (fl_ok _ _ _ _ FL _ _ F1)) as (s1 & E1 & R1). rewrite E1. cbn [bind].
      destruct (IH _ w _ R1 HX' F1) as (rs & bs & ys & E & M & O & V & L). exists rs, bs, (SUpdate p n :: ys). split; [exact E|]. split; [now split|]. split; [exact O|].
      split; [now constructor|]. cbn [map called]. rewrite !weight_cons. cbn [step_weight]. lia.
    + assert (F1 : fits (snd (ar' a)) (weight (map called xs))) by (now apply (fl_ar _ _ _ _ FL)).
      destruct (rf_result _ _ _ _ _ _ _ RF a s R0 OK (fl_ok _ _ _ _ FL _ _ F1)) as (s1 & E1 & R1). rewrite E1. cbn [bind].
      destruct (HO a) as [O1 O2]. rewrite O2 in R1, F1. destruct (IH _ w _ R1 HX' F1) as (rs & bs & ys & E & M & O & V & L). cbn [fst snd]. rewrite E. cbn [bind].
      exists (fst (ar' a) :: rs), bs, (SResult :: ys). split; [reflexivity|]. split; [now split|]. split; [cbn [map aprun]; now rewrite O1, O|].
      split; [now constructor|]. cbn [map called]. rewrite !weight_cons. cbn [step_weight]. lia.
    + assert (FM : fits a (call_blen k)) by (apply (fl_mono _ _ _ _ FL _ _ _ F0); lia).
      destruct (call_feeds h nul A au ar' ok Rel RF fits FL gir (fun r => g (out r)) Hg' i f k a s (proj2 Hx) R0 (proj1 Hx) FM) as (s1 & E1 & R1).
      rewrite E1. cbn [bind].
      assert (EM : call_msg (order_le (fl_order f)) (fl_size f) (im_psz i) (fadd0 i 8 23) (fadd0 i 11 52) k
                     (qa h A au ar' (fun r => g (out r)) a) = CM k (aq au ar g a)).
      { apply call_msg_ext. intros m. unfold qa, aq. destruct (HO (au a m)) as [O1 _]. now rewrite O1. }
      rewrite EM in R1. destruct (IH _ w _ R1 HX') as (rs & bs & ys & E & M & O & V & L).
      { apply (fl_au _ _ _ _ FL). apply (fl_mono _ _ _ _ FL _ _ _ F0). apply Nat.add_le_mono_r. apply call_blen_ok. }
      exists rs, bs, (SCall k :: ys). split; [exact E|]. split; [now split|]. split; [exact O|]. split; [now constructor|]. cbn [map called]. rewrite !weight_cons. cbn [step_weight]. lia.
    + assert (FM : fits a (call_blen k)) by (apply (fl_mono _ _ _ _ FL _ _ _ F0); lia).
      assert (HJ : exists w1 s1 b j, bha_call (guarded h W may) uop gir i f k w s = Ok (w1, s1, b) /\ Rel (au a (firstn j (CM k (aq au ar g a)))) s1 /\
                    (b = false -> firstn j (CM k (aq au ar g a)) = CM k (aq au ar g a)) /\ (b = true -> bthrows W may uop /\ (unordered_call k -> j = 0%nat \/ (j = 8%nat /\ throws W may)))).
      { assert (EM : call_msg (order_le (fl_order f)) (fl_size f) (im_psz i) (fadd0 i 8 23) (fadd0 i 11 52) k
                     (qa h A au ar' (fun r => g (out r)) a) = CM k (aq au ar g a)).
        { apply call_msg_ext. intros m. unfold qa, aq. destruct (HO (au a m)) as [O1 _]. now rewrite O1. }
        assert (D : unordered_call k \/ ~ unordered_call k) by (destruct k as [[] [] | | | |]; cbn; auto). destruct D as [D|D].
        - destruct (bunordered_feeds h W may uop nul A au ar' ok Rel RF fits FL gir (fun r => g (out r)) Hg' i f k a w s (proj2 Hx) D R0 (proj1 Hx) FM) as (w1 & s1 & b & j & E1 & R1 & H1 & H2).
          rewrite EM in R1, H1. exists w1, s1, b, j. split; [exact E1|]. split; [exact R1|]. split; [exact H1|]. intros Hb. destruct (H2 Hb). split; auto.
        - destruct (bcall_feeds h W may uop nul A au ar' ok Rel RF fits FL gir (fun r => g (out r)) Hg' i f k a w s (proj2 Hx) R0 (proj1 Hx) FM) as (w1 & s1 & b & j & E1 & R1 & H1 & H2).
          rewrite EM in R1, H1. exists w1, s1, b, j. split; [exact E1|]. split; [exact R1|]. split; [exact H1|]. intros Hb. split; [now apply H2|contradiction]. }
      destruct HJ as (w1 & s1 & b & j & E1 & R1 & H1 & H2).
      match goal with |- exists rs bs ys, bind ?r _ = _ /\ _ => replace r with (Ok (w1, s1, b)) by (exact (eq_sym E1)) end. cbn [bind].
      assert (BL : (length (firstn j (CM k (aq au ar g a))) <= call_blen k)%nat).
      { pose proof (call_blen_ok (order_le (fl_order f)) (fl_size f) (im_psz i) (fadd0 i 8 23) (fadd0 i 11 52) k (aq au ar g a)) as H. rewrite firstn_length. unfold call_message. lia. }
      destruct (IH _ w1 _ R1 HX') as (rs & bs & ys & E & M & O & V & L).
      { apply (fl_au _ _ _ _ FL). apply (fl_mono _ _ _ _ FL _ _ _ F0). now apply Nat.add_le_mono_r. }
      rewrite E. cbn [bind fst snd].
      exists rs, (b :: bs), (feed (firstn j (CM k (aq au ar g a))) :: ys). split; [reflexivity|]. split; [|split; [|split]].
      * cbn [bmatch]. split; [exists j; auto|]. rewrite feed_steps. exact M.
      * cbn [aprun feed data]. rewrite firstn_all. exact O.
      * constructor; [|exact V]. split; [apply le_n|]. apply PropsThrow.prefix_bytes, call_msg_bytes.
      * cbn [map called]. rewrite !weight_cons. cbn [step_weight feed]. lia.
Qed.
End Abs.

(* some operation of the hash algorithm, or of other classes of users, throws an exception, in some world *)
Definition alg_throws {W} (may : W -> event -> W * bool) : Prop := exists w e, snd (may w e) = true.
Definition user_throws {W} (uop : W -> user_op -> W * bool) : Prop := exists w o, snd (uop w o) = true.
(* a program leaves each GCall having fed the hash algorithm a prefix of the message of the call *)
(* [ys]: the program with an update instead of each GCall; [q]: as in append_feeds, the 64-bit result of the program so far followed by an update *)
Fixpoint left_both e a f c {W} (may : W -> event -> W * bool) (uop : W -> user_op -> W * bool) (before : list ustep) (xs : list gstep) (ys : list ustep) (thrown : list bool) : Prop :=
  match xs, ys, thrown with
  | [], [], [] => True
  | GPlain x :: xs, y :: ys, thrown => y = x /\ left_both e a f c may uop (before ++ [y]) xs ys thrown
  | GCall k :: xs, y :: ys, b :: thrown =>
      (exists q m j, is_query e a f c before (call_blen k) q /\ m = call_message (e_impl e) f k q /\
         y = feed (firstn j m) /\
         (b = false -> firstn j m = m) /\                                  (* the call returned: all of the message *)
         (b = true -> alg_throws may \/ user_throws uop) /\
         (b = true -> unordered_call k -> j = 0%nat \/ (j = 8%nat /\ alg_throws may))) /\        (* unordered ranges and containers: nothing, or the combined value *)
      left_both e a f c may uop (before ++ [y]) xs ys thrown
  | _, _, _ => False
  end.
Lemma bruns_ok e a f c W (may : W -> event -> W * bool) (uop : W -> user_op -> W * bool) w xs : valid_env e -> valid_calls e a c xs ->
  exists rs bs ys, bruns e a f c may uop w xs = Ok (rs, bs) /\
    bmatch W may uop _ _ (mc_au (machine_of (e_cw e) a)) (mc_ar (machine_of (e_cw e) a)) result64 (e_impl e) f (mc_start (machine_of (e_cw e) a) c) xs ys bs /\
    rs = expected e a f c ys /\ valid_program e a c ys /\ (weight ys <= weight (map called xs))%nat.
Proof.
  intros HE [[HC HX] HR]. destruct (alg_behaves e a HE) as (Rel & ar' & ok & fits & RF & FL & HO & HS).
  destruct (HS c _ HC HR) as (s0 & E0 & R0 & F0).
  destruct (bprun_ok _ W may uop _ _ _ _ _ _ _ _ _ _ RF FL HO (pk_gir (pack e a)) result64) with (i := e_impl e) (f := f) (xs := xs) (a := mc_start (machine_of (e_cw e) a) c) (s := s0) (w := w)
    as (rs & bs & ys & E & M & O & V & L); [|exact R0|exact HX|exact F0|].
  - intros x r H. apply pack_gir. rewrite H. apply machine_digest.
  - exists (map (pk_out (pack e a)) rs), bs, ys. split; [|split; [exact M|split; [exact O|split; [now split|exact L]]]].
    unfold bruns. rewrite E0. cbn [bind]. rewrite E. reflexivity.
Qed.
Lemma match_both e a f c W (may : W -> event -> W * bool) (uop : W -> user_op -> W * bool) xs : valid_env e -> forall before ys bs,
  bmatch W may uop _ _ (mc_au (machine_of (e_cw e) a)) (mc_ar (machine_of (e_cw e) a)) result64 (e_impl e) f (state e a f c before) xs ys bs ->
  valid_program e a c (before ++ ys) -> roomy e a c (weight before + weight (map called xs)) ->
  left_both e a f c may uop before xs ys bs.
Proof.
  intros HE. induction xs as [|x xs IH]; intros before ys bs M HV HR.
  - destruct ys; [|contradiction]. cbn [bmatch] in M. subst bs. exact I.
  - assert (NX : forall y, asteps (mc_au (machine_of (e_cw e) a)) (mc_ar (machine_of (e_cw e) a)) result64 (call_message (e_impl e) f) (state e a f c before) [y] = state e a f c (before ++ [y])).
    { intros y. unfold state. now rewrite asteps_app. }
    destruct ys as [|y ys]; [destruct x; contradiction|].
    assert (HV' : valid_program e a c ((before ++ [y]) ++ ys)) by (now rewrite <- app_assoc).
    assert (HN : roomy e a c (weight (before ++ [y]) + weight (map called xs)) -> forall bs,
      bmatch W may uop _ _ (mc_au (machine_of (e_cw e) a)) (mc_ar (machine_of (e_cw e) a)) result64 (e_impl e) f (state e a f c (before ++ [y])) xs ys bs -> left_both e a f c may uop (before ++ [y]) xs ys bs).
    { intros R bs' M'. now apply IH. }
    cbn [map called] in HR. rewrite weight_cons in HR.
    destruct x as [x|k]; cbn [bmatch] in M.
    + destruct M as [-> M]. rewrite NX in M. assert (G : left_both e a f c may uop (before ++ [x]) xs ys bs).
      { apply HN; [|exact M]. apply (roomy_mono _ _ _ _ _ HR). rewrite weight_app, weight_cons. cbn [called]. unfold weight at 2. cbn [map lsum fold_right]. lia. }
      cbn [left_both]. destruct bs; now split.
    + destruct bs as [|b bs]; [contradiction|]. destruct M as ((j & EY & H1 & H2) & M). rewrite NX in M. cbn [called step_weight] in HR.
      change (aq (mc_au (machine_of (e_cw e) a)) (mc_ar (machine_of (e_cw e) a)) result64 (state e a f c before)) with (query e a f c before) in *.
      cbn [left_both]. split.
      * exists (query e a f c before), (call_message (e_impl e) f k (query e a f c before)), j.
        assert (HQ : is_query e a f c before (call_blen k) (query e a f c before)).
        { intros x Bx Lx. apply query_runs; [exact HE|exact (valid_app _ _ _ _ _ HV)|exact Bx|]. apply (roomy_mono _ _ _ _ _ HR). lia. }
        split; [exact HQ|]. split; [reflexivity|]. split; [exact EY|]. split; [exact H1|]. split; intros Hb; [exact (proj1 (H2 Hb))|exact (proj2 (H2 Hb))].
      * apply HN; [|exact M]. apply (roomy_mono _ _ _ _ _ HR). rewrite weight_app. subst y. unfold weight at 2, feed. cbn [map step_weight lsum fold_right].
        pose proof (call_blen_ok (order_le (fl_order f)) (fl_size f) (im_psz (e_impl e)) (fadd0 (e_impl e) 8 23) (fadd0 (e_impl e) 11 52) k (query e a f c before)) as H.
        rewrite firstn_length. unfold call_message in *. lia.
Qed.
(* every program with exceptions runs to completion, and its results are those of a program without *)
Theorem C81_programs e a f c W (may : W -> event -> W * bool) (uop : W -> user_op -> W * bool) w xs : valid_env e -> valid_calls e a c xs ->
  exists rs thrown ys, bruns e a f c may uop w xs = Ok (rs, thrown) /\ left_both e a f c may uop [] xs ys thrown /\ runs e a f c ys = Ok rs.
Proof.
  intros HE HX. destruct (bruns_ok e a f c W may uop w xs HE HX) as (rs & bs & ys & E & M & O & V & L). exists rs, bs, ys. split; [exact E|]. split.
  - apply match_both; [exact HE|exact M|exact V|exact (proj2 HX)].
  - rewrite O. apply runs_expected; [exact HE|exact V|]. unfold room. apply (roomy_mono _ _ _ _ _ (proj2 HX) L).
Qed.
Lemma both_plain e a f c W (may : W -> event -> W * bool) (uop : W -> user_op -> W * bool) xs rest : forall before ys bs, left_both e a f c may uop before (map GPlain xs ++ rest) ys bs ->
  exists ys', ys = xs ++ ys' /\ left_both e a f c may uop (before ++ xs) rest ys' bs.
Proof.
  induction xs as [|x xs IH]; intros before ys bs H.
  - exists ys. split; [reflexivity|]. now rewrite app_nil_r.
  - destruct ys as [|y ys]; [destruct H|]. assert (H' : y = x /\ left_both e a f c may uop (before ++ [y]) (map GPlain xs ++ rest) ys bs) by (cbn [map app left_both] in H; destruct bs; exact H).
    destruct H' as [-> H']. destruct (IH _ _ _ H') as (ys' & -> & H2). exists ys'. split; [reflexivity|]. now rewrite <- app_assoc in H2.
Qed.
Lemma both_all_plain e a f c W (may : W -> event -> W * bool) (uop : W -> user_op -> W * bool) xs before ys bs : left_both e a f c may uop before (map GPlain xs) ys bs -> ys = xs /\ bs = [].
Proof.
  intros H. rewrite <- (app_nil_r (map GPlain xs)) in H. destruct (both_plain _ _ _ _ _ _ _ _ _ _ _ _ H) as (ys' & -> & H2).
  destruct ys'; [|destruct bs; destruct H2]. destruct bs; [|destruct H2]. split; [apply app_nil_r|reflexivity].
Qed.
Lemma called_plain xs : map called (map GPlain xs) = xs.
Proof. rewrite map_map. apply map_id. Qed.
(* the program pre, a call on the object whose operations may throw, and post *)
Notation with_throw pre k post := (map GPlain pre ++ [GCall k] ++ map GPlain post) (only parsing).
Lemma both_valid e a c pre k post : valid_program e a c (pre ++ [SCall k] ++ post) -> room e a c (pre ++ [SCall k] ++ post) -> valid_calls e a c (with_throw pre k post).
Proof. intros HV HR. unfold valid_calls. rewrite !map_app. cbn [map called]. rewrite !called_plain. now split. Qed.
(* one call: q as in append_feeds *)
Theorem C81_prefix e a f c W (may : W -> event -> W * bool) (uop : W -> user_op -> W * bool) w pre k post q : valid_env e ->
  valid_program e a c (pre ++ [SCall k] ++ post) -> room e a c (pre ++ [SCall k] ++ post) ->
  is_query e a f c pre (call_blen k) q ->
  exists rs thrown j, bruns e a f c may uop w (with_throw pre k post) = Ok (rs, [thrown]) /\
    runs e a f c (pre ++ [feed (firstn j (call_message (e_impl e) f k q))] ++ post) = Ok rs /\
    (thrown = false -> runs e a f c (pre ++ [SCall k] ++ post) = Ok rs) /\
    (thrown = true -> alg_throws may \/ user_throws uop) /\
    (thrown = true -> unordered_call k -> j = 0%nat \/ (j = 8%nat /\ alg_throws may)).
Proof.
  intros HE HV HR HQ. destruct (C81_programs e a f c W may uop w _ HE (both_valid e a c pre k post HV HR)) as (rs & bs & ys & E & L & RS).
  apply both_plain in L. destruct L as (ys' & -> & L). cbn [app] in L.
  destruct ys' as [|y ys']; [destruct L|]. destruct bs as [|b bs]; [destruct L|]. cbn [left_both] in L. destruct L as ((q1 & m & j & Q1 & EM & -> & H1 & H2 & H3) & L).
  apply both_all_plain in L. destruct L as [-> ->]. exists rs, b, j.
  rewrite (PropsThrow.same_message e a f c pre (call_blen k) q q1 k (le_n _) HQ Q1), <- EM. split; [exact E|]. split; [exact RS|]. split; [|split; [exact H2|exact H3]].
  intros Hb. rewrite (H1 Hb) in RS. destruct (append_feeds e a f c pre k post q1 m HE HV HR Q1 EM) as (rs' & A1 & A2). cbn [app] in RS, A2. rewrite A2 in RS. congruence.
Qed.
(* when no operation throws, nothing is lost *)
Theorem C81_never e a f c W (may : W -> event -> W * bool) (uop : W -> user_op -> W * bool) w pre k post : valid_env e ->
  valid_program e a c (pre ++ [SCall k] ++ post) -> room e a c (pre ++ [SCall k] ++ post) ->
  (forall w x, snd (may w x) = false) -> (forall w o, snd (uop w o) = false) ->
  exists rs, bruns e a f c may uop w (with_throw pre k post) = Ok (rs, [false]) /\ runs e a f c (pre ++ [SCall k] ++ post) = Ok rs.
Proof.
  intros HE HV HR HM HU. destruct (query_exists e a f c pre k post HE HV HR) as (q & HQ).
  destruct (C81_prefix e a f c W may uop w pre k post q HE HV HR HQ) as (rs & b & j & E & _ & H1 & H2 & _). exists rs. destruct b.
  - destruct (H2 eq_refl) as [(w0 & x & H)|(w0 & x & H)]; [rewrite HM in H|rewrite HU in H]; discriminate.
  - split; [exact E|now apply H1].
Qed.

(* ---------- C78 and C77 are the special cases ---------- *)
(* when only the algorithm throws, the calls are those of ModelThrowAlg.v *)
Theorem C81_algorithm_only T uop gir i f k w st : (forall w o, uop w o = (w, false)) -> bha_call T uop gir i f k w st = eha_call T gir i f k w st.
Proof. intros HU. exact (alg_only_call T uop HU gir i f k w st). Qed.
(* when the algorithm does not throw, and the world is the number of operations of users that are still to succeed, the calls are those of ModelThrow.v *)
Theorem C81_users_only h gir i f k n st :
  (x <- bha_call (guarded h nat no_throw) countdown gir i f k n st ;; match x with (n, st, b) => Ok (st, if b : bool then None else Some n) end) = xha_call h gir i f k n st.
Proof. exact (user_only_call h gir i f k n st). Qed.

(* ---------- examples ---------- *)
(* a class that keeps the bytes in a buffer that can hold so many; update() throws when it is full, and has then written a part of the data.  The world
   counts the operations of users that are still to succeed *)
Definition small_buffer (cap : nat) : thrower :=
  {| t_W := nat; t_S := list N; t_R := list N;
     t_update := fun w s p n => let s' := s ++ data p n in Ok (w, firstn cap s', (cap <? length s')%nat);
     t_copy := fun w s => Ok (w, Some s);
     t_result := fun w s => Ok (w, Some s) |}.
(* the operations of the algorithm and those of users count together *)
Definition budget (n : nat) (x : event) : nat * bool := match n with O => (O, true) | S n => (n, false) end.
Definition list_ex : list val := [VInt 3; VInt (-3); VInt 5].
Definition int_list : call := KVal (TList CRandom (TInt I16 true)) (VList list_ex).
Definition unord_ex : call := KUnord (TList CInput (TInt I8 true)) [VList [VInt 3]; VList []; VList [VInt 5; VInt (-7)]].
Definition bools : call := KVal (TUnord TBool) (VList [VInt 0; VInt 1]).
Lemma bools_ok i : call_ok (im_psz i) bools.
Proof. cbn. repeat constructor; lia. Qed.
Lemma int_list_ok i : call_ok (im_psz i) int_list.
Proof. unfold int_list, list_ex. cbn. repeat constructor; unfold in_int; cbn; lia. Qed.
(* the third operation after the first piece throws, or the second int16_t does not fit any more *)
Example C81_sequence_ex : exists ls, passed (act_updates ls) = [0; 3; 255; 253; 0; 5; 0; 0; 0; 3] /\
  (forall n, bha_call (small_buffer 3) countdown (fun _ => Ok 0) (e_impl env_be) be32_flavor int_list n [] = until_any (small_buffer 3) countdown n [] ls) /\
  until_any (small_buffer 3) countdown 5%nat [] ls = Ok (0%nat, [0; 3], true) /\
  until_any (small_buffer 3) countdown 7%nat [] ls = Ok (1%nat, [0; 3; 255], true).
Proof.
  destruct (C81_sequence (e_impl env_be) be32_flavor int_list (int_list_ok _) Logic.I) as (ls & V & HN & HM & _ & E).
  exists ls. split; [rewrite (HM (fun _ => 0)); reflexivity|]. split; [intros; apply E|].
  rewrite <- (E (small_buffer 3) countdown (fun _ => Ok 0) 5%nat []). rewrite <- (E (small_buffer 3) countdown (fun _ => Ok 0) 7%nat []). split; reflexivity.
Qed.
Example C81_iterators_ex : exists lss, length lss = 3%nat /\ forall n, bha_call (small_buffer 3) countdown (fun _ => Ok 0) (e_impl env_be) be32_flavor int_list n [] =
  until_any (small_buffer 3) countdown n [] ([AOp OView] ++ iteration lss ++ [AOp ODistance] ++ [AUpdate (Ptr [0; 0; 0; 3]) 4]).
Proof.
  destruct (C81_iterators (e_impl env_be) be32_flavor (TInt I16 true) CRandom list_ex Logic.I) as (lss & H & E); [exact (int_list_ok _)|].
  exists lss. split; [inversion H as [|? ? ? ? _ H1]; subst; inversion H1 as [|? ? ? ? _ H2]; subst; inversion H2 as [|? ? ? ? _ H3]; subst; inversion H3; subst; reflexivity|]. intros n. apply (E (small_buffer 3) countdown (fun _ => Ok 0) n []).
Qed.
Example C81_tuples_ex : exists l1 l2, passed (act_updates l1) = [0; 1; 255; 254; 0; 0; 0; 2] /\ passed (act_updates l2) = [1; 0; 1; 0; 0; 0; 3] /\
  forall n, bha_call (small_buffer 9) countdown (fun _ => Ok 0) (e_impl env_be) be32_flavor (KVal nested_ty nested_val) n [] =
    until_any (small_buffer 9) countdown n [] ([AOp OGet] ++ l1 ++ [AOp OGet] ++ l2).
Proof.
  destruct (C81_tuples (e_impl env_be) be32_flavor [TVec (TInt I16 true); TList CInput TBool] [VList [VInt 1; VInt (-2)]; VList [VInt 1; VInt 0; VInt 1]]) as (lss & H & E).
  - discriminate.
  - repeat constructor.
  - repeat constructor; unfold in_int; cbn; lia.
  - inversion H as [|? l1 ? ? H1 H2]; subst. inversion H2 as [|? l2 ? ? H3 H4]; subst. inversion H4; subst. exists l1, l2.
    split; [rewrite (proj1 (proj2 (proj2 H1)) (fun _ => 0)); reflexivity|]. split; [rewrite (proj1 (proj2 (proj2 H3)) (fun _ => 0)); reflexivity|].
    intros n. refine (eq_trans (E (small_buffer 9) countdown (fun _ => Ok 0) n []) _). cbn [flat_map app]. now rewrite app_nil_r.
Qed.
(* class X of the documentation *)
Example C81_invoke_ex : exists l1 l2, passed (act_updates l1) = [65; 66; 0; 0; 0; 2] /\ passed (act_updates l2) = [255; 255; 255; 251] /\
  forall n, bha_call (small_buffer 9) countdown (fun _ => Ok 0) (e_impl env_be) be32_flavor (KVal X (VList [VList [VInt 65; VInt 66]; VInt (-5); VInt 0])) n [] =
    until_any (small_buffer 9) countdown n [] ([AOp OCode] ++ l1 ++ [AOp OCode] ++ l2 ++ [AOp OCode]).
Proof.
  destruct (C81_invoke (e_impl env_be) be32_flavor X_invoke [string_; TInt I32 true] (VList [VList [VInt 65; VInt 66]; VInt (-5); VInt 0])
    [KVal string_ (VList [VInt 65; VInt 66]); KVal (TInt I32 true) (VInt (-5))] eq_refl) as (lss & H & E).
  - repeat constructor; unfold in_int; cbn; lia.
  - inversion H as [|? l1 ? ? H1 H2]; subst. inversion H2 as [|? l2 ? ? H3 H4]; subst. inversion H4; subst. exists l1, l2.
    split; [rewrite (proj1 (proj2 (proj2 H1)) (fun _ => 0)); reflexivity|]. split; [rewrite (proj1 (proj2 (proj2 H3)) (fun _ => 0)); reflexivity|].
    intros n. refine (eq_trans (E (small_buffer 9) countdown (fun _ => Ok 0) n []) _). cbn [flat_map]. rewrite app_nil_r, <- !app_assoc. reflexivity.
Qed.
Example C81_copies_ex : exists l1 l2, passed (act_updates l1) = [0] /\ passed (act_updates l2) = [1] /\
  forall n, bha_call (guarded call_counter nat budget) countdown (fun r => Ok r) (e_impl env_be) be32_flavor (KUnord TBool [VInt 0; VInt 1]) n 7 =
    (o <- any_copies (guarded call_counter nat budget) countdown (fun r => Ok r) n 7 [l1; l2] 0 ;;
     match o with
     | (w, None) => Ok (w, 7, true)
     | (w, Some x) => until_any (guarded call_counter nat budget) countdown w 7 [AUpdate (Ptr (enc false 8 (Z.of_N x))) 8; AUpdate (Ptr [0; 0; 0; 2]) 4]
     end).
Proof.
  destruct (C81_copies (e_impl env_be) be32_flavor TBool [VInt 0; VInt 1] Logic.I (bools_ok (e_impl env_be))) as (lss & H & E).
  inversion H as [|? l1 ? ? H1 H2]; subst. inversion H2 as [|? l2 ? ? H3 H4]; subst. inversion H4; subst. exists l1, l2.
  split; [rewrite (proj1 (proj2 (proj2 H1)) (fun _ => 0)); reflexivity|]. split; [rewrite (proj1 (proj2 (proj2 H3)) (fun _ => 0)); reflexivity|].
  intros n. exact (proj1 (E (guarded call_counter nat budget) countdown (fun r => Ok r) n 7)).
Qed.
Example C81_any_ex : exists ls b', good_calls ls /\ updated (small_buffer 3) [] ls [0; 3] b'.
Proof.
  destruct (C81_any (small_buffer 3) countdown (fun _ => Ok 0) (e_impl env_be) be32_flavor int_list 5%nat [] 0%nat [0; 3] true (int_list_ok _)) as (ls & b' & V & _ & U & _).
  - reflexivity.
  - exists ls, b'. now split.
Qed.
(* 9 bytes have been fed: the operations of the user that is left throws, or the combined value does not fit *)
Example C81_unordered_ex : let st := repeat 7 9 in
  (st = st \/ exists ls, good_calls ls /\ (length ls = 1 \/ length ls = 2)%nat /\ updated (small_buffer 16) st ls st true) /\
  (st ++ repeat 0 7 = st \/ exists ls, good_calls ls /\ (length ls = 1 \/ length ls = 2)%nat /\ updated (small_buffer 16) st ls (st ++ repeat 0 7) true).
Proof.
  intros st. split.
  - apply (C81_unordered (small_buffer 16) countdown (fun _ => Ok 0) (e_impl env_be) be32_flavor bools 7%nat st 0%nat st (bools_ok _) I). reflexivity.
  - apply (C81_unordered (small_buffer 16) countdown (fun _ => Ok 0) (e_impl env_be) be32_flavor bools 9%nat st 1%nat (st ++ repeat 0 7) (bools_ok _) I). reflexivity.
Qed.
Ltac at_sample := match goal with |- valid_program _ _ _ (sample ++ ?xs) => apply (steps_valid env_pc); [reflexivity|exact eq_refl|unfold steps_ok; rewrite !Forall_app; split; [exact sample_ok|]; split; [|repeat constructor]; unfold int_list, unord_ex, list_ex; ok] end.
Definition throws_ex : list gstep := map GPlain sample ++ [GCall unord_ex; GCall int_list; GPlain SResult; GCall int_list; GPlain SResult].
Example C81_programs_ex a n : exists rs thrown ys, bruns env_pc a le_flavor (CSeed 7) budget countdown n throws_ex = Ok (rs, thrown) /\
  left_both env_pc a le_flavor (CSeed 7) budget countdown [] throws_ex ys thrown /\ runs env_pc a le_flavor (CSeed 7) ys = Ok rs.
Proof.
  apply C81_programs; [exact env_pc_valid|]. split.
  - unfold throws_ex. rewrite map_app, called_plain. cbn [map called]. apply (steps_valid env_pc); [reflexivity|exact eq_refl|]. unfold steps_ok. rewrite Forall_app. split; [exact sample_ok|].
    unfold int_list, unord_ex, list_ex. ok.
  - unfold throws_ex. rewrite map_app, called_plain. room_ex.
Qed.
Example C81_prefix_ex a n : exists q rs thrown j, bruns env_pc a le_flavor (CSeed 7) budget countdown n (with_throw sample unord_ex [SResult]) = Ok (rs, [thrown]) /\
    runs env_pc a le_flavor (CSeed 7) (sample ++ [feed (firstn j (call_message (e_impl env_pc) le_flavor unord_ex q))] ++ [SResult]) = Ok rs /\
    (thrown = false -> runs env_pc a le_flavor (CSeed 7) (sample ++ [SCall unord_ex] ++ [SResult]) = Ok rs) /\
    (thrown = true -> alg_throws budget \/ user_throws countdown) /\
    (thrown = true -> unordered_call unord_ex -> j = 0%nat \/ (j = 8%nat /\ alg_throws budget)).
Proof.
  assert (HV : valid_program env_pc a (CSeed 7) (sample ++ [SCall unord_ex] ++ [SResult])) by at_sample.
  assert (HR : room env_pc a (CSeed 7) (sample ++ [SCall unord_ex] ++ [SResult])) by room_ex.
  destruct (query_exists env_pc a le_flavor (CSeed 7) sample unord_ex [SResult] env_pc_valid HV HR) as (q & HQ). exists q.
  exact (C81_prefix env_pc a le_flavor (CSeed 7) nat budget countdown n sample unord_ex [SResult] q env_pc_valid HV HR HQ).
Qed.
(* a world that counts the operations *)
Example C81_never_ex a : exists rs, bruns env_pc a le_flavor (CSeed 7) (fun w x => (S w, false)) (fun w o => (w + 10, false))%nat 0%nat (with_throw sample unord_ex [SResult]) = Ok (rs, [false]) /\
    runs env_pc a le_flavor (CSeed 7) (sample ++ [SCall unord_ex] ++ [SResult]) = Ok rs.
Proof. apply C81_never; [exact env_pc_valid|at_sample|room_ex|reflexivity|reflexivity]. Qed.
Example C81_algorithm_only_ex : bha_call (guarded call_counter nat budget) (fun w o => (w, false)) (fun r => Ok r) (e_impl env_be) be32_flavor bools 3%nat 7 = Ok (0%nat, 7, true).
Proof. rewrite C81_algorithm_only by reflexivity. reflexivity. Qed.
Example C81_users_only_ex : exists n st, bha_call (guarded call_counter nat no_throw) countdown (fun r => Ok r) (e_impl env_be) be32_flavor int_list 5%nat 7 = Ok (n, st, true) /\
  xha_call call_counter (fun r => Ok r) (e_impl env_be) be32_flavor int_list 5%nat 7 = Ok (st, None).
Proof.
  assert (E := C81_users_only call_counter (fun r => Ok r) (e_impl env_be) be32_flavor int_list 5%nat 7).
  assert (H : bha_call (guarded call_counter nat no_throw) countdown (fun r => Ok r) (e_impl env_be) be32_flavor int_list 5%nat 7 = Ok (0%nat, 8, true)) by reflexivity.
  exists 0%nat, 8. split; [exact H|]. rewrite H in E. exact (eq_sym E).
Qed.

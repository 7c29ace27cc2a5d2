(* C76: the range functions and iterators: a single pass suffices, each element is read once; what value_type and reference matter. *)
From Verif Require Import Base BaseFacts SpecCommon Hasher Types ModelResult ModelAppend SpecAppend ProofMsg
  Behaves Instances ProofRuns Samples PropsHistory PropsAlg PropsAppend ModelIter.
Open Scope N_scope.

(* ---------- specification ---------- *)
(* In world w the range [first, last) can be traversed once, and gives the elements vs: as long as the iterator differs from last it is
   dereferenced and incremented.  w' is the world after this single pass.  Nothing is said of a second pass, or of other orders of
   the operations. *)
Inductive single_pass {It W : Type} (I : iterators It W) (last : It) : It -> W -> list val -> W -> Prop :=
| pass_end first w w1 : it_ne I first last w = Ok (false, w1) -> single_pass I last first w [] w1
| pass_step first w w1 v w2 next w3 vs w4 : it_ne I first last w = Ok (true, w1) -> it_get I first w1 = Ok (v, w2) ->
    it_inc I first w2 = Ok (next, w3) -> single_pass I last next w3 vs w4 -> single_pass I last first w (v :: vs) w4.
(* n is a value of the difference_type *)
Definition countable (s : isz) (n : nat) : Prop := (Z.of_nat n < 2 ^ (8 * Z.of_nat (ibytes s) - 1))%Z.
(* hash_append of each element, as the value_type or as the type the iterator refers to *)
Definition as_values {It W} (I : iterators It W) (vs : list val) : list ustep := map (fun v => SAppend (it_val I) (it_conv I v)) vs.
Definition as_references {It W} (I : iterators It W) (vs : list val) : list ustep := map (fun v => SAppend (it_ref I) v) vs.
(* the program xs, whose iterators act on the world, has the effect of the program ys, and turns the world w into w' *)
Inductive acts_as {W : Type} : W -> list (istep W) -> list ustep -> W -> Prop :=
| acts_end w : acts_as w [] [] w
| acts_plain x w xs ys w' : acts_as w xs ys w' -> acts_as w (IPlain x :: xs) (x :: ys) w'
| acts_range It (I : iterators It W) first last w vs w1 xs ys w' : single_pass I last first w vs w1 -> acts_as w1 xs ys w' ->
    acts_as w (IIterate FRange I first last :: xs) (as_values I vs ++ ys) w'
| acts_sized It (I : iterators It W) first last w vs w1 xs ys w' : it_cat I = CInput -> single_pass I last first w vs w1 -> countable (it_dif I) (length vs) ->
    acts_as w1 xs ys w' ->
    acts_as w (IIterate FSized I first last :: xs) (as_references I vs ++ [SCall (KSize (Z.of_nat (length vs)))] ++ ys) w'
| acts_random It (I : iterators It W) first last w vs w1 n w2 xs ys w' : it_cat I = CRandom -> single_pass I last first w vs w1 -> it_sub I last first w1 = Ok (n, w2) ->
    acts_as w2 xs ys w' ->
    acts_as w (IIterate FSized I first last :: xs) (as_values I vs ++ [SCall (KSize n)] ++ ys) w'
| acts_unordered It (I : iterators It W) first last w vs w1 xs ys w' : single_pass I last first w vs w1 -> countable (it_dif I) (length vs) ->
    acts_as w1 xs ys w' ->
    acts_as w (IIterate FUnord I first last :: xs) (SCall (KUnord (it_ref I) vs) :: ys) w'.

(* ---------- the loops ---------- *)
Lemma bind_assoc {A B C} (x : res A) (g : A -> res B) (k : B -> res C) : bind (bind x g) k = bind x (fun a => bind (g a) k).
Proof. now destruct x. Qed.
Lemma dif_inc_ok s m n : countable s (m + S n) -> dif_inc s (Z.of_nat m) = Ok (Z.of_nat (S m)).
Proof. unfold countable, dif_inc. intros H. destruct (Z.ltb_spec (Z.of_nat m + 1) (2 ^ (8 * Z.of_nat (ibytes s) - 1))); [f_equal; lia|lia]. Qed.
Section Loops.
Variable h : hasher.
Variable gir : h_R h -> res N.
Variable i : impl.
Variable f : flavor.
Context {It W : Type}.
Variable I : iterators It W.
Variable last : It.
Lemma range_pass first w vs w' : single_pass I last first w vs w' -> forall k st, (S (length vs) <= k)%nat ->
  it_range h gir i f I last k first w st = (st' <- ha_loop h (fun v => ha h gir i f (it_val I) (it_conv I v)) vs st ;; Ok (st', w')).
Proof.
  induction 1 as [first w w1 E|first w w1 v w2 next w3 vs w4 E1 E2 E3 HP IH]; intros k st Hk; (destruct k as [|k]; [cbn in Hk; lia|]); cbn [it_range ha_loop].
  - rewrite E. reflexivity.
  - rewrite E1. cbn [bind]. rewrite E2. cbn [bind]. destruct (ha h gir i f (it_val I) (it_conv I v) st) as [st'| | |]; cbn [bind]; try reflexivity.
    rewrite E3. cbn [bind]. apply IH. cbn [length] in Hk. lia.
Qed.
Lemma sized_pass first w vs w' : single_pass I last first w vs w' -> forall k m st, (S (length vs) <= k)%nat -> countable (it_dif I) (m + length vs) ->
  it_sized_loop h gir i f I last k first w (Z.of_nat m) st = (st' <- ha_loop h (ha h gir i f (it_ref I)) vs st ;; Ok (st', Z.of_nat (m + length vs), w')).
Proof.
  induction 1 as [first w w1 E|first w w1 v w2 next w3 vs w4 E1 E2 E3 HP IH]; intros k m st Hk Hm; (destruct k as [|k]; [cbn in Hk; lia|]); cbn [it_sized_loop ha_loop].
  - rewrite E. cbn [bind length]. now rewrite Nat.add_0_r.
  - rewrite E1. cbn [bind]. rewrite E2. cbn [bind]. destruct (ha h gir i f (it_ref I) v st) as [st'| | |]; cbn [bind]; try reflexivity.
    rewrite E3. cbn [bind]. cbn [length] in Hm, Hk. rewrite (dif_inc_ok _ _ _ Hm). cbn [bind]. rewrite IH by (try lia; rewrite Nat.add_succ_comm; exact Hm). cbn [length]. now rewrite Nat.add_succ_comm.
Qed.
Lemma unord_pass first w vs w' : single_pass I last first w vs w' -> forall k m x st, (S (length vs) <= k)%nat -> countable (it_dif I) (m + length vs) ->
  it_unord_loop h gir i f I last k first w (Z.of_nat m) x st =
  ('(x, m) <- ha_unord h gir (ha h gir i f (it_ref I)) st vs x m ;; Ok (x, Z.of_nat m, w')).
Proof.
  induction 1 as [first w w1 E|first w w1 v w2 next w3 vs w4 E1 E2 E3 HP IH]; intros k m x st Hk Hm; (destruct k as [|k]; [cbn in Hk; lia|]); cbn [it_unord_loop ha_unord].
  - rewrite E. reflexivity.
  - rewrite E1. cbn [bind]. rewrite E2. cbn [bind]. destruct (ha h gir i f (it_ref I) v st) as [h2| | |]; cbn [bind]; try reflexivity.
    destruct (h_result h h2) as [[r h3]| | |]; cbn [bind]; try reflexivity. destruct (gir r) as [y| | |]; cbn [bind]; try reflexivity.
    rewrite E3. cbn [bind]. cbn [length] in Hm, Hk. rewrite (dif_inc_ok _ _ _ Hm). cbn [bind]. apply IH; [lia|]. rewrite Nat.add_succ_comm. exact Hm.
Qed.
Lemma prun_loop t (g : val -> val) vs ys : forall st,
  prun h gir i f st (map (fun v => SAppend t (g v)) vs ++ ys) = (st' <- ha_loop h (fun v => ha h gir i f t (g v)) vs st ;; prun h gir i f st' ys).
Proof using Type.
  induction vs as [|v vs IH]; intros st; [reflexivity|]. cbn [map app prun ha_loop ha_call form_ha]. rewrite bind_assoc.
  destruct (ha h gir i f t (g v) st) as [st'| | |]; cbn [bind]; try reflexivity. apply IH.
Qed.
End Loops.
Lemma iprun_acts h gir i f {W : Type} (w : W) xs ys w' : acts_as w xs ys w' -> exists k0, forall k s, (k0 <= k)%nat ->
  iprun h gir i f k s w xs = (rs <- prun h gir i f s ys ;; Ok (rs, w')).
Proof.
  induction 1 as [w|x w xs ys w' HA IH|It I first last w vs w1 xs ys w' HP HA IH|It I first last w vs w1 xs ys w' HC HP HD HA IH
                 |It I first last w vs w1 n w2 xs ys w' HC HP HS HA IH|It I first last w vs w1 xs ys w' HP HD HA IH].
  - exists 0%nat. reflexivity.
  - destruct IH as (k0 & IH). exists k0. intros k s Hk. destruct x as [p n| |c]; cbn [iprun prun]; rewrite bind_assoc.
    + destruct (h_update h s p n); cbn [bind]; try reflexivity. now apply IH.
    + destruct (h_result h s) as [[r s']| | |]; cbn [bind]; try reflexivity. rewrite IH by exact Hk. rewrite !bind_assoc. now destruct (prun h gir i f s' ys).
    + destruct (ha_call h gir i f c s); cbn [bind]; try reflexivity. now apply IH.
  - destruct IH as (k0 & IH). exists (Nat.max k0 (S (length vs))). intros k s Hk. cbn [iprun it_call]. rewrite (range_pass h gir i f I last _ _ _ _ HP) by lia.
    unfold as_values. rewrite prun_loop, !bind_assoc. destruct (ha_loop _ _ vs s); cbn [bind]; try reflexivity. apply IH. lia.
  - destruct IH as (k0 & IH). exists (Nat.max k0 (S (length vs))). intros k s Hk. cbn [iprun it_call]. unfold it_sized. rewrite HC.
    change 0%Z with (Z.of_nat 0). rewrite (sized_pass h gir i f I last _ _ _ _ HP) by (try exact HD; lia).
    unfold as_references. rewrite (prun_loop h gir i f (it_ref I) (fun v => v)), !bind_assoc. change (fun v => ha h gir i f (it_ref I) v) with (ha h gir i f (it_ref I)).
    destruct (ha_loop _ _ vs s) as [st| | |]; cbn [bind]; try reflexivity. cbn [app prun ha_call Nat.add]. rewrite !bind_assoc.
    destruct (ha_size_of h i f _ st); cbn [bind]; try reflexivity. apply IH. lia.
  - destruct IH as (k0 & IH). exists (Nat.max k0 (S (length vs))). intros k s Hk. cbn [iprun it_call]. unfold it_sized. rewrite HC.
    rewrite (range_pass h gir i f I last _ _ _ _ HP) by lia.
    unfold as_values. rewrite prun_loop, !bind_assoc. destruct (ha_loop _ _ vs s) as [st| | |]; cbn [bind]; try reflexivity. rewrite HS. cbn [bind app prun ha_call]. rewrite !bind_assoc.
    destruct (ha_size_of h i f n st); cbn [bind]; try reflexivity. apply IH. lia.
  - destruct IH as (k0 & IH). exists (Nat.max k0 (S (length vs))). intros k s Hk. cbn [iprun it_call prun ha_call form_ha]. unfold it_unord.
    change 0%Z with (Z.of_nat 0). rewrite (unord_pass h gir i f I last _ _ _ _ HP) by (try exact HD; lia). rewrite !bind_assoc.
    destruct (ha_unord h gir (ha h gir i f (it_ref I)) s vs 0 0) as [[x m]| | |]; cbn [bind]; try reflexivity. rewrite !bind_assoc.
    destruct (ha_int h i f I64 (Z.of_N x) s) as [st| | |]; cbn [bind]; try reflexivity. unfold ha_size. rewrite !bind_assoc.
    destruct (ha_size_of h i f (Z.of_nat m) st); cbn [bind]; try reflexivity. apply IH. lia.
Qed.

(* ---------- C76 ---------- *)
(* Every program with calls of the range functions on iterators of class types, each of which allows a single pass, terminates, gives
   the results of the program ys of ordinary calls, and leaves the world the passes leave. *)
Theorem C76_single_pass e a f c {W : Type} (w : W) xs ys w' : valid_env e -> acts_as w xs ys w' -> valid_program e a c ys -> room e a c ys ->
  exists rs k0, runs e a f c ys = Ok rs /\ forall k, (k0 <= k)%nat -> iruns e a f c k w xs = Ok (rs, w').
Proof.
  intros HE HA HV HR. destruct (iprun_acts (pk_h (pack e a)) (pk_gir (pack e a)) (e_impl e) f w xs ys w' HA) as (k0 & HK).
  pose proof (runs_expected e a f c ys HE HV HR) as ER. exists (expected e a f c ys), k0. split; [exact ER|]. intros k Hk.
  unfold iruns. unfold runs, program in ER. destruct (construct (pk_h (pack e a)) c) as [s| | |]; cbn [bind] in *; try discriminate.
  rewrite HK by exact Hk. destruct (prun _ _ _ _ s ys) as [rs| | |]; cbn [bind] in *; try discriminate. now injection ER as ->.
Qed.

(* ---------- iterators whose elements have the type t ---------- *)
Definition elements_of {It W} (I : iterators It W) (t : ty) : Prop := it_ref I = t /\ it_val I = t /\ forall v, it_conv I v = v.
Lemma elements_of_id {It W} (I : iterators It W) t : it_ref I = t -> it_val I = t -> (forall x, it_conv I x = x) -> elements_of I t.
Proof. repeat split; assumption. Qed.
(* the call of C41 that takes the elements themselves *)
Definition call_with (fn : ifun) (ic : icat) (t : ty) (vs : list val) : call :=
  match fn with FRange => KRange (IIter ic) t vs | FSized => KSized (IIter ic) t vs | FUnord => KUnord t vs end.
(* w1 is the world after the pass; w2 also after last - first, where this is evaluated, giving the number of elements *)
Definition counted {It W} (fn : ifun) (I : iterators It W) (first last : It) (vs : list val) (w1 w2 : W) : Prop :=
  match fn, it_cat I with
  | FRange, _ => w2 = w1
  | FSized, CRandom => it_sub I last first w1 = Ok (Z.of_nat (length vs), w2)
  | _, _ => countable (it_dif I) (length vs) /\ w2 = w1
  end.
(* the program xs gives the elements of ys *)
Inductive gives {W : Type} : W -> list (istep W) -> list ustep -> W -> Prop :=
| gives_end w : gives w [] [] w
| gives_plain x w xs ys w' : gives w xs ys w' -> gives w (IPlain x :: xs) (x :: ys) w'
| gives_range fn It (I : iterators It W) first last t w vs w1 w2 xs ys w' : elements_of I t -> single_pass I last first w vs w1 -> counted fn I first last vs w1 w2 ->
    gives w2 xs ys w' -> gives w (IIterate fn I first last :: xs) (SCall (call_with fn (it_cat I) t vs) :: ys) w'.
Lemma as_values_elements {It W} (I : iterators It W) t vs : elements_of I t -> as_values I vs = map (fun v => SAppend t v) vs.
Proof. intros (_ & E & EC). unfold as_values. rewrite E. apply map_ext. intros v. now rewrite EC. Qed.
Lemma gives_acts h gir i f {W : Type} (w : W) xs ys w' : gives w xs ys w' -> exists ys', acts_as w xs ys' w' /\ forall s, prun h gir i f s ys = prun h gir i f s ys'.
Proof.
  induction 1 as [w|x w xs ys w' HG IH|fn It J first last t w vs w1 w2 xs ys w' HE HP HC HG IH].
  - exists []. split; [constructor|reflexivity].
  - destruct IH as (ys' & HA & E). exists (x :: ys'). split; [now constructor|]. intros s. destruct x as [p n| |k]; cbn [prun].
    + destruct (h_update h s p n); cbn [bind]; auto.
    + destruct (h_result h s) as [[r s']| | |]; cbn [bind]; auto. now rewrite E.
    + destruct (ha_call h gir i f k s); cbn [bind]; auto.
  - destruct IH as (ys' & HA & E). unfold counted in HC.
    assert (KL : forall s zs, prun h gir i f s (map (fun v => SAppend t v) vs ++ zs) = (st' <- ha_loop h (ha h gir i f t) vs s ;; prun h gir i f st' zs)).
    { intros s zs. exact (prun_loop h gir i f t (fun v => v) vs zs s). }
    assert (KB : forall A (r : res (h_S h)) (k1 k2 : h_S h -> res A), (forall x, k1 x = k2 x) -> bind r k1 = bind r k2).
    { intros A r k1 k2 HK. destruct r; cbn [bind]; auto. }
    destruct fn.
    + subst w2. exists (as_values J vs ++ ys'). split; [econstructor; eassumption|]. intros s. rewrite (as_values_elements J t vs HE), KL.
      cbn [prun call_with ha_call form_ha]. apply KB. exact E.
    + destruct (it_cat J) eqn:EC.
      * destruct HC as [HC ->]. exists (as_references J vs ++ [SCall (KSize (Z.of_nat (length vs)))] ++ ys'). split; [econstructor; eassumption|]. intros s.
        unfold as_references. rewrite (proj1 HE), KL. cbn [app prun call_with ha_call form_ha]. rewrite bind_assoc. apply KB. intros st. unfold ha_size. apply KB. exact E.
      * exists (as_values J vs ++ [SCall (KSize (Z.of_nat (length vs)))] ++ ys'). split; [econstructor; eassumption|]. intros s.
        rewrite (as_values_elements J t vs HE), KL. cbn [app prun call_with ha_call form_ha]. rewrite bind_assoc. apply KB. intros st. unfold ha_size. apply KB. exact E.
    + assert (HC' : countable (it_dif J) (length vs) /\ w2 = w1) by (destruct (it_cat J); exact HC). destruct HC' as [HD ->].
      exists (SCall (KUnord (it_ref J) vs) :: ys'). split; [econstructor; eassumption|]. intros s. rewrite (proj1 HE). cbn [prun]. apply KB. exact E.
Qed.
(* Every program whose ranges are given by iterators has the results of the program that calls the same functions with the elements
   themselves (to which C28-C41 apply). *)
Theorem C76_ranges e a f c {W : Type} (w : W) xs ys w' : valid_env e -> gives w xs ys w' -> valid_program e a c ys -> room e a c ys ->
  exists rs k0, runs e a f c ys = Ok rs /\ forall k, (k0 <= k)%nat -> iruns e a f c k w xs = Ok (rs, w').
Proof.
  intros HE HG HV HR. destruct (gives_acts (pk_h (pack e a)) (pk_gir (pack e a)) (e_impl e) f w xs ys w' HG) as (ys' & HA & E).
  destruct (iprun_acts (pk_h (pack e a)) (pk_gir (pack e a)) (e_impl e) f w xs ys' w' HA) as (k0 & HK).
  pose proof (runs_expected e a f c ys HE HV HR) as ER. exists (expected e a f c ys), k0. split; [exact ER|]. intros k Hk.
  unfold iruns. unfold runs, program in ER. destruct (construct (pk_h (pack e a)) c) as [s| | |]; cbn [bind] in *; try discriminate.
  rewrite HK by exact Hk. rewrite <- E. destruct (prun _ _ _ _ s ys) as [rs| | |]; cbn [bind] in *; try discriminate. now injection ER as ->.
Qed.
Lemma gives_app {W} (w : W) xs ys w1 : gives w xs ys w1 -> forall xs' ys' w2, gives w1 xs' ys' w2 -> gives w (xs ++ xs') (ys ++ ys') w2.
Proof. induction 1; intros; cbn [app]; [assumption|constructor; auto|econstructor; eauto]. Qed.
Lemma gives_steps {W} (w : W) ys : gives w (map IPlain ys) ys w.
Proof. induction ys; cbn [map]; constructor; assumption. Qed.

(* A sized range given by iterators of any class type and category has the results of a vector, list, deque ... of the same elements. *)
Theorem C76_container e a f c {It W : Type} (I : iterators It W) first last t w vs w1 w2 ic pre post : valid_env e ->
  elements_of I t -> single_pass I last first w vs w1 -> counted FSized I first last vs w1 w2 ->
  valid_program e a c (pre ++ [SAppend (TList ic t) (VList vs)] ++ post) -> room e a c (pre ++ [SAppend (TList ic t) (VList vs)] ++ post) ->
  exists rs k0, runs e a f c (pre ++ [SAppend (TList ic t) (VList vs)] ++ post) = Ok rs /\
    forall k, (k0 <= k)%nat -> iruns e a f c k w (map IPlain pre ++ [IIterate FSized I first last] ++ map IPlain post) = Ok (rs, w2).
Proof.
  intros HE HI HP HC HV HR.
  assert (HV' : valid_program e a c (pre ++ [SCall (call_with FSized (it_cat I) t vs)] ++ post)).
  { refine (valid_replace e a c pre _ post _ HV _). constructor; [|constructor]. cbn [valid_step call_with]. destruct (valid_call _ _ _ _ _ _ HV) as [HT HN]. cbn [call_ok form_ok has_type] in HT. split; [exact HT|].
    intros H; destruct (HN H) as [H1|H1]; [now left|right; exact H1]. }
  assert (HR' : room e a c (pre ++ [SCall (call_with FSized (it_cat I) t vs)] ++ post)).
  { eapply room_replace; [exact HR|]. apply le_n. }
  destruct (C41_sized_range e a f c pre (IIter (it_cat I)) t vs post HE HV' HR' ic) as (rs & E1 & E2).
  destruct (C76_ranges e a f c w (map IPlain pre ++ [IIterate FSized I first last] ++ map IPlain post) (pre ++ [SCall (call_with FSized (it_cat I) t vs)] ++ post) w2 HE) as (rs' & k0 & E1' & EK); try assumption.
  { apply gives_app with (w1 := w); [apply gives_steps|]. cbn [app]. econstructor; [exact HI|exact HP|exact HC|apply gives_steps]. }
  cbn [call_with] in E1'. rewrite E1 in E1'. injection E1' as <-. exists rs, k0. split; [exact E2|exact EK].
Qed.
(* and hash_append_unordered_range that of an unordered container *)
Theorem C76_unordered e a f c {It W : Type} (I : iterators It W) first last t w vs w1 pre post : valid_env e ->
  elements_of I t -> single_pass I last first w vs w1 -> countable (it_dif I) (length vs) ->
  valid_program e a c (pre ++ [SAppend (TUnord t) (VList vs)] ++ post) -> room e a c (pre ++ [SAppend (TUnord t) (VList vs)] ++ post) ->
  exists rs k0, runs e a f c (pre ++ [SAppend (TUnord t) (VList vs)] ++ post) = Ok rs /\
    forall k, (k0 <= k)%nat -> iruns e a f c k w (map IPlain pre ++ [IIterate FUnord I first last] ++ map IPlain post) = Ok (rs, w1).
Proof.
  intros HE HI HP HC HV HR.
  assert (HV' : valid_program e a c (pre ++ [SCall (KUnord t vs)] ++ post)).
  { refine (valid_replace e a c pre _ post _ HV _). constructor; [|constructor]. exact (valid_call _ _ _ _ _ _ HV). }
  assert (HR' : room e a c (pre ++ [SCall (KUnord t vs)] ++ post)).
  { eapply room_replace; [exact HR|]. apply le_n. }
  destruct (C41_unordered_range e a f c pre t vs post HE HV' HR') as (rs & E1 & E2).
  destruct (C76_ranges e a f c w (map IPlain pre ++ [IIterate FUnord I first last] ++ map IPlain post) (pre ++ [SCall (KUnord t vs)] ++ post) w1 HE) as (rs' & k0 & E1' & EK); try assumption.
  { apply gives_app with (w1 := w); [apply gives_steps|]. cbn [app]. change (KUnord t vs) with (call_with FUnord (it_cat I) t vs).
    econstructor; [exact HI|exact HP| |apply gives_steps]. unfold counted. destruct (it_cat I); split; auto. }
  rewrite E1 in E1'. injection E1' as <-. exists rs, k0. split; [exact E2|exact EK].
Qed.

(* ---------- what is done with the iterators ---------- *)
(* The same iterators, in a world that also records the operations performed. *)
Inductive operation := OCompare | ODereference | OIncrement | ODistance.
Definition logged {It W} (I : iterators It W) : iterators It (list operation * W) :=
  {| it_cat := it_cat I; it_ref := it_ref I; it_val := it_val I; it_conv := it_conv I; it_dif := it_dif I;
     it_ne := fun a b '(l, w) => '(r, w) <- it_ne I a b w ;; Ok (r, (l ++ [OCompare], w));
     it_get := fun a '(l, w) => '(r, w) <- it_get I a w ;; Ok (r, (l ++ [ODereference], w));
     it_inc := fun a '(l, w) => '(r, w) <- it_inc I a w ;; Ok (r, (l ++ [OIncrement], w));
     it_sub := fun a b '(l, w) => '(r, w) <- it_sub I a b w ;; Ok (r, (l ++ [ODistance], w)) |}.
(* one traversal of n elements: each is read exactly once, after a comparison and before the increment *)
Definition traversal (n : nat) : list operation := concat (repeat [OCompare; ODereference; OIncrement] n) ++ [OCompare].
(* last - first is evaluated once, by hash_append_sized_range on random access iterators *)
Definition operations (fn : ifun) (ic : icat) (n : nat) : list operation :=
  traversal n ++ match fn, ic with FSized, CRandom => [ODistance] | _, _ => [] end.
Lemma logged_pass {It W} (I : iterators It W) last first w vs w' : single_pass I last first w vs w' -> forall l,
  single_pass (logged I) last first (l, w) vs (l ++ traversal (length vs), w').
Proof.
  induction 1 as [first w w1 E|first w w1 v w2 next w3 vs w4 E1 E2 E3 HP IH]; intros l.
  - constructor. cbn [logged it_ne]. now rewrite E.
  - eapply pass_step; [cbn [logged it_ne]; rewrite E1; reflexivity|cbn [logged it_get]; rewrite E2; reflexivity|cbn [logged it_inc]; rewrite E3; reflexivity|].
    replace (l ++ traversal (length (v :: vs))) with ((((l ++ [OCompare]) ++ [ODereference]) ++ [OIncrement]) ++ traversal (length vs)); [apply IH|].
    rewrite <- !app_assoc. reflexivity.
Qed.
(* Each of the range functions traverses the range exactly once, and does nothing else with the iterators. *)
Theorem C76_operations e a f c {It W : Type} (I : iterators It W) fn first last t w vs w1 w2 pre post : valid_env e ->
  elements_of I t -> single_pass I last first w vs w1 -> counted fn I first last vs w1 w2 ->
  valid_program e a c (pre ++ [SCall (call_with fn (it_cat I) t vs)] ++ post) -> room e a c (pre ++ [SCall (call_with fn (it_cat I) t vs)] ++ post) ->
  exists rs k0, runs e a f c (pre ++ [SCall (call_with fn (it_cat I) t vs)] ++ post) = Ok rs /\
    forall k, (k0 <= k)%nat -> iruns e a f c k ([], w) (map IPlain pre ++ [IIterate fn (logged I) first last] ++ map IPlain post) =
                               Ok (rs, (operations fn (it_cat I) (length vs), w2)).
Proof.
  intros HE HI HP HC HV HR. apply C76_ranges; try assumption.
  apply gives_app with (w1 := ([], w)); [apply gives_steps|]. cbn [app]. change (it_cat I) with (it_cat (logged I)) at 1.
  econstructor; [exact HI|exact (logged_pass I last first w vs w1 HP [])| |apply gives_steps].
  unfold counted, operations in *. cbn [logged it_cat it_dif it_sub app]. destruct fn, (it_cat I);
    [subst w2; now rewrite app_nil_r|subst w2; now rewrite app_nil_r|destruct HC as [HD ->]; split; [exact HD|now rewrite app_nil_r]|now rewrite HC
    |destruct HC as [HD ->]; split; [exact HD|now rewrite app_nil_r]|destruct HC as [HD ->]; split; [exact HD|now rewrite app_nil_r]].
Qed.

(* ---------- iterators of some libraries ---------- *)
(* std::istream_iterator<int>, on a stream of tokens: the iterator holds the value read last, ++ reads the next one; input_iterator_tag *)
Definition stream_iterators (t : ty) (s : isz) : iterators (option val) (list val) :=
  {| it_cat := CInput; it_ref := t; it_val := t; it_conv := fun v => v; it_dif := s;
     it_ne := fun a b w => match a, b with None, None => Ok (false, w) | Some _, Some _ => UB | _, _ => Ok (true, w) end;
     it_get := fun a w => match a with Some v => Ok (v, w) | None => UB end;
     it_inc := fun a w => match a, w with None, _ => UB | Some _, [] => Ok (None, []) | Some _, v :: w => Ok (Some v, w) end;
     it_sub := fun _ _ _ => UB |}.
(* iterators of a deque: an index into the elements, valid up to the end; random_access_iterator_tag *)
Definition index_iterators (t : ty) (s : isz) : iterators nat (list val) :=
  {| it_cat := CRandom; it_ref := t; it_val := t; it_conv := fun v => v; it_dif := s;
     it_ne := fun a b w => Ok (negb (a =? b)%nat, w);
     it_get := fun a w => match nth_error w a with Some v => Ok (v, w) | None => UB end;
     it_inc := fun a w => if (a <? length w)%nat then Ok (S a, w) else UB;
     it_sub := fun b a w => Ok ((Z.of_nat b - Z.of_nat a)%Z, w) |}.
(* iterators of a forward list: nodes with an element and the next node; 0 is past the end *)
Definition node_iterators (t : ty) (s : isz) : iterators nat (nat -> option (val * nat)) :=
  {| it_cat := CInput; it_ref := t; it_val := t; it_conv := fun v => v; it_dif := s;
     it_ne := fun a b w => Ok (negb (a =? b)%nat, w);
     it_get := fun a w => match w a with Some (v, _) => Ok (v, w) | None => UB end;
     it_inc := fun a w => match w a with Some (_, n) => Ok (n, w) | None => UB end;
     it_sub := fun _ _ _ => UB |}.
(* from node a on, the list has the elements vs *)
Inductive chain (w : nat -> option (val * nat)) : nat -> list val -> Prop :=
| chain_end : chain w 0 []
| chain_node a v n vs : a <> 0%nat -> w a = Some (v, n) -> chain w n vs -> chain w a (v :: vs).
Lemma stream_pass t s : forall vs v, single_pass (stream_iterators t s) None (Some v) vs (v :: vs) [].
Proof.
  induction vs as [|v' vs IH]; intros v.
  - eapply pass_step; [reflexivity..|]. apply pass_end. reflexivity.
  - eapply pass_step; [reflexivity..|]. apply IH.
Qed.
Lemma index_pass t s l : forall vs a, skipn a l = vs -> (a <= length l)%nat -> single_pass (index_iterators t s) (length l) a l vs l.
Proof.
  induction vs as [|v vs IH]; intros a E HA.
  - assert (a = length l). { apply f_equal with (f := @length _) in E. rewrite skipn_length in E. cbn in E. lia. }
    subst a. apply pass_end. cbn [index_iterators it_ne]. now rewrite Nat.eqb_refl.
  - assert (HL : (length l - a = S (length vs))%nat). { apply f_equal with (f := @length _) in E. now rewrite skipn_length in E. }
    assert (EN : nth_error l a = Some v). { rewrite <- (firstn_skipn a l), E. rewrite nth_error_app2 by (rewrite firstn_length; lia). rewrite firstn_length, Nat.min_l, Nat.sub_diag by lia. reflexivity. }
    eapply pass_step.
    + cbn [index_iterators it_ne]. rewrite (proj2 (Nat.eqb_neq a (length l))) by lia. reflexivity.
    + cbn [index_iterators it_get]. rewrite EN. reflexivity.
    + cbn [index_iterators it_inc]. rewrite (proj2 (Nat.ltb_lt a (length l))) by lia. reflexivity.
    + apply IH; [|lia]. rewrite <- (firstn_skipn a l), E at 1. rewrite skipn_app, skipn_all2 by (rewrite firstn_length; lia).
      rewrite firstn_length, Nat.min_l by lia. replace (S a - a)%nat with 1%nat by lia. reflexivity.
Qed.
Lemma node_pass t s w : forall a vs, chain w a vs -> single_pass (node_iterators t s) 0%nat a w vs w.
Proof.
  induction 1 as [|a v n vs H0 E HC IH].
  - apply pass_end. reflexivity.
  - eapply pass_step.
    + cbn [node_iterators it_ne]. rewrite (proj2 (Nat.eqb_neq a 0) H0). reflexivity.
    + cbn [node_iterators it_get]. rewrite E. reflexivity.
    + cbn [node_iterators it_inc]. rewrite E. reflexivity.
    + exact IH.
Qed.
(* The elements v, vs read from a stream (which is consumed), those of a deque and those of a forward list, however its nodes are placed in memory, hash equal. *)
Theorem C76_sources e a f c t s v vs nodes first pre post : valid_env e -> countable s (S (length vs)) -> chain nodes first (v :: vs) ->
  valid_program e a c (pre ++ [SAppend (TVec t) (VList (v :: vs))] ++ post) -> room e a c (pre ++ [SAppend (TVec t) (VList (v :: vs))] ++ post) ->
  exists rs k0, runs e a f c (pre ++ [SAppend (TVec t) (VList (v :: vs))] ++ post) = Ok rs /\ forall k, (k0 <= k)%nat ->
    iruns e a f c k vs (map IPlain pre ++ [IIterate FSized (stream_iterators t s) (Some v) None] ++ map IPlain post) = Ok (rs, []) /\
    iruns e a f c k (v :: vs) (map IPlain pre ++ [IIterate FSized (index_iterators t s) 0%nat (S (length vs))] ++ map IPlain post) = Ok (rs, v :: vs) /\
    iruns e a f c k nodes (map IPlain pre ++ [IIterate FSized (node_iterators t s) first 0%nat] ++ map IPlain post) = Ok (rs, nodes).
Proof.
  intros HE HS HC HV HR. destruct (C31_sequences e a f c pre t (v :: vs) CInput CInput post HE HV HR) as (rs & E1 & E2 & _).
  assert (HV' : valid_program e a c (pre ++ [SAppend (TList CInput t) (VList (v :: vs))] ++ post)).
  { refine (valid_replace e a c pre _ post _ HV _). constructor; [|constructor]. cbn [valid_step]. destruct (valid_call _ _ _ _ _ _ HV) as [HT HN]. cbn [call_ok form_ok has_type] in *. split; [exact HT|].
    intros H; destruct (HN H) as [H1|H1]; [now left|right]. cbn [call_null_free form_null null_free] in *. apply H1. }
  assert (HR' : room e a c (pre ++ [SAppend (TList CInput t) (VList (v :: vs))] ++ post)) by (eapply room_replace; [exact HR|apply le_n]).
  assert (HI : forall It W (I : iterators It W), it_ref I = t -> it_val I = t -> (forall x, it_conv I x = x) -> elements_of I t) by (intros; repeat split; assumption).
  destruct (C76_container e a f c (stream_iterators t s) (Some v) None t vs (v :: vs) [] [] CInput pre post HE) as (r1 & k1 & F1 & G1); try assumption;
    [now apply HI|apply stream_pass|now split|].
  destruct (C76_container e a f c (index_iterators t s) 0%nat (S (length vs)) t (v :: vs) (v :: vs) (v :: vs) (v :: vs) CInput pre post HE) as (r2 & k2 & F2 & G2); try assumption;
    [now apply HI|apply (index_pass t s (v :: vs)); [reflexivity|lia]|cbn [counted it_cat it_sub index_iterators length]; now rewrite Z.sub_0_r|].
  destruct (C76_container e a f c (node_iterators t s) first 0%nat t nodes (v :: vs) nodes nodes CInput pre post HE) as (r3 & k3 & F3 & G3); try assumption;
    [now apply HI|now apply node_pass|now split|].
  rewrite E2 in F1, F2, F3. injection F1 as <-. injection F2 as <-. injection F3 as <-.
  exists rs, (Nat.max k1 (Nat.max k2 k3)). split; [exact E1|]. intros k Hk. repeat split; [apply G1|apply G2|apply G3]; lia.
Qed.
Definition two_nodes (a : nat) : option (val * nat) := match a with 8%nat => Some (VInt 1, 3%nat) | 3%nat => Some (VInt 2, 0%nat) | _ => None end.
Example C76_sources_ex a : exists rs k0, runs env_pc a be32_flavor (CSeed 7) (sample ++ [SAppend (TVec (TInt I16 false)) (VList [VInt 1; VInt 2])] ++ [SResult]) = Ok rs /\ forall k, (k0 <= k)%nat ->
  iruns env_pc a be32_flavor (CSeed 7) k [VInt 2] (map IPlain sample ++ [IIterate FSized (stream_iterators (TInt I16 false) I64) (Some (VInt 1)) None] ++ map IPlain [SResult]) = Ok (rs, []) /\
  iruns env_pc a be32_flavor (CSeed 7) k [VInt 1; VInt 2] (map IPlain sample ++ [IIterate FSized (index_iterators (TInt I16 false) I64) 0%nat 2%nat] ++ map IPlain [SResult]) = Ok (rs, [VInt 1; VInt 2]) /\
  iruns env_pc a be32_flavor (CSeed 7) k two_nodes (map IPlain sample ++ [IIterate FSized (node_iterators (TInt I16 false) I64) 8%nat 0%nat] ++ map IPlain [SResult]) = Ok (rs, two_nodes).
Proof.
  apply (C76_sources env_pc a be32_flavor (CSeed 7) (TInt I16 false) I64 (VInt 1) [VInt 2] two_nodes 8%nat sample [SResult]); try ex_side.
  apply (chain_node _ _ _ 3%nat); [discriminate|reflexivity|]. apply (chain_node _ _ _ 0%nat); [discriminate|reflexivity|]. constructor.
Qed.
(* the same nodes as one of the instances of the theorems above *)
Example C76_ranges_ex a : exists rs k0, runs env_pc a be32_flavor (CSeed 7) [SCall (KRange (IIter CInput) (TInt I16 false) [VInt 1; VInt 2]); SResult] = Ok rs /\
  forall k, (k0 <= k)%nat -> iruns env_pc a be32_flavor (CSeed 7) k two_nodes [IIterate FRange (node_iterators (TInt I16 false) I64) 8%nat 0%nat; IPlain SResult] = Ok (rs, two_nodes).
Proof.
  apply C76_ranges; [exact env_pc_valid| |apply (steps_valid env_pc); [reflexivity|exact eq_refl|unfold steps_ok; ok]|room_ex].
  change (KRange (IIter CInput) (TInt I16 false) [VInt 1; VInt 2]) with (call_with FRange (it_cat (node_iterators (TInt I16 false) I64)) (TInt I16 false) [VInt 1; VInt 2]).
  apply (gives_range FRange nat (node_iterators (TInt I16 false) I64) 8%nat 0%nat (TInt I16 false) two_nodes [VInt 1; VInt 2] two_nodes two_nodes); [apply elements_of_id; reflexivity|apply node_pass|reflexivity|apply gives_plain, gives_end].
  apply (chain_node _ _ _ 3%nat); [discriminate|reflexivity|]. apply (chain_node _ _ _ 0%nat); [discriminate|reflexivity|]. constructor.
Qed.

(* ---------- the description in hash_append.adoc ---------- *)
(* "Equivalent to hash_append_range(h, f, first, last); hash_append(h, f, m);, where m is std::distance(first, last)."
   That holds when the difference_type is as wide as the size_type of the flavor. *)
Theorem C76_distance e a f c {It W : Type} (I : iterators It W) first last t w vs w1 w2 pre post : valid_env e -> ibytes (it_dif I) = ibytes (fl_size f) ->
  elements_of I t -> single_pass I last first w vs w1 -> counted FSized I first last vs w1 w2 -> countable (it_dif I) (length vs) ->
  valid_program e a c (pre ++ [SAppend (TList (it_cat I) t) (VList vs)] ++ post) -> room e a c (pre ++ [SAppend (TList (it_cat I) t) (VList vs)] ++ post) ->
  exists rs k0, forall k, (k0 <= k)%nat ->
    iruns e a f c k w (map IPlain pre ++ [IIterate FSized I first last] ++ map IPlain post) = Ok (rs, w2) /\
    iruns e a f c k w (map IPlain pre ++ [IIterate FRange I first last] ++ map IPlain ([SAppend (TInt (it_dif I) true) (VInt (Z.of_nat (length vs)))] ++ post)) = Ok (rs, w1).
Proof.
  intros HE HW HI HP HC HN HV HR.
  destruct (C76_container e a f c I first last t w vs w1 w2 (it_cat I) pre post HE HI HP HC HV HR) as (rs & k1 & E1 & G1).
  set (m := SAppend (TInt (it_dif I) true) (VInt (Z.of_nat (length vs)))).
  destruct (valid_call _ _ _ _ _ _ HV) as [HT HNL]. cbn [call_ok form_ok has_type] in HT.
  assert (VK : Forall (valid_step (nul_of a) (e_impl e)) [SCall (KRange (IIter (it_cat I)) t vs); m]).
  { constructor; [|constructor; [|constructor]].
    - cbn [valid_step]. split; [exact HT|]. intros H; destruct (HNL H) as [H1|H1]; [now left|right; exact H1].
    - subst m. cbn [valid_step call_ok form_ok has_type]. split; [|intros _; now right]. unfold in_int, countable in *.
      assert (E : (2 ^ (8 * Z.of_nat (ibytes (it_dif I)) - 1) > 0)%Z) by (destruct (it_dif I); reflexivity). lia. }
  assert (HV' : valid_program e a c (pre ++ [SCall (KRange (IIter (it_cat I)) t vs); m] ++ post)) by exact (valid_replace e a c pre _ post _ HV VK).
  assert (WL : (weight [SCall (KRange (IIter (it_cat I)) t vs); m] <= weight [SAppend (TList (it_cat I) t) (VList vs)])%nat).
  { subst m. unfold weight. cbn [map step_weight lsum fold_right call_blen blen form_blen]. lia. }
  assert (HR' : room e a c (pre ++ [SCall (KRange (IIter (it_cat I)) t vs); m] ++ post)) by exact (room_replace e a c pre _ post _ HR WL).
  destruct (C76_ranges e a f c w (map IPlain pre ++ [IIterate FRange I first last] ++ map IPlain ([m] ++ post)) (pre ++ [SCall (KRange (IIter (it_cat I)) t vs); m] ++ post) w1 HE) as (rs' & k2 & E2 & G2); try assumption.
  { apply gives_app with (w1 := w); [apply gives_steps|]. change (([SCall (KRange (IIter (it_cat I)) t vs); m] ++ post)) with (SCall (call_with FRange (it_cat I) t vs) :: [m] ++ post).
    cbn [app]. econstructor; [exact HI|exact HP|reflexivity|]. exact (gives_steps w1 (m :: post)). }
  assert (ER : exists r, runs e a f c (pre ++ [SAppend (TList (it_cat I) t) (VList vs)] ++ post) = Ok r /\
                         runs e a f c (pre ++ [SCall (KRange (IIter (it_cat I)) t vs); m] ++ post) = Ok r).
  { apply composite; try assumption.
    - constructor; [discriminate|]. subst m. constructor; [discriminate|constructor].
    - rewrite weight_cons, Nat.add_0_r in WL || (unfold weight in WL at 2; cbn [map step_weight lsum fold_right] in WL; rewrite Nat.add_0_r in WL). exact WL.
    - intros s. subst m. cbn [asteps]. rewrite machine_app. f_equal. unfold call_message. cbn [call_msg msg form_msg]. f_equal. unfold size_msg, enc. now rewrite HW. }
  destruct ER as (r & F1 & F2). rewrite E1 in F1. rewrite E2 in F2. injection F1 as F1. injection F2 as F2. subst rs rs'.
  exists r, (Nat.max k1 k2). intros k Hk. split; [apply G1|apply G2]; lia.
Qed.
Example C76_distance_ex a : exists rs k0, forall k, (k0 <= k)%nat ->
  iruns env_pc a le_flavor (CSeed 7) k [VInt 2] (map IPlain sample ++ [IIterate FSized (stream_iterators (TInt I16 false) I64) (Some (VInt 1)) None] ++ map IPlain [SResult]) = Ok (rs, []) /\
  iruns env_pc a le_flavor (CSeed 7) k [VInt 2] (map IPlain sample ++ [IIterate FRange (stream_iterators (TInt I16 false) I64) (Some (VInt 1)) None] ++ map IPlain ([SAppend (TInt I64 true) (VInt 2)] ++ [SResult])) = Ok (rs, []).
Proof.
  apply (C76_distance env_pc a le_flavor (CSeed 7) (stream_iterators (TInt I16 false) I64) (Some (VInt 1)) None (TInt I16 false) [VInt 2] [VInt 1; VInt 2] [] [] sample [SResult]); try ex_side;
    first [reflexivity | apply elements_of_id; reflexivity | apply stream_pass | (apply (index_pass _ _ [VInt 1; VInt 2] _ 0%nat); [reflexivity|cbn; lia]) | now split].
Qed.
Example C76_operations_ex a : exists rs k0, runs env_pc a be32_flavor (CSeed 7) (sample ++ [SCall (KSized (IIter CRandom) (TInt I16 false) [VInt 1; VInt 2])] ++ [SResult]) = Ok rs /\ forall k, (k0 <= k)%nat ->
  iruns env_pc a be32_flavor (CSeed 7) k ([], [VInt 1; VInt 2]) (map IPlain sample ++ [IIterate FSized (logged (index_iterators (TInt I16 false) I64)) 0%nat 2%nat] ++ map IPlain [SResult]) =
  Ok (rs, ([OCompare; ODereference; OIncrement; OCompare; ODereference; OIncrement; OCompare; ODistance], [VInt 1; VInt 2])).
Proof.
  apply (C76_operations env_pc a be32_flavor (CSeed 7) (index_iterators (TInt I16 false) I64) FSized 0%nat 2%nat (TInt I16 false) [VInt 1; VInt 2] [VInt 1; VInt 2] [VInt 1; VInt 2] [VInt 1; VInt 2] sample [SResult]); try ex_side;
    first [reflexivity | apply elements_of_id; reflexivity | apply stream_pass | (apply (index_pass _ _ [VInt 1; VInt 2] _ 0%nat); [reflexivity|cbn; lia]) | now split].
Qed.
Example C76_container_ex a : exists rs k0, runs env_pc a be32_flavor (CSeed 7) (sample ++ [SAppend (TList CInput (TInt I16 false)) (VList [VInt 1; VInt 2])] ++ [SResult]) = Ok rs /\ forall k, (k0 <= k)%nat ->
  iruns env_pc a be32_flavor (CSeed 7) k [VInt 2] (map IPlain sample ++ [IIterate FSized (stream_iterators (TInt I16 false) I64) (Some (VInt 1)) None] ++ map IPlain [SResult]) = Ok (rs, []).
Proof.
  apply (C76_container env_pc a be32_flavor (CSeed 7) (stream_iterators (TInt I16 false) I64) (Some (VInt 1)) None (TInt I16 false) [VInt 2] [VInt 1; VInt 2] [] [] CInput sample [SResult]); try ex_side;
    first [reflexivity | apply elements_of_id; reflexivity | apply stream_pass | (apply (index_pass _ _ [VInt 1; VInt 2] _ 0%nat); [reflexivity|cbn; lia]) | now split].
Qed.
Example C76_unordered_ex a : exists rs k0, runs env_pc a be32_flavor (CSeed 7) (sample ++ [SAppend (TUnord (TInt I16 false)) (VList [VInt 1; VInt 2])] ++ [SResult]) = Ok rs /\ forall k, (k0 <= k)%nat ->
  iruns env_pc a be32_flavor (CSeed 7) k [VInt 2] (map IPlain sample ++ [IIterate FUnord (stream_iterators (TInt I16 false) I64) (Some (VInt 1)) None] ++ map IPlain [SResult]) = Ok (rs, []).
Proof.
  apply (C76_unordered env_pc a be32_flavor (CSeed 7) (stream_iterators (TInt I16 false) I64) (Some (VInt 1)) None (TInt I16 false) [VInt 2] [VInt 1; VInt 2] [] sample [SResult]); try ex_side;
    first [reflexivity | apply elements_of_id; reflexivity | apply stream_pass | (apply (index_pass _ _ [VInt 1; VInt 2] _ 0%nat); [reflexivity|cbn; lia]) | now split].
Qed.
(* With a narrower size_type it does not: a size of 4 bytes is appended, not a ptrdiff_t of 8 bytes. *)
Theorem C76_distance_refuted : exists r1 r2, r1 <> r2 /\ forall k, (3 <= k)%nat ->
  iruns env_pc Afnv32 be32_flavor CDefault k [] [IIterate FSized (stream_iterators (TInt I32 true) I64) (Some (VInt 7)) None; IPlain SResult] = Ok ([r1], []) /\
  iruns env_pc Afnv32 be32_flavor CDefault k [] [IIterate FRange (stream_iterators (TInt I32 true) I64) (Some (VInt 7)) None; IPlain (SAppend (TInt I64 true) (VInt 1)); IPlain SResult] = Ok ([r2], []).
Proof.
  refine (ex_intro _ _ (ex_intro _ _ (conj _ (fun k Hk => _)))); revgoals.
  - destruct k as [|[|[|k]]]; try lia. split; vm_compute; reflexivity.
  - discriminate.
Qed.
(* Nor does it hold for iterators whose elements are converted to the value_type, such as those of an input iterator to int with value_type long long:
   hash_append_range appends objects of the value_type, hash_append_sized_range what *first gives, unless the iterators are of random access. *)
Definition converting (ic : icat) : iterators nat (list val) :=
  {| it_cat := ic; it_ref := TInt I32 true; it_val := TInt I64 true; it_conv := fun v => v; it_dif := I64;
     it_ne := it_ne (index_iterators TBool I64); it_get := it_get (index_iterators TBool I64); it_inc := it_inc (index_iterators TBool I64); it_sub := it_sub (index_iterators TBool I64) |}.
Example C76_single_pass_ex a : exists rs k0, runs env_pc a be32_flavor (CSeed 7) [SAppend (TInt I64 true) (VInt 3); SCall (KSize 1); SResult] = Ok rs /\ forall k, (k0 <= k)%nat ->
  iruns env_pc a be32_flavor (CSeed 7) k [VInt 3] [IIterate FSized (converting CRandom) 0%nat 1%nat; IPlain SResult] = Ok (rs, [VInt 3]).
Proof.
  apply C76_single_pass; [exact env_pc_valid| |apply (steps_valid env_pc); [reflexivity|exact eq_refl|unfold steps_ok; ok]|room_ex].
  apply (acts_random nat (converting CRandom) 0%nat 1%nat [VInt 3] [VInt 3] [VInt 3] 1%Z [VInt 3] [IPlain SResult] [SResult] [VInt 3]); [reflexivity| |reflexivity|apply acts_plain, acts_end].
  eapply pass_step; [reflexivity..|]. apply pass_end. reflexivity.
Qed.
Theorem C76_conversion_refuted : exists r1 r2, r1 <> r2 /\ forall k, (3 <= k)%nat ->
  iruns env_pc Afnv32 le_flavor CDefault k [VInt 7] [IIterate FSized (converting CInput) 0%nat 1%nat; IPlain SResult] = Ok ([r1], [VInt 7]) /\
  iruns env_pc Afnv32 le_flavor CDefault k [VInt 7] [IIterate FRange (converting CInput) 0%nat 1%nat; IPlain (SCall (KSize 1)); IPlain SResult] = Ok ([r2], [VInt 7]) /\
  iruns env_pc Afnv32 le_flavor CDefault k [VInt 7] [IIterate FSized (converting CRandom) 0%nat 1%nat; IPlain SResult] = Ok ([r2], [VInt 7]).
Proof.
  refine (ex_intro _ _ (ex_intro _ _ (conj _ (fun k Hk => _)))); revgoals.
  - destruct k as [|[|[|k]]]; try lia. split; [|split]; vm_compute; reflexivity.
  - discriminate.
Qed.

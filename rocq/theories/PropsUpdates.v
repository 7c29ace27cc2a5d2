(* C75: the effect of hash_append on the algorithm object is a sequence of calls of update(), for every hash algorithm, without
   any assumption about it. *)
From Verif Require Import Base BaseFacts SpecCommon Hasher Types ModelResult ModelAppend SpecAppend
  ProofMsg ProofMsgEq ProofMsgExt ProofAppend Behaves Instances ProofRuns PropsHistory Samples PropsAppend PropsTraits PropsCalls.
Open Scope N_scope.

(* the calls h.update( p, n ), in order *)
Fixpoint do_updates (h : hasher) (st : h_S h) (ls : list (ptr * nat)) : res (h_S h) :=
  match ls with
  | [] => Ok st
  | (p, n) :: ls => st <- h_update h st p n ;; do_updates h st ls
  end.
(* the bytes passed to them *)
Definition passed (ls : list (ptr * nat)) : list N := flat_map (fun a => data (fst a) (snd a)) ls.
(* every pointer points to n bytes; it can be null only if n = 0 *)
Definition good_calls (ls : list (ptr * nat)) : Prop := Forall (fun a => valid_arg true (fst a) (snd a)) ls.

Lemma do_updates_app h ls1 ls2 : forall st, do_updates h st (ls1 ++ ls2) = bind (do_updates h st ls1) (fun st => do_updates h st ls2).
Proof.
  induction ls1 as [|[p n] ls1 IH]; intros st; cbn [app do_updates]; [reflexivity|].
  destruct (h_update h st p n); cbn [bind]; auto.
Qed.
Lemma good_app ls1 ls2 : good_calls ls1 -> good_calls ls2 -> good_calls (ls1 ++ ls2).
Proof. intros. now apply Forall_app. Qed.

(* ---------- the calls are the same for all algorithms and states ---------- *)
Section Fixed.
Variable i : impl.
Variable f : flavor.
Definition action : Type := forall h : hasher, (h_R h -> res N) -> h_S h -> res (h_S h).
Definition fixed (F : action) : Prop := exists ls, good_calls ls /\ forall h gir st, F h gir st = do_updates h st ls.
Lemma fixed_ok : fixed (fun h gir st => Ok st).
Proof. exists []. split; [constructor|reflexivity]. Qed.
Lemma fixed_bind F G : fixed F -> fixed G -> fixed (fun h gir st => st <- F h gir st ;; G h gir st).
Proof.
  intros (l1 & V1 & E1) (l2 & V2 & E2). exists (l1 ++ l2). split; [now apply good_app|]. intros h gir st.
  rewrite do_updates_app, E1. destruct (do_updates h st l1); cbn [bind]; auto.
Qed.
Lemma fixed_update p n : valid_arg true p n -> fixed (fun h gir st => h_update h st p n).
Proof.
  intros HV. exists [(p, n)]. split; [constructor; [exact HV|constructor]|]. intros h gir st. cbn [do_updates].
  destruct (h_update h st p n); reflexivity.
Qed.
Lemma fixed_ext F G : (forall h gir st, F h gir st = G h gir st) -> fixed G -> fixed F.
Proof. intros E (ls & V & H). exists ls. split; [exact V|]. intros. now rewrite E. Qed.
Lemma fixed_int s z : fixed (fun h gir st => ha_int h i f s z st).
Proof.
  eapply fixed_ext; [intros; apply int_call|]. apply fixed_update. split; [rewrite enc_length; apply le_n|apply enc_bytes].
Qed.
Lemma fixed_size_of z : fixed (fun h gir st => ha_size_of h i f z st).
Proof. apply fixed_int. Qed.
Lemma fixed_loop {X} (F : X -> action) vs : Forall (fun v => fixed (F v)) vs -> fixed (fun h gir st => ha_loop h (fun v st => F v h gir st) vs st).
Proof.
  induction 1 as [|v vs Hv _ IH]; [apply fixed_ok|]. apply (fixed_ext _ (fun h gir st => st <- F v h gir st ;; ha_loop h (fun v st => F v h gir st) vs st)); [reflexivity|].
  apply (fixed_bind (F v) (fun h gir st => ha_loop h (fun v st => F v h gir st) vs st)); assumption.
Qed.
Definition HA (t : ty) (v : val) : action := fun h gir st => ha h gir i f t v st.
Definition Pf (t : ty) : Prop := ordered t -> forall v, has_type (im_psz i) t v -> fixed (HA t v).
Lemma fixed_range t vs : (forall v, has_type (im_psz i) t v -> fixed (HA t v)) -> Forall (has_type (im_psz i) t) vs ->
  fixed (fun h gir st => ha_loop h (ha h gir i f t) vs st).
Proof. intros HP HV. apply (fixed_loop (HA t)). eapply Forall_impl; [|exact HV]. exact HP. Qed.
Lemma ptr_args t vs : contiguously_hashable i f t = true -> Forall (has_type (im_psz i) t) vs ->
  valid_arg true (data_ptr i vs (flat_map (obj i t) vs)) (length vs * size_of i t).
Proof.
  intros HC HV. destruct (flat_obj_length i f t vs HC HV) as (HL & HB & _). destruct vs as [|v vs].
  - cbn [data_ptr]. destruct (im_null i); split; cbn; auto.
  - cbn [data_ptr]. split; [rewrite HL; apply le_n|exact HB].
Qed.
Lemma byte_contig : contiguously_hashable i f (TInt I8 false) = true.
Proof. apply storage_trait. now right. Qed.
Lemma fixed_ptr t vs : (forall v, has_type (im_psz i) t v -> fixed (HA t v)) -> Forall (has_type (im_psz i) t) vs ->
  fixed (fun h gir st => ha_ptr_range h i f t (ha h gir i f t) vs st).
Proof.
  intros HP HV. unfold ha_ptr_range.
  assert (HG : fixed (fun h gir st => if contiguously_hashable i f t
      then if negb (p_cx (im_pf i)) then h_update h st (data_ptr i vs (flat_map (obj i t) vs)) (length vs * size_of i t)
           else ha_loop h (ha h gir i f t) vs st
      else ha_loop h (ha h gir i f t) vs st)).
  { destruct (contiguously_hashable i f t) eqn:EC; [|now apply fixed_range].
    destruct (negb (p_cx (im_pf i))); [|now apply fixed_range]. apply fixed_update. now apply ptr_args. }
  destruct t as [s0 sg| | | | | | | | | | | | | | | | | |]; try exact HG.
  destruct s0; try exact HG. destruct sg; try exact HG. apply fixed_update.
  pose proof (ptr_args (TInt I8 false) vs byte_contig HV) as HA. cbn [size_of ibytes] in HA. now rewrite Nat.mul_1_r in HA.
Qed.
Lemma fixed_each ts : Forall Pf ts -> Forall ordered ts -> forall vs, Zip (has_type (im_psz i)) ts vs ->
  fixed (fun h gir st => ha_each h gir i f ts vs st).
Proof.
  induction 1 as [|t ts Ht _ IH]; intros HO [|v vs] HZ; try easy; [apply fixed_ok|]. inversion HO; subst.
  destruct HZ as [Z1 Z2]. apply (fixed_bind (HA t v) (fun h gir st => ha_each h gir i f ts vs st)); auto.
Qed.
Definition ordered_form {T} (k : call_ T) : Prop := match k with KUnord _ _ => False | _ => True end.
Lemma fixed_form {T} (k : call_ T) t : (forall v, has_type (im_psz i) t v -> fixed (HA t v)) -> ordered_form k ->
  form_ok k (has_type (im_psz i) t) -> fixed (fun h gir st => form_ha h gir i f k t (ha h gir i f t) st).
Proof.
  intros HP HO HV. destruct k as [t' v|[|c] t' vs|[|c] t' vs|t' vs|z]; cbn [form_ok form_ha ordered_form] in *.
  - now apply HP.
  - now apply fixed_ptr.
  - now apply fixed_range.
  - apply (fixed_bind (fun h gir st => ha_ptr_range h i f t (ha h gir i f t) vs st) (fun h gir st => ha_size h i f (length vs) st)); [now apply fixed_ptr|apply fixed_size_of].
  - destruct c; (apply (fixed_bind (fun h gir st => ha_loop h (ha h gir i f t) vs st) (fun h gir st => ha_size h i f (length vs) st)); [now apply fixed_range|apply fixed_size_of]).
  - contradiction.
  - apply fixed_size_of.
Qed.
Lemma fixed_user ts : Forall Pf ts -> Forall ordered ts -> forall cs, Forall (UOK (im_psz i) ts) cs -> Forall ordered_form cs ->
  fixed (fun h gir st => ha_loop h (fun c st => ucase (fun z => ha_size_of h i f z st) (fun t => form_ha h gir i f c t (ha h gir i f t) st) UB ts c) cs st).
Proof.
  intros H HO cs HV HC. apply (fixed_loop (fun c h gir st => ucase (fun z => ha_size_of h i f z st) (fun t => form_ha h gir i f c t (ha h gir i f t) st) UB ts c)).
  rewrite Forall_forall in HV, HC, HO |- *. intros c Hc. specialize (HV c Hc). specialize (HC c Hc). clear Hc.
  unfold UOK in HV. destruct (ucase_elim _ ts c H) as [(z & ->)|[(t & HP & HI & HAl)|HAl]].
  - cbn [ucase]. apply fixed_size_of.
  - rewrite HAl in HV. eapply fixed_ext; [intros; rewrite HAl; reflexivity|]. apply fixed_form; auto.
  - rewrite HAl in HV. contradiction.
Qed.
Lemma fixed_contig t v : contiguously_hashable i f t = true -> has_type (im_psz i) t v ->
  fixed (fun h gir st => h_update h st (Ptr (obj i t v)) (size_of i t)).
Proof.
  intros HC HV. destruct (obj_msg i f t HC v HV) as (_ & EL & EB). apply fixed_update. split; [now rewrite EL|exact EB].
Qed.
Ltac contig EC := match goal with |- context [(negb ?x && ?y)%bool] =>
     destruct (negb x && y)%bool eqn:EC; [apply andb_prop in EC; destruct EC as [_ EC]|] end.
Ltac nocontig := unfold HA; cbn [ha contiguously_hashable trivially_comparable andb]; rewrite not_contig.
Theorem ha_fixed t : Pf t.
Proof.
  induction t using ty_rect'; intros HO v HV.
  all: destruct v as [z|vs]; try easy.
  1-4: unfold HA; cbn [ha]; contig EC; [now apply fixed_contig|]; apply fixed_int.
  1-3: nocontig; apply fixed_int.
  - unfold HA; cbn [ha]. contig EC; [now apply fixed_contig|]. apply fixed_ptr; [now apply IHt|apply HV].
  - nocontig. apply (fixed_bind (fun h gir st => ha_ptr_range h i f t (ha h gir i f t) vs st) (fun h gir st => ha_size h i f (length vs) st)); [apply fixed_ptr; [now apply IHt|apply HV]|apply fixed_size_of].
  - nocontig. destruct c; (apply (fixed_bind (fun h gir st => ha_loop h (ha h gir i f t) vs st) (fun h gir st => ha_size h i f (length vs) st)); [apply fixed_range; [now apply IHt|apply HV]|apply fixed_size_of]).
  - nocontig. cbn [has_type] in HV. destruct HV as [HL HV]. destruct (Nat.eqb n 0); [apply fixed_int|]. apply fixed_ptr; [now apply IHt|apply HV].
  - nocontig. cbn [has_type] in HV. destruct HV as [HL HV]. destruct (Nat.eqb n 0); [apply fixed_int|]. apply fixed_range; [now apply IHt|apply HV].
  - cbn [has_type] in HV. rewrite each_ty in HV. rewrite ordered_tuple in HO. destruct ts as [|t ts]; [nocontig; apply fixed_int|].
    eapply fixed_ext; [intros; unfold HA; apply ha_tuple; discriminate|]. now apply fixed_each.
  - cbn [has_type] in HV. destruct vs as [|[z|bv] [|[z2|mv] [|? ?]]]; try easy.
    rewrite !each_ty in HV. destruct HV as [HB HM]. assert (HO2 : Forall ordered bs /\ Forall ordered ms).
    { destruct HO as [HO1 HO2]. split; apply ordered_tuple; assumption. }
    destruct HO2 as [OB OM]. eapply fixed_ext; [intros; unfold HA; apply ha_desc|].
    apply (fixed_bind (fun h gir st => ha_each h gir i f bs bv st) (fun h gir st => st <- ha_each h gir i f ms mv st ;; if (length bs + length ms =? 0)%nat then ha_int h i f I8 0 st else Ok st)); [now apply fixed_each|].
    apply (fixed_bind (fun h gir st => ha_each h gir i f ms mv st) (fun h gir st => if (length bs + length ms =? 0)%nat then ha_int h i f I8 0 st else Ok st)); [now apply fixed_each|].
    destruct (_ =? _)%nat; [apply fixed_int|apply fixed_ok].
  - cbn [has_type] in HV. rewrite each_ty in HV. change (ordered (TTuple ts)) in HO. rewrite ordered_tuple in HO.
    eapply fixed_ext; [intros; unfold HA; apply ha_tag|]. now apply fixed_each.
  - destruct vs as [|[k|?] [|v [|? ?]]]; try easy. cbn [has_type] in HV. destruct HV as [HI HV].
    change (ordered (TTuple ts)) in HO. rewrite ordered_tuple in HO. rewrite Forall_forall in HO.
    nocontig. destruct (alt_elim _ ts (Z.to_nat k) H) as [(t & HP & HN & HAl)|HAl]; rewrite HAl in HV; [|easy].
    destruct lead.
    + apply (fixed_bind (fun h gir st => ha_int h i f s k st) (fun h gir st => alt (fun t => ha h gir i f t v st) UB ts (Z.to_nat k))); [apply fixed_int|].
      apply (fixed_ext _ (HA t v)); [intros; apply HAl|]. apply HP; auto.
    + apply (fixed_bind (fun h gir st => alt (fun t => ha h gir i f t v st) UB ts (Z.to_nat k)) (fun h gir st => ha_int h i f s k st)); [|apply fixed_int].
      apply (fixed_ext _ (HA t v)); [intros; apply HAl|]. apply HP; auto.
  - rewrite has_type_user in HV. destruct HV as [_ HV]. destruct HO as [HO HU]. change (ordered (TTuple ts)) in HO. rewrite ordered_tuple in HO.
    nocontig. now apply fixed_user.
  - rewrite has_type_user in HV. destruct HV as [_ HV]. destruct HO as [HO HU]. change (ordered (TTuple ts)) in HO. rewrite ordered_tuple in HO.
    nocontig. now apply fixed_user.
  - unfold HA; cbn [ha]. contig EC; [now apply fixed_contig|]. apply (IHt HO (VInt z) (proj1 (proj2 HV))).
  - unfold HA; cbn [ha]. contig EC; [now apply fixed_contig|]. apply (IHt HO (VList vs) (proj1 (proj2 HV))).
Qed.
End Fixed.
(* ---------- any type, unordered containers included ---------- *)
Section Any.
Variable h : hasher.
Variable gir : h_R h -> res N.
Variable i : impl.
Variable f : flavor.
(* the outcome r comes from calls of update() on st (at least one, if ne) *)
Definition does (ne : Prop) (st : h_S h) (r : res (h_S h)) : Prop :=
  forall s', r = Ok s' -> exists ls, good_calls ls /\ (ne -> ls <> []) /\ do_updates h st ls = Ok s'.
Lemma does_ok st : does False st (Ok st).
Proof. intros s' [= <-]. exists []. split; [constructor|]. split; [easy|reflexivity]. Qed.
Lemma does_ub ne st : does ne st UB.
Proof. discriminate. Qed.
Lemma does_bind (n1 n2 : Prop) st r k : does n1 st r -> (forall s, does n2 s (k s)) -> does (n1 \/ n2) st (s <- r ;; k s).
Proof.
  intros D1 D2 s' E. destruct r as [s1| | | ]; try discriminate. destruct (D1 s1 eq_refl) as (l1 & V1 & N1 & E1).
  destruct (D2 s1 s' E) as (l2 & V2 & N2 & E2). exists (l1 ++ l2). split; [now apply good_app|]. split.
  - intros [H|H] HN; apply app_eq_nil in HN; tauto.
  - rewrite do_updates_app, E1. exact E2.
Qed.
Lemma does_weak (n1 n2 : Prop) st r : (n2 -> n1) -> does n1 st r -> does n2 st r.
Proof. intros H D s' E. destruct (D s' E) as (ls & V & N & U). exists ls. auto. Qed.
Lemma does_update p n st : valid_arg true p n -> does True st (h_update h st p n).
Proof.
  intros HV s' E. exists [(p, n)]. split; [constructor; [exact HV|constructor]|]. split; [discriminate|]. cbn [do_updates]. rewrite E. reflexivity.
Qed.
Lemma does_int s z st : does True st (ha_int h i f s z st).
Proof. rewrite int_call. apply does_update. split; [rewrite enc_length; apply le_n|apply enc_bytes]. Qed.
Lemma does_size_of z st : does True st (ha_size_of h i f z st).
Proof. apply does_int. Qed.
Lemma does_loop {X} (F : X -> h_S h -> res (h_S h)) vs : Forall (fun v => forall st, does True st (F v st)) vs -> forall st, does (vs <> []) st (ha_loop h F vs st).
Proof.
  induction 1 as [|v vs Hv _ IH]; intros st.
  - apply (does_weak False); [easy|apply does_ok].
  - cbn [ha_loop]. apply (does_weak (True \/ vs <> [])); [auto|]. now apply does_bind.
Qed.
Definition Pd (t : ty) : Prop := forall v st, has_type (im_psz i) t v -> does True st (ha h gir i f t v st).
Lemma does_range t vs st : Pd t -> Forall (has_type (im_psz i) t) vs -> does (vs <> []) st (ha_loop h (ha h gir i f t) vs st).
Proof. intros HP HV. apply does_loop. eapply Forall_impl; [|exact HV]. intros v Hv s. now apply HP. Qed.
Lemma does_ptr t vs st : Pd t -> Forall (has_type (im_psz i) t) vs -> does (vs <> []) st (ha_ptr_range h i f t (ha h gir i f t) vs st).
Proof.
  intros HP HV. unfold ha_ptr_range.
  assert (HG : does (vs <> []) st (if contiguously_hashable i f t
      then if negb (p_cx (im_pf i)) then h_update h st (data_ptr i vs (flat_map (obj i t) vs)) (length vs * size_of i t)
           else ha_loop h (ha h gir i f t) vs st
      else ha_loop h (ha h gir i f t) vs st)).
  { destruct (contiguously_hashable i f t) eqn:EC; [|now apply does_range].
    destruct (negb (p_cx (im_pf i))); [|now apply does_range]. apply (does_weak True); [auto|]. apply does_update. now apply (ptr_args i f). }
  destruct t as [s0 sg| | | | | | | | | | | | | | | | | |]; try exact HG.
  destruct s0; try exact HG. destruct sg; try exact HG. apply (does_weak True); [auto|]. apply does_update.
  pose proof (ptr_args i f (TInt I8 false) vs (byte_contig i f) HV) as HA. cbn [size_of ibytes] in HA. now rewrite Nat.mul_1_r in HA.
Qed.
Lemma does_each ts : Forall Pd ts -> forall vs st, Zip (has_type (im_psz i)) ts vs -> does (ts <> []) st (ha_each h gir i f ts vs st).
Proof.
  induction 1 as [|t ts Ht _ IH]; intros [|v vs] st HZ; try easy.
  - apply (does_weak False); [easy|apply does_ok].
  - destruct HZ as [Z1 Z2]. cbn [ha_each]. apply (does_weak (True \/ ts <> [])); [auto|]. apply does_bind; [now apply Ht|]. intros s. now apply IH.
Qed.
Lemma does_unord F vs st s1 n0 : does True s1 (bind (ha_unord h gir F st vs 0 n0) (fun '(w, m) => st <- ha_int h i f I64 (Z.of_N w) s1 ;; ha_size h i f m st)).
Proof.
  destruct (ha_unord h gir F st vs 0 n0) as [[w m]| | | ]; cbn [bind]; try (intros s' E; discriminate).
  apply (does_weak (True \/ True)); [auto|]. apply does_bind; [apply does_int|intros s; apply does_size_of].
Qed.
Lemma does_form {T} (k : call_ T) t st : Pd t -> form_ok k (has_type (im_psz i) t) -> does (productive k) st (form_ha h gir i f k t (ha h gir i f t) st).
Proof.
  intros HP HV. destruct k as [t' v|[|c] t' vs|[|c] t' vs|t' vs|z]; cbn [form_ok form_ha productive] in *.
  - now apply HP.
  - now apply does_ptr.
  - now apply does_range.
  - apply (does_weak (vs <> [] \/ True)); [auto|]. apply does_bind; [now apply does_ptr|intros s; apply does_size_of].
  - apply (does_weak (vs <> [] \/ True)); [auto|]. destruct c; (apply does_bind; [now apply does_range|intros s; apply does_size_of]).
  - apply does_unord.
  - apply does_size_of.
Qed.
Lemma does_user ts : Forall Pd ts -> forall cs st, Forall (UOK (im_psz i) ts) cs ->
  does (Exists productive cs) st (ha_loop h (fun c st => ucase (fun z => ha_size_of h i f z st) (fun t => form_ha h gir i f c t (ha h gir i f t) st) UB ts c) cs st).
Proof.
  intros H. induction cs as [|c cs IH]; intros st HV; cbn [ha_loop].
  - apply (does_weak False); [intros HN; inversion HN|apply does_ok].
  - inversion HV as [|? ? V1 V2]; subst. apply (does_weak (productive c \/ Exists productive cs)); [intros HN; inversion HN; auto|].
    apply does_bind; [|intros s; now apply IH]. clear - H V1. unfold UOK in V1.
    destruct (ucase_elim _ ts c H) as [(z & ->)|[(t & HP & HI & HAl)|HAl]].
    + cbn [ucase]. apply does_size_of.
    + rewrite HAl in V1 |- *. now apply does_form.
    + rewrite HAl in V1. contradiction.
Qed.
Lemma does_contig t v st : contiguously_hashable i f t = true -> has_type (im_psz i) t v -> does True st (h_update h st (Ptr (obj i t v)) (size_of i t)).
Proof.
  intros HC HV. destruct (obj_msg i f t HC v HV) as (_ & EL & EB). apply does_update. split; [now rewrite EL|exact EB].
Qed.
Ltac contig EC := match goal with |- context [(negb ?x && ?y)%bool] =>
     destruct (negb x && y)%bool eqn:EC; [apply andb_prop in EC; destruct EC as [_ EC]|] end.
Ltac nocontig := cbn [ha contiguously_hashable trivially_comparable andb]; rewrite not_contig.
Theorem ha_does t : Pd t.
Proof.
  induction t using ty_rect'; intros v st HV.
  all: destruct v as [z|vs]; try easy.
  1-4: cbn [ha]; contig EC; [now apply does_contig|]; apply does_int.
  1-3: nocontig; apply does_int.
  - cbn [ha]. contig EC; [now apply does_contig|]. destruct HV as (HN & HL & HV). apply (does_weak (vs <> [])); [|now apply does_ptr].
    intros _ ->. now apply HN.
  - nocontig. apply (does_weak (vs <> [] \/ True)); [auto|]. apply does_bind; [now apply does_ptr|intros s; apply does_size_of].
  - nocontig. apply (does_weak (vs <> [] \/ True)); [auto|]. destruct c; (apply does_bind; [now apply does_range|intros s; apply does_size_of]).
  - nocontig. cbn [has_type] in HV. destruct HV as [HL HV]. destruct (Nat.eqb_spec n 0) as [->|HN]; [apply does_int|]. apply (does_weak (vs <> [])); [|now apply does_ptr].
    intros _ ->. now apply HN.
  - nocontig. cbn [has_type] in HV. destruct HV as [HL HV]. destruct (Nat.eqb_spec n 0) as [->|HN]; [apply does_int|]. apply (does_weak (vs <> [])); [|now apply does_range].
    intros _ ->. now apply HN.
  - nocontig. apply does_unord.
  - cbn [has_type] in HV. rewrite each_ty in HV. destruct ts as [|t ts]; [nocontig; apply does_int|].
    rewrite ha_tuple by discriminate. apply (does_weak (t :: ts <> [])); [discriminate|]. now apply does_each.
  - cbn [has_type] in HV. destruct vs as [|[z|bv] [|[z2|mv] [|? ?]]]; try easy.
    rewrite !each_ty in HV. destruct HV as [HB HM]. rewrite ha_desc.
    destruct (Nat.eqb_spec (length bs + length ms) 0) as [EL|EL].
    + apply (does_weak (bs <> [] \/ (ms <> [] \/ True))); [auto|]. apply does_bind; [now apply does_each|]. intros s. apply does_bind; [now apply does_each|]. intros s2. apply does_int.
    + apply (does_weak (bs <> [] \/ (ms <> [] \/ False))).
      { intros _. destruct bs; [|left; discriminate]. destruct ms; [now destruct EL|]. right. left. discriminate. }
      apply does_bind; [now apply does_each|]. intros s. apply does_bind; [now apply does_each|]. intros s2. apply does_ok.
  - cbn [has_type] in HV. rewrite each_ty in HV. destruct HV as [HN HV]. rewrite ha_tag. apply (does_weak (ts <> [])); [auto|]. now apply does_each.
  - destruct vs as [|[k|?] [|v [|? ?]]]; try easy. cbn [has_type] in HV. destruct HV as [HI HV].
    nocontig. destruct (alt_elim _ ts (Z.to_nat k) H) as [(t & HP & HN & HAl)|HAl]; rewrite HAl in HV; [|easy].
    apply (does_weak (True \/ True)); [auto|]. destruct lead.
    + apply does_bind; [apply does_int|]. intros s1. rewrite HAl. now apply HP.
    + rewrite HAl. apply does_bind; [now apply HP|]. intros s1. apply does_int.
  - rewrite has_type_user in HV. destruct HV as [HN HV]. nocontig. apply (does_weak (Exists productive (g (VInt z)))); [auto|]. now apply does_user.
  - rewrite has_type_user in HV. destruct HV as [HN HV]. nocontig. apply (does_weak (Exists productive (g (VList vs)))); [auto|]. now apply does_user.
  - cbn [ha]. contig EC; [now apply does_contig|]. apply (IHt (VInt z) st (proj1 (proj2 HV))).
  - cbn [ha]. contig EC; [now apply does_contig|]. apply (IHt (VList vs) st (proj1 (proj2 HV))).
Qed.
End Any.
(* ---------- the theorems ---------- *)
(* no unordered containers or ranges *)
Definition ordered_call (k : call) : Prop :=
  match k with
  | KSize _ => True
  | KUnord _ _ => False
  | KVal t _ | KRange _ t _ | KSized _ t _ => ordered t
  end.
Lemma do_updates_recorder ls : good_calls ls -> forall st, do_updates recorder st ls = Ok (st ++ passed ls).
Proof.
  induction 1 as [|[p n] ls V _ IH]; intros st; unfold passed; cbn [do_updates flat_map fst snd] in *; [now rewrite app_nil_r|].
  cbn [recorder h_update]. destruct p as [|l]; [destruct V as [_ ->]; cbn [padd data bind app]; rewrite app_nil_r; apply IH|].
  rewrite padd_ok by apply V. cbn [bind]. refine (eq_trans (IH _) _). now rewrite app_assoc.
Qed.
Lemma do_updates_spy ls : good_calls ls -> forall st, do_updates spy st ls = Ok (st ++ map (fun a => data (fst a) (snd a)) ls).
Proof.
  induction 1 as [|[p n] ls V _ IH]; intros st; cbn [do_updates map fst snd] in *; [now rewrite app_nil_r|].
  cbn [spy h_update]. destruct p as [|l]; [destruct V as [_ ->]; cbn [padd data bind]; refine (eq_trans (IH _) _); now rewrite <- app_assoc|].
  rewrite padd_ok by apply V. cbn [bind]. refine (eq_trans (IH _) _). now rewrite <- app_assoc.
Qed.
Lemma recorder_call g i f k st : call_ok (im_psz i) k ->
  ha_call recorder (fun r => Ok (g r)) i f k st = Ok (st ++ call_message i f k (fun m => g (st ++ m))).
Proof.
  intros HT. destruct (ha_call_msg recorder true (list N) (fun l d => l ++ d) (fun l => (l, l)) (fun _ => True) eq
    recorder_refines (fun _ _ => True) (fits_true _ _ _ (fun _ => I)) (fun r => Ok (g r)) g (fun _ => eq_refl) i f
    (fun _ => eq_refl) k st st eq_refl HT I) as (s' & E & R). rewrite E. f_equal. symmetry. exact R.
Qed.

(* Whatever the algorithm, its integral results and the state of the object (no unordered containers): hash_append, hash_append_range,
   hash_append_sized_range and hash_append_size make a sequence of calls of update() that depends only on the value, the flavor and
   the platform, whose bytes form the message; at least one, except on an empty range *)
Theorem C75_calls i f k : call_ok (im_psz i) k -> ordered_call k ->
  exists ls, good_calls ls /\ (productive k -> ls <> []) /\ (forall q, passed ls = call_message i f k q) /\
    forall h gir st, ha_call h gir i f k st = do_updates h st ls.
Proof.
  intros HV HO.
  assert (HF : fixed (fun h gir st => ha_call h gir i f k st)).
  { destruct k as [t v|d t vs|d t vs|t vs|z]; cbn [ha_call call_ok ordered_call] in *; try contradiction; try apply fixed_size_of;
      (apply fixed_form; [intros v' HV'; now apply ha_fixed|exact I|exact HV]). }
  destruct HF as (ls & V & E). exists ls. split; [exact V|]. split; [|split; [|exact E]].
  - intros HP HN. assert (HD : does spy (productive k) [] (ha_call spy (fun _ => Ok 0) i f k [])).
    { destruct k as [t v|d t vs|d t vs|t vs|z]; cbn [ha_call call_ok] in *; try (apply does_form; [apply ha_does|exact HV]). apply does_size_of. }
    destruct (HD []) as (l2 & V2 & N2 & E2).
    + rewrite E, HN. reflexivity.
    + rewrite (do_updates_spy l2 V2) in E2. injection E2 as E2. apply map_eq_nil in E2. now apply N2.
  - intros q. pose proof (recorder_call (fun m => q m) i f k [] HV) as ER. rewrite E, (do_updates_recorder ls V) in ER.
    injection ER as ER. exact ER.
Qed.
(* With unordered containers too, for every algorithm: whatever state hash_append leaves the object in comes from calls of update() on it
   (the object is copied for the hash values of the elements) *)
Theorem C75_any h gir i f k st s' : call_ok (im_psz i) k -> ha_call h gir i f k st = Ok s' ->
  exists ls, good_calls ls /\ (productive k -> ls <> []) /\ do_updates h st ls = Ok s'.
Proof.
  intros HV. assert (HD : does h (productive k) st (ha_call h gir i f k st)).
  { destruct k as [t v|d t vs|d t vs|t vs|z]; cbn [ha_call call_ok] in *; try (apply does_form; [apply ha_does|exact HV]). apply does_size_of. }
  exact (HD s').
Qed.
(* hash_append fails only if the algorithm does *)
Theorem C75_total h gir i f k st : call_ok (im_psz i) k -> (forall s p n, valid_arg true p n -> exists s', h_update h s p n = Ok s') ->
  ordered_call k -> exists s', ha_call h gir i f k st = Ok s'.
Proof.
  intros HV HU HO. destruct (C75_calls i f k HV HO) as (ls & V & _ & _ & E). rewrite E. clear - V HU. revert st.
  induction V as [|[p n] ls V1 _ IH]; intros st; cbn [do_updates]; [eauto|]. destruct (HU st p n V1) as (s1 & ->). apply IH.
Qed.
(* "The combined result of these calls forms the message", unordered containers included: an algorithm that keeps the calls, and whose
   result is any function g of the bytes passed to it *)
Definition logger : hasher :=
  {| h_S := list (list N); h_R := list N; h_init := []; h_seed := fun _ => Ok []; h_bytes := fun _ _ => Ok [];
     h_update := h_update spy; h_result := fun s => Ok (concat s, s) |}.
Lemma logger_refines : refines logger true (list N) (fun l d => l ++ d) (fun l => (l, l)) (fun _ => True) (fun a s => a = concat s).
Proof.
  constructor.
  - intros a s p n -> _ V _. exists (s ++ [data p n]). split.
    + cbn [logger spy h_update]. destruct p as [|l]; [destruct V as [_ ->]; reflexivity|]. rewrite padd_ok by apply V. reflexivity.
    + rewrite concat_app. cbn [concat]. now rewrite app_nil_r.
  - intros a s -> _ _. exists s. split; reflexivity.
  - apply app_nil_r.
  - intros. symmetry. apply app_assoc.
Qed.
Theorem C75_message g i f k : call_ok (im_psz i) k ->
  exists ls, ha_call logger (fun r => Ok (g r)) i f k [] = Ok ls /\ concat ls = call_message i f k g /\ (productive k -> ls <> []).
Proof.
  intros HT. destruct (ha_call_msg logger true (list N) (fun l d => l ++ d) (fun l => (l, l)) (fun _ => True) (fun a s => a = concat s)
    logger_refines (fun _ _ => True) (fits_true _ _ _ (fun _ => I)) (fun r => Ok (g r)) g (fun _ => eq_refl) i f
    (fun _ => eq_refl) k [] [] eq_refl HT I) as (ls & E & R).
  exists ls. split; [exact E|]. split; [symmetry; exact R|]. intros HP.
  destruct (C75_any logger (fun r => Ok (g r)) i f k [] ls HT E) as (l2 & V2 & N2 & E2).
  assert (EQ : do_updates logger [] l2 = do_updates spy [] l2).
  { clear. generalize (@nil (list N)) as st. induction l2 as [|[p n] l2 IH]; intros st; [reflexivity|]. cbn [do_updates]. cbn [logger h_update].
    destruct (h_update spy st p n) as [s1| | | ]; cbn [bind]; [apply IH|reflexivity..]. }
  rewrite EQ, (do_updates_spy l2 V2) in E2. injection E2 as <-. intros HN. apply map_eq_nil in HN. now apply N2.
Qed.

(* ---------- concrete cases ---------- *)
(* an algorithm that only counts calls: it obeys none of the laws of the documentation *)
Definition call_counter : hasher :=
  {| h_S := N; h_R := N; h_init := 0; h_seed := fun _ => Ok 0; h_bytes := fun _ _ => Ok 0;
     h_update := fun s _ _ => Ok (s + 1); h_result := fun s => Ok (s, s + 1) |}.
(* std::tuple<std::vector<std::int16_t>, std::list<bool>> *)
Definition nested_ty : ty := TTuple [TVec (TInt I16 true); TList CInput TBool].
Definition nested_val : val := VList [VList [VInt 1; VInt (-2)]; VList [VInt 1; VInt 0; VInt 1]].
Lemma nested_ok i : call_ok (im_psz i) (KVal nested_ty nested_val).
Proof. cbn. repeat constructor; unfold in_int; cbn; lia. Qed.
Lemma nested_ordered : ordered_call (KVal nested_ty nested_val).
Proof. cbn. tauto. Qed.
Example C75_calls_ex : exists ls, passed ls = [0; 1; 255; 254; 0; 0; 0; 2; 1; 0; 1; 0; 0; 0; 3] /\ ls <> [] /\
  (forall h gir st, ha_call h gir (e_impl env_be) be32_flavor (KVal nested_ty nested_val) st = do_updates h st ls) /\ length ls = 6%nat.
Proof.
  destruct (C75_calls (e_impl env_be) be32_flavor (KVal nested_ty nested_val) (nested_ok _) nested_ordered) as (ls & V & HN & HM & E).
  exists ls. split; [rewrite (HM (fun _ => 0)); reflexivity|]. split; [now apply HN|]. split; [exact E|].
  assert (HC : forall ls st, do_updates call_counter st ls = Ok (st + N.of_nat (length ls))).
  { induction ls0 as [|[p n] ls0 IH]; intros st; cbn [do_updates length]; [now rewrite N.add_0_r|]. cbn [call_counter h_update bind].
    refine (eq_trans (IH _) _). f_equal. cbn. lia. }
  specialize (E call_counter (fun _ => Ok 0) 0). rewrite HC in E. change (Ok 6 = Ok (0 + N.of_nat (length ls))) in E. injection E as E. lia.
Qed.
Example C75_total_ex : exists s', ha_call call_counter (fun _ => Ok 0) (e_impl env_be) be32_flavor (KVal nested_ty nested_val) 7 = Ok s'.
Proof.
  apply C75_total; [apply nested_ok| |apply nested_ordered]. intros s p n _. now exists (s + 1).
Qed.
(* std::unordered_set<bool>: the calls for the elements and result() are made on copies *)
Example C75_any_ex : exists ls, good_calls ls /\ ls <> [] /\ do_updates call_counter 7 ls = Ok 9.
Proof.
  destruct (C75_any call_counter (fun r => Ok r) (e_impl env_be) be32_flavor (KVal (TUnord TBool) (VList [VInt 0; VInt 1])) 7 9) as (ls & V & HN & E).
  - cbn. repeat constructor; lia.
  - reflexivity.
  - exists ls. split; [exact V|]. split; [now apply HN|exact E].
Qed.
Example C75_message_ex : exists ls,
  ha_call logger (fun r => Ok (fold_right N.add 0 r)) (e_impl env_be) be32_flavor (KVal (TUnord TBool) (VList [VInt 0; VInt 1])) [] = Ok ls /\
  concat ls = [0; 0; 0; 0; 0; 0; 0; 1; 0; 0; 0; 2].
Proof.
  destruct (C75_message (fold_right N.add 0) (e_impl env_be) be32_flavor (KVal (TUnord TBool) (VList [VInt 0; VInt 1]))) as (ls & E & HM & _).
  - cbn. repeat constructor; lia.
  - exists ls. split; [exact E|]. rewrite HM. reflexivity.
Qed.

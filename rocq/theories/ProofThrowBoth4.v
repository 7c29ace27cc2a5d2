(* The functions of ModelThrowBoth.v without unordered containers: a fixed sequence of operations of users and calls of update(). *)
From Verif Require Import Base BaseFacts SpecCommon Hasher Types ModelResult ModelAppend SpecAppend ProofMsg ProofMsgEq ProofAppend PropsCalls PropsUpdates ModelThrowAlg ProofThrowAlg1 ModelThrowBoth ProofThrowBoth1.
Open Scope N_scope.

(* an operation of a class of the user, or h.update( p, n ) *)
Inductive act := AOp (o : user_op) | AUpdate (p : ptr) (n : nat).
(* the operations, in order, until one throws *)
Fixpoint until_any (T : thrower) (uop : t_W T -> user_op -> t_W T * bool) (w : t_W T) (st : t_S T) (l : list act) : res (t_W T * t_S T * bool) :=
  match l with
  | [] => Ok (w, st, false)
  | AOp o :: l => match uop w o with (w, true) => Ok (w, st, true) | (w, false) => until_any T uop w st l end
  | AUpdate p n :: l => x <- t_update T w st p n ;; match x with (w, st, true) => Ok (w, st, true) | (w, st, false) => until_any T uop w st l end
  end.
(* the calls of update() *)
Definition act_updates (l : list act) : list (ptr * nat) := flat_map (fun x => match x with AOp _ => [] | AUpdate p n => [(p, n)] end) l.
Lemma any_app T uop l1 l2 : forall w st, until_any T uop w st (l1 ++ l2) = ebind T (until_any T uop w st l1) (fun w st => until_any T uop w st l2).
Proof.
  induction l1 as [|[o|p n] l1 IH]; intros w st; cbn [app until_any]; [reflexivity| |].
  - destruct (uop w o) as [w1 [|]]; [reflexivity|apply IH].
  - destruct (t_update T w st p n) as [[[w1 s1] [|]]| | | ]; cbn [bind ebind]; try reflexivity. apply IH.
Qed.
Lemma updates_app l1 l2 : act_updates (l1 ++ l2) = act_updates l1 ++ act_updates l2.
Proof. apply flat_map_app. Qed.

Section Fixed.
Variable i : impl.
Variable f : flavor.
Definition baction : Type := forall (T : thrower) (uop : t_W T -> user_op -> t_W T * bool), (t_R T -> res N) -> t_W T -> t_S T -> eout T.
(* G makes the calls that F makes *)
Definition bfixed (G : baction) (F : action) : Prop :=
  exists ls, good_calls (act_updates ls) /\ (forall h gir st, F h gir st = do_updates h st (act_updates ls)) /\ forall T uop gir w st, G T uop gir w st = until_any T uop w st ls.
Lemma bfixed_done : bfixed (fun T uop gir w st => edone T w st) (fun h gir st => Ok st).
Proof. exists []. split; [constructor|]. split; reflexivity. Qed.
Lemma bfixed_bind G1 F1 G2 F2 : bfixed G1 F1 -> bfixed G2 F2 ->
  bfixed (fun T uop gir w st => ebind T (G1 T uop gir w st) (fun w st => G2 T uop gir w st)) (fun h gir st => st <- F1 h gir st ;; F2 h gir st).
Proof.
  intros (l1 & V1 & E1 & X1) (l2 & V2 & E2 & X2). exists (l1 ++ l2). rewrite updates_app. split; [now apply good_app|]. split.
  - intros h gir st. rewrite do_updates_app, E1. destruct (do_updates h st (act_updates l1)); cbn [bind]; auto.
  - intros T uop gir w st. rewrite any_app, X1. apply ebind_ext. intros. apply X2.
Qed.
Lemma bfixed_update p n : valid_arg true p n -> bfixed (fun T uop gir w st => t_update T w st p n) (fun h gir st => h_update h st p n).
Proof.
  intros HV. exists [AUpdate p n]. cbn [act_updates flat_map app]. split; [constructor; [exact HV|constructor]|]. split.
  - intros h gir st. cbn [do_updates]. destruct (h_update h st p n); reflexivity.
  - intros T uop gir w st. cbn [until_any]. destruct (t_update T w st p n) as [[[w1 s1] [|]]| | | ]; reflexivity.
Qed.
Lemma bfixed_ext G G' F F' : (forall T uop gir w st, G' T uop gir w st = G T uop gir w st) -> (forall h gir st, F' h gir st = F h gir st) -> bfixed G F -> bfixed G' F'.
Proof. intros E1 E2 (ls & V & H & X). exists ls. split; [exact V|]. split; intros; [now rewrite E2|now rewrite E1]. Qed.
Lemma bfixed_int s z : bfixed (fun T uop gir w st => eint T i f s z w st) (fun h gir st => ha_int h i f s z st).
Proof. eapply bfixed_ext; [intros; apply int_update|intros; apply int_call|]. apply bfixed_update, enc_arg. Qed.
Lemma bfixed_size_of z : bfixed (fun T uop gir w st => esize_of T i f z w st) (fun h gir st => ha_size_of h i f z st).
Proof. apply bfixed_int. Qed.
Lemma bfixed_size n : bfixed (fun T uop gir w st => esize T i f n w st) (fun h gir st => ha_size h i f n st).
Proof. apply bfixed_int. Qed.
Lemma bfixed_buser p o : bfixed (fun T uop gir w st => buser T uop p o w st) (fun h gir st => Ok st).
Proof.
  destruct p; [|exact bfixed_done]. exists [AOp o]. split; [constructor|]. split; [reflexivity|]. intros T uop gir w st. cbn [until_any]. unfold buser.
  destruct (uop w o) as [w1 [|]]; reflexivity.
Qed.
Lemma bfixed_pre p o G F : bfixed G F -> bfixed (fun T uop gir w st => ebind T (buser T uop p o w st) (fun w st => G T uop gir w st)) F.
Proof. intros H. exact (bfixed_bind _ _ _ _ (bfixed_buser p o) H). Qed.
Lemma bfixed_post p o G F : bfixed G F -> bfixed (fun T uop gir w st => ebind T (G T uop gir w st) (fun w st => buser T uop p o w st)) F.
Proof.
  intros H. eapply (bfixed_ext _ _ (fun h gir st => st <- F h gir st ;; Ok st)); [reflexivity| |exact (bfixed_bind _ _ _ _ H (bfixed_buser p o))].
  intros h gir st. destruct (F h gir st); reflexivity.
Qed.
Lemma bfixed_loop {X} p (G : X -> baction) (F : X -> action) vs : Forall (fun v => bfixed (G v) (F v)) vs ->
  bfixed (fun T uop gir w st => bloop T uop p (fun v w st => G v T uop gir w st) vs w st) (fun h gir st => ha_loop h (fun v st => F v h gir st) vs st).
Proof.
  induction 1 as [|v vs Hv _ IH]; [exact (bfixed_buser p OTest)|]. cbn [bloop]. apply bfixed_pre. apply bfixed_pre.
  exact (bfixed_bind (G v) (F v) _ _ Hv (bfixed_pre p ONext _ _ IH)).
Qed.
Lemma bfixed_calls {X} (G : X -> baction) (F : X -> action) vs : Forall (fun v => bfixed (G v) (F v)) vs ->
  bfixed (fun T uop gir w st => bcalls T uop (fun v w st => G v T uop gir w st) vs w st) (fun h gir st => ha_loop h (fun v st => F v h gir st) vs st).
Proof.
  induction 1 as [|v vs Hv _ IH]; [exact (bfixed_buser true OCode)|]. cbn [bcalls]. apply bfixed_pre. exact (bfixed_bind (G v) (F v) _ _ Hv IH).
Qed.
Definition EG (t : ty) (v : val) : baction := fun T uop gir w st => bha T uop gir i f t v w st.
Definition EF (t : ty) (v : val) : action := fun h gir st => ha h gir i f t v st.
Definition PE (t : ty) : Prop := ordered t -> forall v, has_type (im_psz i) t v -> bfixed (EG t v) (EF t v).
Lemma bfixed_range p t vs : (forall v, has_type (im_psz i) t v -> bfixed (EG t v) (EF t v)) -> Forall (has_type (im_psz i) t) vs ->
  bfixed (fun T uop gir w st => bloop T uop p (bha T uop gir i f t) vs w st) (fun h gir st => ha_loop h (ha h gir i f t) vs st).
Proof. intros HP HV. apply (bfixed_loop p (EG t) (EF t)). eapply Forall_impl; [|exact HV]. exact HP. Qed.
Lemma bfixed_ptr t vs : (forall v, has_type (im_psz i) t v -> bfixed (EG t v) (EF t v)) -> Forall (has_type (im_psz i) t) vs ->
  bfixed (fun T uop gir w st => bptr_range T uop i f t (bha T uop gir i f t) vs w st) (fun h gir st => ha_ptr_range h i f t (ha h gir i f t) vs st).
Proof.
  intros HP HV. unfold eptr_range, ha_ptr_range. pose proof (bfixed_range false t vs HP HV) as HL.
  assert (HG : bfixed (fun T uop gir w st => if contiguously_hashable i f t
      then if negb (p_cx (im_pf i)) then t_update T w st (data_ptr i vs (flat_map (obj i t) vs)) (length vs * size_of i t) else bloop T uop false (bha T uop gir i f t) vs w st
      else bloop T uop false (bha T uop gir i f t) vs w st)
    (fun h gir st => if contiguously_hashable i f t
      then if negb (p_cx (im_pf i)) then h_update h st (data_ptr i vs (flat_map (obj i t) vs)) (length vs * size_of i t) else ha_loop h (ha h gir i f t) vs st
      else ha_loop h (ha h gir i f t) vs st)).
  { destruct (contiguously_hashable i f t) eqn:EC; [|exact HL]. destruct (negb (p_cx (im_pf i))); [|exact HL]. apply bfixed_update. now apply (ptr_args i f). }
  destruct t as [s0 sg| | | | | | | | | | | | | | | | | |]; try exact HG.
  destruct s0; try exact HG. destruct sg; try exact HG. apply bfixed_update.
  pose proof (ptr_args i f (TInt I8 false) vs (byte_contig i f) HV) as HA. cbn [size_of ibytes] in HA. now rewrite Nat.mul_1_r in HA.
Qed.
Lemma bfixed_each p ts : Forall PE ts -> Forall ordered ts -> forall vs, Zip (has_type (im_psz i)) ts vs ->
  bfixed (fun T uop gir w st => beach T uop gir i f p ts vs w st) (fun h gir st => ha_each h gir i f ts vs st).
Proof.
  induction 1 as [|t ts Ht _ IH]; intros HO [|v vs] HZ; try easy; [apply bfixed_done|]. inversion HO; subst.
  destruct HZ as [Z1 Z2]. assert (HB : bfixed (fun T uop gir w st => ebind T (bha T uop gir i f t v w st) (fun w st => beach T uop gir i f p ts vs w st)) (fun h gir st => ha_each h gir i f (t :: ts) (v :: vs) st)).
  { apply (bfixed_bind (EG t v) (EF t v) (fun T uop gir w st => beach T uop gir i f p ts vs w st) (fun h gir st => ha_each h gir i f ts vs st)); auto. }
  destruct p as [o|]; cbn [beach]; [exact (bfixed_pre true o _ _ HB)|exact HB].
Qed.
Lemma bfixed_sized G F n : bfixed G F -> bfixed (fun T uop gir w st => ebind T (G T uop gir w st) (fun w st => esize T i f n w st)) (fun h gir st => st <- F h gir st ;; ha_size h i f n st).
Proof. intros H. exact (bfixed_bind _ _ _ _ H (bfixed_size n)). Qed.
Lemma bfixed_form {X} (k : call_ X) t : (forall v, has_type (im_psz i) t v -> bfixed (EG t v) (EF t v)) -> ordered_form k ->
  form_ok k (has_type (im_psz i) t) -> bfixed (fun T uop gir w st => bform T uop gir i f k t (bha T uop gir i f t) w st) (fun h gir st => form_ha h gir i f k t (ha h gir i f t) st).
Proof.
  intros HP HO HV. destruct k as [t' v|[|c] t' vs|[|c] t' vs|t' vs|z]; cbn [form_ok form_ha eform ordered_form] in *.
  - now apply HP.
  - now apply bfixed_ptr.
  - now apply bfixed_range.
  - apply (bfixed_sized _ _ _ (bfixed_ptr t vs HP HV)).
  - destruct c; [exact (bfixed_bind _ _ _ _ (bfixed_range true t vs HP HV) (bfixed_pre false ODistance _ _ (bfixed_size (length vs))))|exact (bfixed_bind _ _ _ _ (bfixed_range true t vs HP HV) (bfixed_pre true ODistance _ _ (bfixed_size (length vs))))].
  - contradiction.
  - apply bfixed_size_of.
Qed.
Lemma bfixed_user ts : Forall PE ts -> Forall ordered ts -> forall cs, Forall (UOK (im_psz i) ts) cs -> Forall ordered_form cs ->
  bfixed (fun T uop gir w st => bcalls T uop (fun c w st => ucase (fun z => esize_of T i f z w st) (fun t => bform T uop gir i f c t (bha T uop gir i f t) w st) UB ts c) cs w st)
    (fun h gir st => ha_loop h (fun c st => ucase (fun z => ha_size_of h i f z st) (fun t => form_ha h gir i f c t (ha h gir i f t) st) UB ts c) cs st).
Proof.
  intros H HO cs HV HC. apply (bfixed_calls (fun c T uop gir w st => ucase (fun z => esize_of T i f z w st) (fun t => bform T uop gir i f c t (bha T uop gir i f t) w st) UB ts c)
    (fun c h gir st => ucase (fun z => ha_size_of h i f z st) (fun t => form_ha h gir i f c t (ha h gir i f t) st) UB ts c)).
  rewrite Forall_forall in HV, HC, HO |- *. intros c Hc. specialize (HV c Hc). specialize (HC c Hc). clear Hc.
  unfold UOK in HV. destruct (ucase_elim _ ts c H) as [(z & ->)|[(t & HP & HI & HAl)|HAl]].
  - cbn [ucase]. apply bfixed_size_of.
  - rewrite HAl in HV. eapply bfixed_ext; [intros; rewrite HAl; reflexivity|intros; rewrite HAl; reflexivity|]. apply bfixed_form; auto.
  - rewrite HAl in HV. contradiction.
Qed.
Lemma bfixed_contig t v : contiguously_hashable i f t = true -> has_type (im_psz i) t v ->
  bfixed (fun T uop gir w st => t_update T w st (Ptr (obj i t v)) (size_of i t)) (fun h gir st => h_update h st (Ptr (obj i t v)) (size_of i t)).
Proof.
  intros HC HV. destruct (obj_msg i f t HC v HV) as (_ & EL & EB). apply bfixed_update. split; [now rewrite EL|exact EB].
Qed.
Ltac contig EC := match goal with |- context [(negb ?x && ?y)%bool] =>
     destruct (negb x && y)%bool eqn:EC; [apply andb_prop in EC; destruct EC as [_ EC]|] end.
Ltac opn := unfold EG, EF; cbn [bha ha].
Ltac nocontig := unfold EG, EF; cbn [bha ha contiguously_hashable trivially_comparable andb]; rewrite not_contig.
Theorem bha_fixed t : PE t.
Proof.
  induction t using ty_rect'; intros HO v HV.
  all: destruct v as [z|vs]; try easy.
  1-4: opn; contig EC; [now apply bfixed_contig|]; apply bfixed_int.
  1-3: nocontig; apply bfixed_int.
  - opn. contig EC; [now apply bfixed_contig|]. apply bfixed_ptr; [now apply IHt|apply HV].
  - nocontig. apply bfixed_pre. apply (bfixed_sized _ _ _ (bfixed_ptr t vs (IHt HO) (proj2 HV))) || apply (bfixed_sized _ _ _ (bfixed_ptr t vs (IHt HO) HV)).
  - nocontig. apply bfixed_pre. destruct c; [exact (bfixed_bind _ _ _ _ (bfixed_range true t vs (IHt HO) HV) (bfixed_pre false ODistance _ _ (bfixed_size (length vs))))|exact (bfixed_bind _ _ _ _ (bfixed_range true t vs (IHt HO) HV) (bfixed_pre true ODistance _ _ (bfixed_size (length vs))))].
  - nocontig. cbn [has_type] in HV. destruct HV as [HL HV]. destruct (Nat.eqb n 0); [apply bfixed_int|]. apply bfixed_pre. apply bfixed_ptr; [now apply IHt|apply HV].
  - nocontig. cbn [has_type] in HV. destruct HV as [HL HV]. destruct (Nat.eqb n 0); [apply bfixed_int|]. apply bfixed_pre. apply bfixed_range; [now apply IHt|apply HV].
  - cbn [has_type] in HV. rewrite each_ty in HV. rewrite ordered_tuple in HO. destruct ts as [|t ts]; [nocontig; apply bfixed_int|].
    eapply bfixed_ext; [intros; unfold EG; apply bha_tuple; discriminate|intros; unfold EF; apply ha_tuple; discriminate|]. now apply bfixed_each.
  - cbn [has_type] in HV. destruct vs as [|[z|bv] [|[z2|mv] [|? ?]]]; try easy.
    rewrite !each_ty in HV. destruct HV as [HB HM]. assert (HO2 : Forall ordered bs /\ Forall ordered ms).
    { destruct HO as [HO1 HO2]. split; apply ordered_tuple; assumption. }
    destruct HO2 as [OB OM]. eapply bfixed_ext; [intros; unfold EG; apply bha_desc|intros; unfold EF; apply ha_desc|].
    apply (bfixed_bind _ _ _ _ (bfixed_each None bs H OB bv HB)). apply (bfixed_bind _ _ _ _ (bfixed_each None ms H0 OM mv HM)).
    destruct (_ =? _)%nat; [apply bfixed_int|apply bfixed_done].
  - cbn [has_type] in HV. rewrite each_ty in HV. change (ordered (TTuple ts)) in HO. rewrite ordered_tuple in HO.
    eapply bfixed_ext; [intros; unfold EG; apply bha_tag|intros; unfold EF; apply ha_tag|]. apply bfixed_post. now apply bfixed_each.
  - destruct vs as [|[k|?] [|v [|? ?]]]; try easy. cbn [has_type] in HV. destruct HV as [HI HV].
    change (ordered (TTuple ts)) in HO. rewrite ordered_tuple in HO. rewrite Forall_forall in HO.
    nocontig. destruct (alt_elim _ ts (Z.to_nat k) H) as [(t & HP & HN & HAl)|HAl]; rewrite HAl in HV; [|easy].
    assert (HX : bfixed (fun T uop gir w st => alt (fun t => bha T uop gir i f t v w st) UB ts (Z.to_nat k)) (fun h gir st => alt (fun t => ha h gir i f t v st) UB ts (Z.to_nat k))).
    { apply (bfixed_ext (EG t v) _ (EF t v)); [intros; apply HAl|intros; apply HAl|]. apply HP; auto. }
    destruct lead.
    + exact (bfixed_pre true OCode _ _ (bfixed_bind _ _ _ _ (bfixed_int s k) (bfixed_pre true OCode _ _ (bfixed_post true OCode _ _ HX)))).
    + exact (bfixed_pre true OCode _ _ (bfixed_bind _ _ _ _ HX (bfixed_pre true OCode _ _ (bfixed_post true OCode _ _ (bfixed_int s k))))).
  - rewrite has_type_user in HV. destruct HV as [_ HV]. destruct HO as [HO HU]. change (ordered (TTuple ts)) in HO. rewrite ordered_tuple in HO.
    nocontig. now apply bfixed_user.
  - rewrite has_type_user in HV. destruct HV as [_ HV]. destruct HO as [HO HU]. change (ordered (TTuple ts)) in HO. rewrite ordered_tuple in HO.
    nocontig. now apply bfixed_user.
  - opn. contig EC; [now apply bfixed_contig|]. apply (IHt HO (VInt z) (proj1 (proj2 HV))).
  - opn. contig EC; [now apply bfixed_contig|]. apply (IHt HO (VList vs) (proj1 (proj2 HV))).
Qed.
Theorem call_bfixed k : call_ok (im_psz i) k -> ordered_call k ->
  bfixed (fun T uop gir w st => bha_call T uop gir i f k w st) (fun h gir st => ha_call h gir i f k st).
Proof.
  intros HV HO. destruct k as [t v|d t vs|d t vs|t vs|z]; cbn [ha_call bha_call call_ok ordered_call] in *; try contradiction; try apply bfixed_size_of;
    (apply bfixed_form; [intros v' HV'; now apply bha_fixed|exact I|exact HV]).
Qed.
End Fixed.


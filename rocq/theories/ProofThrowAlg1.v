(* The functions of ModelThrowAlg.v: which calls of update() they make, for any algorithm that throws. *)
From Verif Require Import Base BaseFacts SpecCommon Hasher Types ModelResult ModelAppend SpecAppend ProofMsg ProofMsgEq ProofAppend PropsCalls PropsUpdates ModelThrowAlg.
Open Scope N_scope.

(* the calls h.update( p, n ), in order, until one throws *)
Fixpoint until_throw (T : thrower) (w : t_W T) (st : t_S T) (ls : list (ptr * nat)) : res (t_W T * t_S T * bool) :=
  match ls with
  | [] => Ok (w, st, false)
  | (p, n) :: ls => ebind T (t_update T w st p n) (fun w st => until_throw T w st ls)
  end.
Lemma ebind_assoc T (r : eout T) k1 k2 : ebind T (ebind T r k1) k2 = ebind T r (fun w st => ebind T (k1 w st) k2).
Proof. destruct r as [[[w st] [|]]| | |]; reflexivity. Qed.
Lemma ebind_ext T (r : eout T) k1 k2 : (forall w st, k1 w st = k2 w st) -> ebind T r k1 = ebind T r k2.
Proof. intros E. destruct r as [[[w st] [|]]| | |]; cbn [ebind bind]; auto. Qed.
Lemma until_app T ls1 ls2 : forall w st, until_throw T w st (ls1 ++ ls2) = ebind T (until_throw T w st ls1) (fun w st => until_throw T w st ls2).
Proof.
  induction ls1 as [|[p n] ls1 IH]; intros w st; cbn [app until_throw]; [reflexivity|]. rewrite ebind_assoc. apply ebind_ext. intros. apply IH.
Qed.
Lemma ebind_done T (r : eout T) : ebind T r (fun w st => Ok (w, st, false)) = r.
Proof. destruct r as [[[w st] [|]]| | |]; reflexivity. Qed.

Section Fixed.
Variable i : impl.
Variable f : flavor.
Definition eaction : Type := forall T : thrower, (t_R T -> res N) -> t_W T -> t_S T -> eout T.
(* G, for algorithms that throw, makes the calls that F makes *)
Definition efixed (G : eaction) (F : action) : Prop :=
  exists ls, good_calls ls /\ (forall h gir st, F h gir st = do_updates h st ls) /\ forall T gir w st, G T gir w st = until_throw T w st ls.
Lemma efixed_done : efixed (fun T gir w st => edone T w st) (fun h gir st => Ok st).
Proof. exists []. split; [constructor|]. split; reflexivity. Qed.
Lemma efixed_bind G1 F1 G2 F2 : efixed G1 F1 -> efixed G2 F2 ->
  efixed (fun T gir w st => ebind T (G1 T gir w st) (fun w st => G2 T gir w st)) (fun h gir st => st <- F1 h gir st ;; F2 h gir st).
Proof.
  intros (l1 & V1 & E1 & X1) (l2 & V2 & E2 & X2). exists (l1 ++ l2). split; [now apply good_app|]. split.
  - intros h gir st. rewrite do_updates_app, E1. destruct (do_updates h st l1); cbn [bind]; auto.
  - intros T gir w st. rewrite until_app, X1. apply ebind_ext. intros. apply X2.
Qed.
Lemma efixed_update p n : valid_arg true p n -> efixed (fun T gir w st => t_update T w st p n) (fun h gir st => h_update h st p n).
Proof.
  intros HV. exists [(p, n)]. split; [constructor; [exact HV|constructor]|]. split.
  - intros h gir st. cbn [do_updates]. destruct (h_update h st p n); reflexivity.
  - intros T gir w st. cbn [until_throw]. symmetry. apply ebind_done.
Qed.
Lemma efixed_ext G G' F F' : (forall T gir w st, G' T gir w st = G T gir w st) -> (forall h gir st, F' h gir st = F h gir st) -> efixed G F -> efixed G' F'.
Proof. intros E1 E2 (ls & V & H & X). exists ls. split; [exact V|]. split; intros; [now rewrite E2|now rewrite E1]. Qed.
Lemma int_update T w st s z : eint T i f s z w st = t_update T w st (Ptr (enc (order_le (fl_order f)) (ibytes s) z)) (ibytes s).
Proof.
  unfold eint. destruct (negb _ && _) eqn:E; [|now rewrite write_enc].
  apply andb_prop in E. now rewrite (obj_int_enc i (fl_order f) s z (proj2 E)).
Qed.
Lemma enc_arg s z : valid_arg true (Ptr (enc (order_le (fl_order f)) (ibytes s) z)) (ibytes s).
Proof. split; [rewrite enc_length; apply le_n|apply enc_bytes]. Qed.
Lemma efixed_int s z : efixed (fun T gir w st => eint T i f s z w st) (fun h gir st => ha_int h i f s z st).
Proof. eapply efixed_ext; [intros; apply int_update|intros; apply int_call|]. apply efixed_update, enc_arg. Qed.
Lemma efixed_size_of z : efixed (fun T gir w st => esize_of T i f z w st) (fun h gir st => ha_size_of h i f z st).
Proof. apply efixed_int. Qed.
Lemma efixed_size n : efixed (fun T gir w st => esize T i f n w st) (fun h gir st => ha_size h i f n st).
Proof. apply efixed_int. Qed.
Lemma efixed_loop {X} (G : X -> eaction) (F : X -> action) vs : Forall (fun v => efixed (G v) (F v)) vs ->
  efixed (fun T gir w st => eloop T (fun v w st => G v T gir w st) vs w st) (fun h gir st => ha_loop h (fun v st => F v h gir st) vs st).
Proof.
  induction 1 as [|v vs Hv _ IH]; [apply efixed_done|]. exact (efixed_bind (G v) (F v) _ _ Hv IH).
Qed.
Definition EG (t : ty) (v : val) : eaction := fun T gir w st => eha T gir i f t v w st.
Definition EF (t : ty) (v : val) : action := fun h gir st => ha h gir i f t v st.
Definition PE (t : ty) : Prop := ordered t -> forall v, has_type (im_psz i) t v -> efixed (EG t v) (EF t v).
Lemma efixed_range t vs : (forall v, has_type (im_psz i) t v -> efixed (EG t v) (EF t v)) -> Forall (has_type (im_psz i) t) vs ->
  efixed (fun T gir w st => eloop T (eha T gir i f t) vs w st) (fun h gir st => ha_loop h (ha h gir i f t) vs st).
Proof. intros HP HV. apply (efixed_loop (EG t) (EF t)). eapply Forall_impl; [|exact HV]. exact HP. Qed.
Lemma efixed_ptr t vs : (forall v, has_type (im_psz i) t v -> efixed (EG t v) (EF t v)) -> Forall (has_type (im_psz i) t) vs ->
  efixed (fun T gir w st => eptr_range T i f t (eha T gir i f t) vs w st) (fun h gir st => ha_ptr_range h i f t (ha h gir i f t) vs st).
Proof.
  intros HP HV. unfold eptr_range, ha_ptr_range. pose proof (efixed_range t vs HP HV) as HL.
  assert (HG : efixed (fun T gir w st => if contiguously_hashable i f t
      then if negb (p_cx (im_pf i)) then t_update T w st (data_ptr i vs (flat_map (obj i t) vs)) (length vs * size_of i t) else eloop T (eha T gir i f t) vs w st
      else eloop T (eha T gir i f t) vs w st)
    (fun h gir st => if contiguously_hashable i f t
      then if negb (p_cx (im_pf i)) then h_update h st (data_ptr i vs (flat_map (obj i t) vs)) (length vs * size_of i t) else ha_loop h (ha h gir i f t) vs st
      else ha_loop h (ha h gir i f t) vs st)).
  { destruct (contiguously_hashable i f t) eqn:EC; [|exact HL]. destruct (negb (p_cx (im_pf i))); [|exact HL]. apply efixed_update. now apply (ptr_args i f). }
  destruct t as [s0 sg| | | | | | | | | | | | | | | | | |]; try exact HG.
  destruct s0; try exact HG. destruct sg; try exact HG. apply efixed_update.
  pose proof (ptr_args i f (TInt I8 false) vs (byte_contig i f) HV) as HA. cbn [size_of ibytes] in HA. now rewrite Nat.mul_1_r in HA.
Qed.
Section Each.
Variable T : thrower.
Variable gir : t_R T -> res N.
Fixpoint eeach (ts : list ty) (vs : list val) (w : t_W T) (st : t_S T) : eout T :=
  match ts, vs with
  | [], [] => edone T w st
  | t :: ts, v :: vs => ebind T (eha T gir i f t v w st) (fun w st => eeach ts vs w st)
  | _, _ => UB
  end.
Lemma each_eha ts vs w st :
  (fix each (ts : list ty) (vs : list val) (w : t_W T) (st : t_S T) {struct ts} : eout T :=
    match ts, vs with
    | [], [] => edone T w st
    | t :: ts, v :: vs => ebind T (eha T gir i f t v w st) (fun w st => each ts vs w st)
    | _, _ => UB
    end) ts vs w st = eeach ts vs w st.
Proof. reflexivity. Qed.
Lemma eha_tuple ts vs w st : ts <> [] -> eha T gir i f (TTuple ts) (VList vs) w st = eeach ts vs w st.
Proof.
  intros H. destruct ts as [|t ts]; [easy|]. rewrite <- (each_eha (t :: ts)). cbn [eha contiguously_hashable trivially_comparable andb]. rewrite not_contig. reflexivity.
Qed.
Lemma eha_tag ts vs w st : eha T gir i f (TTag ts) (VList vs) w st = eeach ts vs w st.
Proof. rewrite <- (each_eha ts). cbn [eha contiguously_hashable trivially_comparable andb]. rewrite not_contig. reflexivity. Qed.
Lemma eha_desc bs ms bv mv w st : eha T gir i f (TDesc bs ms) (VList [VList bv; VList mv]) w st =
  ebind T (eeach bs bv w st) (fun w st => ebind T (eeach ms mv w st) (fun w st =>
   if Nat.eqb (length bs + length ms) 0 then eint T i f I8 0 w st else edone T w st)).
Proof. rewrite <- (each_eha bs). cbn [eha contiguously_hashable trivially_comparable andb]. rewrite not_contig. reflexivity. Qed.
End Each.
Lemma efixed_each ts : Forall PE ts -> Forall ordered ts -> forall vs, Zip (has_type (im_psz i)) ts vs ->
  efixed (fun T gir w st => eeach T gir ts vs w st) (fun h gir st => ha_each h gir i f ts vs st).
Proof.
  induction 1 as [|t ts Ht _ IH]; intros HO [|v vs] HZ; try easy; [apply efixed_done|]. inversion HO; subst.
  destruct HZ as [Z1 Z2]. apply (efixed_bind (EG t v) (EF t v) (fun T gir w st => eeach T gir ts vs w st) (fun h gir st => ha_each h gir i f ts vs st)); auto.
Qed.
Lemma efixed_sized G F n : efixed G F -> efixed (fun T gir w st => ebind T (G T gir w st) (fun w st => esize T i f n w st)) (fun h gir st => st <- F h gir st ;; ha_size h i f n st).
Proof. intros H. exact (efixed_bind _ _ _ _ H (efixed_size n)). Qed.
Lemma efixed_form {X} (k : call_ X) t : (forall v, has_type (im_psz i) t v -> efixed (EG t v) (EF t v)) -> ordered_form k ->
  form_ok k (has_type (im_psz i) t) -> efixed (fun T gir w st => eform T gir i f k t (eha T gir i f t) w st) (fun h gir st => form_ha h gir i f k t (ha h gir i f t) st).
Proof.
  intros HP HO HV. destruct k as [t' v|[|c] t' vs|[|c] t' vs|t' vs|z]; cbn [form_ok form_ha eform ordered_form] in *.
  - now apply HP.
  - now apply efixed_ptr.
  - now apply efixed_range.
  - apply (efixed_sized _ _ _ (efixed_ptr t vs HP HV)).
  - destruct c; apply (efixed_sized _ _ _ (efixed_range t vs HP HV)).
  - contradiction.
  - apply efixed_size_of.
Qed.
Lemma efixed_user ts : Forall PE ts -> Forall ordered ts -> forall cs, Forall (UOK (im_psz i) ts) cs -> Forall ordered_form cs ->
  efixed (fun T gir w st => eloop T (fun c w st => ucase (fun z => esize_of T i f z w st) (fun t => eform T gir i f c t (eha T gir i f t) w st) UB ts c) cs w st)
    (fun h gir st => ha_loop h (fun c st => ucase (fun z => ha_size_of h i f z st) (fun t => form_ha h gir i f c t (ha h gir i f t) st) UB ts c) cs st).
Proof.
  intros H HO cs HV HC. apply (efixed_loop (fun c T gir w st => ucase (fun z => esize_of T i f z w st) (fun t => eform T gir i f c t (eha T gir i f t) w st) UB ts c)
    (fun c h gir st => ucase (fun z => ha_size_of h i f z st) (fun t => form_ha h gir i f c t (ha h gir i f t) st) UB ts c)).
  rewrite Forall_forall in HV, HC, HO |- *. intros c Hc. specialize (HV c Hc). specialize (HC c Hc). clear Hc.
  unfold UOK in HV. destruct (ucase_elim _ ts c H) as [(z & ->)|[(t & HP & HI & HAl)|HAl]].
  - cbn [ucase]. apply efixed_size_of.
  - rewrite HAl in HV. eapply efixed_ext; [intros; rewrite HAl; reflexivity|intros; rewrite HAl; reflexivity|]. apply efixed_form; auto.
  - rewrite HAl in HV. contradiction.
Qed.
Lemma efixed_contig t v : contiguously_hashable i f t = true -> has_type (im_psz i) t v ->
  efixed (fun T gir w st => t_update T w st (Ptr (obj i t v)) (size_of i t)) (fun h gir st => h_update h st (Ptr (obj i t v)) (size_of i t)).
Proof.
  intros HC HV. destruct (obj_msg i f t HC v HV) as (_ & EL & EB). apply efixed_update. split; [now rewrite EL|exact EB].
Qed.
Ltac contig EC := match goal with |- context [(negb ?x && ?y)%bool] =>
     destruct (negb x && y)%bool eqn:EC; [apply andb_prop in EC; destruct EC as [_ EC]|] end.
Ltac opn := unfold EG, EF; cbn [eha ha].
Ltac nocontig := unfold EG, EF; cbn [eha ha contiguously_hashable trivially_comparable andb]; rewrite not_contig.
Theorem eha_fixed t : PE t.
Proof.
  induction t using ty_rect'; intros HO v HV.
  all: destruct v as [z|vs]; try easy.
  1-4: opn; contig EC; [now apply efixed_contig|]; apply efixed_int.
  1-3: nocontig; apply efixed_int.
  - opn. contig EC; [now apply efixed_contig|]. apply efixed_ptr; [now apply IHt|apply HV].
  - nocontig. apply (efixed_sized _ _ _ (efixed_ptr t vs (IHt HO) (proj2 HV))) || apply (efixed_sized _ _ _ (efixed_ptr t vs (IHt HO) HV)).
  - nocontig. destruct c; apply (efixed_sized _ _ _ (efixed_range t vs (IHt HO) HV)).
  - nocontig. cbn [has_type] in HV. destruct HV as [HL HV]. destruct (Nat.eqb n 0); [apply efixed_int|]. apply efixed_ptr; [now apply IHt|apply HV].
  - nocontig. cbn [has_type] in HV. destruct HV as [HL HV]. destruct (Nat.eqb n 0); [apply efixed_int|]. apply efixed_range; [now apply IHt|apply HV].
  - cbn [has_type] in HV. rewrite each_ty in HV. rewrite ordered_tuple in HO. destruct ts as [|t ts]; [nocontig; apply efixed_int|].
    eapply efixed_ext; [intros; unfold EG; apply eha_tuple; discriminate|intros; unfold EF; apply ha_tuple; discriminate|]. now apply efixed_each.
  - cbn [has_type] in HV. destruct vs as [|[z|bv] [|[z2|mv] [|? ?]]]; try easy.
    rewrite !each_ty in HV. destruct HV as [HB HM]. assert (HO2 : Forall ordered bs /\ Forall ordered ms).
    { destruct HO as [HO1 HO2]. split; apply ordered_tuple; assumption. }
    destruct HO2 as [OB OM]. eapply efixed_ext; [intros; unfold EG; apply eha_desc|intros; unfold EF; apply ha_desc|].
    apply (efixed_bind _ _ _ _ (efixed_each bs H OB bv HB)). apply (efixed_bind _ _ _ _ (efixed_each ms H0 OM mv HM)).
    destruct (_ =? _)%nat; [apply efixed_int|apply efixed_done].
  - cbn [has_type] in HV. rewrite each_ty in HV. change (ordered (TTuple ts)) in HO. rewrite ordered_tuple in HO.
    eapply efixed_ext; [intros; unfold EG; apply eha_tag|intros; unfold EF; apply ha_tag|]. now apply efixed_each.
  - destruct vs as [|[k|?] [|v [|? ?]]]; try easy. cbn [has_type] in HV. destruct HV as [HI HV].
    change (ordered (TTuple ts)) in HO. rewrite ordered_tuple in HO. rewrite Forall_forall in HO.
    nocontig. destruct (alt_elim _ ts (Z.to_nat k) H) as [(t & HP & HN & HAl)|HAl]; rewrite HAl in HV; [|easy].
    assert (HX : efixed (fun T gir w st => alt (fun t => eha T gir i f t v w st) UB ts (Z.to_nat k)) (fun h gir st => alt (fun t => ha h gir i f t v st) UB ts (Z.to_nat k))).
    { apply (efixed_ext (EG t v) _ (EF t v)); [intros; apply HAl|intros; apply HAl|]. apply HP; auto. }
    destruct lead.
    + apply (efixed_bind _ _ _ _ (efixed_int s k) HX).
    + apply (efixed_bind _ _ _ _ HX (efixed_int s k)).
  - rewrite has_type_user in HV. destruct HV as [_ HV]. destruct HO as [HO HU]. change (ordered (TTuple ts)) in HO. rewrite ordered_tuple in HO.
    nocontig. now apply efixed_user.
  - rewrite has_type_user in HV. destruct HV as [_ HV]. destruct HO as [HO HU]. change (ordered (TTuple ts)) in HO. rewrite ordered_tuple in HO.
    nocontig. now apply efixed_user.
  - opn. contig EC; [now apply efixed_contig|]. apply (IHt HO (VInt z) (proj1 (proj2 HV))).
  - opn. contig EC; [now apply efixed_contig|]. apply (IHt HO (VList vs) (proj1 (proj2 HV))).
Qed.
Theorem call_efixed k : call_ok (im_psz i) k -> ordered_call k ->
  efixed (fun T gir w st => eha_call T gir i f k w st) (fun h gir st => ha_call h gir i f k st).
Proof.
  intros HV HO. destruct k as [t v|d t vs|d t vs|t vs|z]; cbn [ha_call eha_call call_ok ordered_call] in *; try contradiction; try apply efixed_size_of;
    (apply efixed_form; [intros v' HV'; now apply eha_fixed|exact I|exact HV]).
Qed.
End Fixed.

(* ---------- any type, unordered containers included ---------- *)
(* calls of update() on the object, between which the world may change; the last one threw or not *)
Inductive updated (T : thrower) : t_S T -> list (ptr * nat) -> t_S T -> bool -> Prop :=
| updated_none st : updated T st [] st false
| updated_threw w w' st st' p n : t_update T w st p n = Ok (w', st', true) -> updated T st [(p, n)] st' true
| updated_more w w' st s1 p n ls st' b : t_update T w st p n = Ok (w', s1, false) -> updated T s1 ls st' b -> updated T st ((p, n) :: ls) st' b.
Lemma updated_app T st l1 s1 l2 st' b : updated T st l1 s1 false -> updated T s1 l2 st' b -> updated T st (l1 ++ l2) st' b.
Proof.
  intros H. remember false as c eqn:E. induction H; cbn [app]; intros H2.
  - exact H2.
  - discriminate.
  - eapply updated_more; [eassumption|]. auto.
Qed.
Section Any.
Variable T : thrower.
Variable gir : t_R T -> res N.
Variable i : impl.
Variable f : flavor.
(* the outcome r comes from calls of update() on st; at least one, if ne and no exception was thrown *)
Definition edoes (ne : Prop) (st : t_S T) (r : eout T) : Prop :=
  forall w' s' b, r = Ok (w', s', b) -> exists ls b', good_calls ls /\ (ne -> b = false -> ls <> []) /\ updated T st ls s' b' /\ (b = false -> b' = false).
Lemma edoes_done w st : edoes False st (edone T w st).
Proof. intros w' s' b [= <- <- <-]. exists [], false. split; [constructor|]. split; [easy|]. split; [constructor|reflexivity]. Qed.
Lemma edoes_bind (n1 n2 : Prop) st r k : edoes n1 st r -> (forall w s, edoes n2 s (k w s)) -> edoes (n1 \/ n2) st (ebind T r k).
Proof.
  intros D1 D2 w' s' b E. destruct r as [[[w1 s1] [|]]| | | ]; try discriminate; cbn [ebind bind] in E.
  - injection E as <- <- <-. destruct (D1 w1 s1 true eq_refl) as (l1 & b1 & V1 & N1 & U1 & B1). exists l1, b1. repeat split; auto. discriminate.
  - destruct (D1 w1 s1 false eq_refl) as (l1 & b1 & V1 & N1 & U1 & B1). rewrite B1 in U1 by reflexivity.
    destruct (D2 w1 s1 w' s' b E) as (l2 & b2 & V2 & N2 & U2 & B2). exists (l1 ++ l2), b2. split; [now apply good_app|]. split; [|split].
    + intros [H|H] HB HN; apply app_eq_nil in HN; destruct HN as [HN1 HN2]; [now apply N1|now apply N2].
    + eapply updated_app; eassumption.
    + exact B2.
Qed.
Lemma edoes_weak (n1 n2 : Prop) st r : (n2 -> n1) -> edoes n1 st r -> edoes n2 st r.
Proof. intros H D w' s' b E. destruct (D w' s' b E) as (ls & b' & V & N & U & B). exists ls, b'. auto. Qed.
Lemma edoes_update p n w st : valid_arg true p n -> edoes True st (t_update T w st p n).
Proof.
  intros HV w' s' b E. exists [(p, n)], b. split; [constructor; [exact HV|constructor]|]. split; [discriminate|]. split; [|auto].
  destruct b; [eapply updated_threw; exact E|]. eapply updated_more; [exact E|constructor].
Qed.
Lemma edoes_int s z w st : edoes True st (eint T i f s z w st).
Proof. rewrite int_update. apply edoes_update, enc_arg. Qed.
Lemma edoes_size_of z w st : edoes True st (esize_of T i f z w st).
Proof. apply edoes_int. Qed.
Lemma edoes_size n w st : edoes True st (esize T i f n w st).
Proof. apply edoes_int. Qed.
Lemma edoes_loop {X} (F : X -> t_W T -> t_S T -> eout T) vs : Forall (fun v => forall w st, edoes True st (F v w st)) vs -> forall w st, edoes (vs <> []) st (eloop T F vs w st).
Proof.
  induction 1 as [|v vs Hv _ IH]; intros w st.
  - apply (edoes_weak False); [easy|apply edoes_done].
  - cbn [eloop]. apply (edoes_weak (True \/ vs <> [])); [auto|]. apply edoes_bind; [apply Hv|exact IH].
Qed.
Definition PD (t : ty) : Prop := forall v w st, has_type (im_psz i) t v -> edoes True st (eha T gir i f t v w st).
Lemma edoes_range t vs w st : PD t -> Forall (has_type (im_psz i) t) vs -> edoes (vs <> []) st (eloop T (eha T gir i f t) vs w st).
Proof. intros HP HV. apply edoes_loop. eapply Forall_impl; [|exact HV]. intros v Hv w1 s1. now apply HP. Qed.
Lemma edoes_ptr t vs w st : PD t -> Forall (has_type (im_psz i) t) vs -> edoes (vs <> []) st (eptr_range T i f t (eha T gir i f t) vs w st).
Proof.
  intros HP HV. unfold eptr_range. pose proof (edoes_range t vs w st HP HV) as HL.
  assert (HG : edoes (vs <> []) st (if contiguously_hashable i f t
      then if negb (p_cx (im_pf i)) then t_update T w st (data_ptr i vs (flat_map (obj i t) vs)) (length vs * size_of i t) else eloop T (eha T gir i f t) vs w st
      else eloop T (eha T gir i f t) vs w st)).
  { destruct (contiguously_hashable i f t) eqn:EC; [|exact HL]. destruct (negb (p_cx (im_pf i))); [|exact HL]. apply (edoes_weak True); [auto|]. apply edoes_update. now apply (ptr_args i f). }
  destruct t as [s0 sg| | | | | | | | | | | | | | | | | |]; try exact HG.
  destruct s0; try exact HG. destruct sg; try exact HG. apply (edoes_weak True); [auto|]. apply edoes_update.
  pose proof (ptr_args i f (TInt I8 false) vs (byte_contig i f) HV) as HA. cbn [size_of ibytes] in HA. now rewrite Nat.mul_1_r in HA.
Qed.
Lemma edoes_each ts : Forall PD ts -> forall vs w st, Zip (has_type (im_psz i)) ts vs -> edoes (ts <> []) st (eeach i f T gir ts vs w st).
Proof.
  induction 1 as [|t ts Ht _ IH]; intros [|v vs] w st HZ; try easy.
  - apply (edoes_weak False); [easy|apply edoes_done].
  - destruct HZ as [Z1 Z2]. cbn [eeach]. apply (edoes_weak (True \/ ts <> [])); [auto|]. apply edoes_bind; [now apply Ht|]. intros w1 s1. now apply IH.
Qed.
(* an exception leaves the object unchanged, unless an update() for the combined value or the size throws it *)
Lemma edoes_unord F vs w st w' s' b : eunord_range T gir i f F vs w st = Ok (w', s', b) ->
  exists ls b', good_calls ls /\ (length ls <= 2)%nat /\ (b = false -> length ls = 2%nat) /\ updated T st ls s' b' /\ (b = false -> b' = false) /\ (b' = false -> b = true -> ls = []).
Proof.
  unfold eunord_range. destruct (eunord T gir F w st vs 0 0) as [[w1 [[x m]|]]| | | ]; cbn [bind]; try discriminate.
  - unfold esize, esize_of. rewrite int_update. set (p := Ptr _). destruct (t_update T w1 st p (ibytes I64)) as [[[w2 s2] [|]]| | |] eqn:E1; cbn [ebind bind]; try discriminate.
    + intros [= <- <- <-]. exists [(p, ibytes I64)], true. split; [constructor; [apply enc_arg|constructor]|]. split; [cbn; lia|]. split; [discriminate|]. split; [eapply updated_threw; exact E1|]. split; discriminate.
    + rewrite int_update. set (p2 := Ptr _). intros E2. exists [(p, ibytes I64); (p2, ibytes (fl_size f))], b. split; [constructor; [apply enc_arg|constructor; [apply enc_arg|constructor]]|].
      split; [cbn; lia|]. split; [reflexivity|]. split; [|split; [auto|congruence]]. eapply updated_more; [exact E1|]. destruct b; [eapply updated_threw; exact E2|]. eapply updated_more; [exact E2|constructor].
  - intros [= <- <- <-]. exists [], false. split; [constructor|]. split; [cbn; lia|]. split; [discriminate|]. split; [constructor|]. split; auto.
Qed.
Lemma edoes_unord_range F vs w st : edoes True st (eunord_range T gir i f F vs w st).
Proof.
  intros w' s' b E. destruct (edoes_unord F vs w st w' s' b E) as (ls & b' & V & L & L2 & U & B & _). exists ls, b'. split; [exact V|]. split; [|auto].
  intros _ HB HN. specialize (L2 HB). now rewrite HN in L2.
Qed.
Lemma edoes_form {X} (k : call_ X) t w st : PD t -> form_ok k (has_type (im_psz i) t) -> edoes (productive k) st (eform T gir i f k t (eha T gir i f t) w st).
Proof.
  intros HP HV. destruct k as [t' v|[|c] t' vs|[|c] t' vs|t' vs|z]; cbn [form_ok eform productive] in *.
  - now apply HP.
  - now apply edoes_ptr.
  - now apply edoes_range.
  - apply (edoes_weak (vs <> [] \/ True)); [auto|]. apply edoes_bind; [now apply edoes_ptr|intros w1 s1; apply edoes_size].
  - apply (edoes_weak (vs <> [] \/ True)); [auto|]. apply edoes_bind; [now apply edoes_range|intros w1 s1; apply edoes_size].
  - apply edoes_unord_range.
  - apply edoes_size_of.
Qed.
Lemma edoes_user ts : Forall PD ts -> forall cs w st, Forall (UOK (im_psz i) ts) cs ->
  edoes (Exists productive cs) st (eloop T (fun c w st => ucase (fun z => esize_of T i f z w st) (fun t => eform T gir i f c t (eha T gir i f t) w st) UB ts c) cs w st).
Proof.
  intros H. induction cs as [|c cs IH]; intros w st HV; cbn [eloop].
  - apply (edoes_weak False); [intros HN; inversion HN|apply edoes_done].
  - inversion HV as [|? ? V1 V2]; subst. apply (edoes_weak (productive c \/ Exists productive cs)); [intros HN; inversion HN; auto|].
    apply edoes_bind; [|intros w1 s1; now apply IH]. clear - H V1. unfold UOK in V1.
    destruct (ucase_elim _ ts c H) as [(z & ->)|[(t & HP & HI & HAl)|HAl]].
    + cbn [ucase]. apply edoes_size_of.
    + rewrite HAl in V1 |- *. now apply edoes_form.
    + rewrite HAl in V1. contradiction.
Qed.
Lemma edoes_contig t v w st : contiguously_hashable i f t = true -> has_type (im_psz i) t v -> edoes True st (t_update T w st (Ptr (obj i t v)) (size_of i t)).
Proof.
  intros HC HV. destruct (obj_msg i f t HC v HV) as (_ & EL & EB). apply edoes_update. split; [now rewrite EL|exact EB].
Qed.
Ltac contig EC := match goal with |- context [(negb ?x && ?y)%bool] =>
     destruct (negb x && y)%bool eqn:EC; [apply andb_prop in EC; destruct EC as [_ EC]|] end.
Ltac nocontig := cbn [eha contiguously_hashable trivially_comparable andb]; rewrite not_contig.
Theorem eha_does t : PD t.
Proof.
  induction t using ty_rect'; intros v w st HV.
  all: destruct v as [z|vs]; try easy.
  1-4: cbn [eha]; contig EC; [now apply edoes_contig|]; apply edoes_int.
  1-3: nocontig; apply edoes_int.
  - cbn [eha]. contig EC; [now apply edoes_contig|]. destruct HV as (HN & HL & HV). apply (edoes_weak (vs <> [])); [|now apply edoes_ptr].
    intros _ ->. now apply HN.
  - nocontig. apply (edoes_weak (vs <> [] \/ True)); [auto|]. apply edoes_bind; [now apply edoes_ptr|intros w1 s1; apply edoes_size].
  - nocontig. apply (edoes_weak (vs <> [] \/ True)); [auto|]. apply edoes_bind; [now apply edoes_range|intros w1 s1; apply edoes_size].
  - nocontig. cbn [has_type] in HV. destruct HV as [HL HV]. destruct (Nat.eqb_spec n 0) as [->|HN]; [apply edoes_int|]. apply (edoes_weak (vs <> [])); [|now apply edoes_ptr].
    intros _ ->. now apply HN.
  - nocontig. cbn [has_type] in HV. destruct HV as [HL HV]. destruct (Nat.eqb_spec n 0) as [->|HN]; [apply edoes_int|]. apply (edoes_weak (vs <> [])); [|now apply edoes_range].
    intros _ ->. now apply HN.
  - nocontig. apply edoes_unord_range.
  - cbn [has_type] in HV. rewrite each_ty in HV. destruct ts as [|t ts]; [nocontig; apply edoes_int|].
    rewrite eha_tuple by discriminate. apply (edoes_weak (t :: ts <> [])); [discriminate|]. now apply edoes_each.
  - cbn [has_type] in HV. destruct vs as [|[z|bv] [|[z2|mv] [|? ?]]]; try easy.
    rewrite !each_ty in HV. destruct HV as [HB HM]. rewrite eha_desc.
    destruct (Nat.eqb_spec (length bs + length ms) 0) as [EL|EL].
    + apply (edoes_weak (bs <> [] \/ (ms <> [] \/ True))); [auto|]. apply edoes_bind; [now apply edoes_each|]. intros w1 s1. apply edoes_bind; [now apply edoes_each|]. intros w2 s2. apply edoes_int.
    + apply (edoes_weak (bs <> [] \/ (ms <> [] \/ False))).
      { intros _. destruct bs; [|left; discriminate]. destruct ms; [now destruct EL|]. right. left. discriminate. }
      apply edoes_bind; [now apply edoes_each|]. intros w1 s1. apply edoes_bind; [now apply edoes_each|]. intros w2 s2. apply edoes_done.
  - cbn [has_type] in HV. rewrite each_ty in HV. destruct HV as [HN HV]. rewrite eha_tag. apply (edoes_weak (ts <> [])); [auto|]. now apply edoes_each.
  - destruct vs as [|[k|?] [|v [|? ?]]]; try easy. cbn [has_type] in HV. destruct HV as [HI HV].
    nocontig. destruct (alt_elim _ ts (Z.to_nat k) H) as [(t & HP & HN & HAl)|HAl]; rewrite HAl in HV; [|easy].
    apply (edoes_weak (True \/ True)); [auto|]. destruct lead.
    + apply edoes_bind; [apply edoes_int|]. intros w1 s1. rewrite HAl. now apply HP.
    + rewrite HAl. apply edoes_bind; [now apply HP|]. intros w1 s1. apply edoes_int.
  - rewrite has_type_user in HV. destruct HV as [HN HV]. nocontig. apply (edoes_weak (Exists productive (g (VInt z)))); [auto|]. now apply edoes_user.
  - rewrite has_type_user in HV. destruct HV as [HN HV]. nocontig. apply (edoes_weak (Exists productive (g (VList vs)))); [auto|]. now apply edoes_user.
  - cbn [eha]. contig EC; [now apply edoes_contig|]. apply (IHt (VInt z) w st (proj1 (proj2 HV))).
  - cbn [eha]. contig EC; [now apply edoes_contig|]. apply (IHt (VList vs) w st (proj1 (proj2 HV))).
Qed.
Theorem call_edoes k w st : call_ok (im_psz i) k -> edoes (productive k) st (eha_call T gir i f k w st).
Proof.
  intros HV. destruct k as [t v|d t vs|d t vs|t vs|z]; cbn [eha_call call_ok] in *; try (apply edoes_form; [apply eha_does|exact HV]). apply edoes_size_of.
Qed.
End Any.

(* appending an unordered container, or an unordered range *)
Definition unordered_call (k : call) : Prop :=
  match k with KUnord _ _ => True | KVal (TUnord _) (VList _) => True | _ => False end.

(* The functions of ModelThrowBoth.v, for any algorithm and any operations of users: what is done to the object. *)
From Verif Require Import Base BaseFacts SpecCommon Hasher Types ModelResult ModelAppend SpecAppend ProofMsg ProofMsgEq ProofAppend PropsCalls PropsUpdates ModelThrowAlg ProofThrowAlg1 ModelThrowBoth.
Open Scope N_scope.

Section Any.
Variable T : thrower.
Variable uop : t_W T -> user_op -> t_W T * bool.
Variable gir : t_R T -> res N.
Variable i : impl.
Variable f : flavor.
Notation BA := (bha T uop gir i f).
Notation edoes := (edoes T).
Section Each.
Variable p : option user_op.
Fixpoint beach (ts : list ty) (vs : list val) (w : t_W T) (st : t_S T) : eout T :=
  match ts, vs with
  | [], [] => edone T w st
  | t :: ts, v :: vs => ebind T (match p with Some o => buser T uop true o w st | None => edone T w st end) (fun w st => ebind T (BA t v w st) (fun w st => beach ts vs w st))
  | _, _ => UB
  end.
End Each.
Lemma each_bha p ts vs w st :
  (fix each (p : option user_op) (ts : list ty) (vs : list val) (w : t_W T) (st : t_S T) {struct ts} : eout T :=
    match ts, vs with
    | [], [] => edone T w st
    | t :: ts, v :: vs => ebind T (match p with Some o => buser T uop true o w st | None => edone T w st end) (fun w st => ebind T (BA t v w st) (fun w st => each p ts vs w st))
    | _, _ => UB
    end) p ts vs w st = beach p ts vs w st.
Proof.
  revert vs w st. induction ts as [|t ts IH]; intros [|v vs] w st; try reflexivity.
  cbn [beach]. apply ebind_ext. intros w1 s1. apply ebind_ext. intros w2 s2. apply IH.
Qed.
Lemma bha_tuple ts vs w st : ts <> [] -> BA (TTuple ts) (VList vs) w st = beach (Some OGet) ts vs w st.
Proof.
  intros H. destruct ts as [|t ts]; [easy|]. rewrite <- (each_bha (Some OGet) (t :: ts)). cbn [bha contiguously_hashable trivially_comparable andb]. rewrite not_contig. reflexivity.
Qed.
Lemma bha_tag ts vs w st : BA (TTag ts) (VList vs) w st = ebind T (beach (Some OCode) ts vs w st) (fun w st => buser T uop true OCode w st).
Proof. rewrite <- (each_bha (Some OCode) ts). cbn [bha contiguously_hashable trivially_comparable andb]. rewrite not_contig. reflexivity. Qed.
Lemma bha_desc bs ms bv mv w st : BA (TDesc bs ms) (VList [VList bv; VList mv]) w st =
  ebind T (beach None bs bv w st) (fun w st => ebind T (beach None ms mv w st) (fun w st =>
   if Nat.eqb (length bs + length ms) 0 then eint T i f I8 0 w st else edone T w st)).
Proof.
  rewrite <- (each_bha None bs). cbn [bha contiguously_hashable trivially_comparable andb]. rewrite not_contig. apply ebind_ext. intros w1 s1.
  rewrite <- (each_bha None ms). reflexivity.
Qed.

(* operations of the user leave the object alone *)
Lemma edoes_buser p o w st : edoes False st (buser T uop p o w st).
Proof.
  unfold buser. destruct p; [|apply edoes_done]. intros w' s' b [= <- <- <-]. exists [], false. split; [constructor|]. split; [easy|]. split; [constructor|reflexivity].
Qed.
Lemma edoes_pre n st p o w k : (forall w, edoes n st (k w st)) -> edoes n st (ebind T (buser T uop p o w st) k).
Proof.
  intros H. unfold buser. destruct p; [|apply H]. destruct (uop w o) as [w1 [|]]; cbn [fst snd ebind bind]; [|apply H].
  intros w' s' b [= <- <- <-]. exists [], false. split; [constructor|]. split; [discriminate|]. split; [constructor|reflexivity].
Qed.
Lemma edoes_post (n : Prop) st r p o : edoes n st r -> edoes n st (ebind T r (fun w st => buser T uop p o w st)).
Proof. intros H. apply (edoes_weak T (n \/ False)); [auto|]. apply edoes_bind; [exact H|]. intros w s. apply edoes_buser. Qed.
Lemma edoes_loop {X} p (F : X -> t_W T -> t_S T -> eout T) vs : Forall (fun v => forall w st, edoes True st (F v w st)) vs ->
  forall w st, edoes (vs <> []) st (bloop T uop p F vs w st).
Proof.
  induction 1 as [|v vs Hv _ IH]; intros w st; cbn [bloop].
  - apply (edoes_weak T False); [easy|apply edoes_buser].
  - apply edoes_pre. intros w1. apply edoes_pre. intros w2. apply (edoes_weak T (True \/ vs <> [])); [auto|]. apply edoes_bind; [apply Hv|].
    intros w3 s3. apply edoes_pre. intros w4. apply IH.
Qed.
Definition PD (t : ty) : Prop := forall v w st, has_type (im_psz i) t v -> edoes True st (BA t v w st).
Lemma edoes_range p t vs w st : PD t -> Forall (has_type (im_psz i) t) vs -> edoes (vs <> []) st (bloop T uop p (BA t) vs w st).
Proof. intros HP HV. apply edoes_loop. eapply Forall_impl; [|exact HV]. intros v Hv w1 s1. now apply HP. Qed.
Lemma edoes_ptr t vs w st : PD t -> Forall (has_type (im_psz i) t) vs -> edoes (vs <> []) st (bptr_range T uop i f t (BA t) vs w st).
Proof.
  intros HP HV. unfold bptr_range. pose proof (edoes_range false t vs w st HP HV) as HL.
  assert (HG : edoes (vs <> []) st (if contiguously_hashable i f t
      then if negb (p_cx (im_pf i)) then t_update T w st (data_ptr i vs (flat_map (obj i t) vs)) (length vs * size_of i t) else bloop T uop false (BA t) vs w st
      else bloop T uop false (BA t) vs w st)).
  { destruct (contiguously_hashable i f t) eqn:EC; [|exact HL]. destruct (negb (p_cx (im_pf i))); [|exact HL]. apply (edoes_weak T True); [auto|]. apply edoes_update. now apply (ptr_args i f). }
  destruct t as [s0 sg| | | | | | | | | | | | | | | | | |]; try exact HG.
  destruct s0; try exact HG. destruct sg; try exact HG. apply (edoes_weak T True); [auto|]. apply edoes_update.
  pose proof (ptr_args i f (TInt I8 false) vs (byte_contig i f) HV) as HA. cbn [size_of ibytes] in HA. now rewrite Nat.mul_1_r in HA.
Qed.
Lemma edoes_each p ts : Forall PD ts -> forall vs w st, Zip (has_type (im_psz i)) ts vs -> edoes (ts <> []) st (beach p ts vs w st).
Proof.
  induction 1 as [|t ts Ht _ IH]; intros [|v vs] w st HZ; try easy.
  - apply (edoes_weak T False); [easy|apply edoes_done].
  - destruct HZ as [Z1 Z2]. cbn [beach]. assert (HK : forall w st, edoes (t :: ts <> []) st (ebind T (BA t v w st) (fun w st => beach p ts vs w st))).
    { intros w1 s1. apply (edoes_weak T (True \/ ts <> [])); [auto|]. apply edoes_bind; [now apply Ht|]. intros w2 s2. now apply IH. }
    destruct p as [o|]; [apply edoes_pre; intros w1|]; apply HK.
Qed.
(* an exception leaves the object unchanged, unless an update() for the combined value or the size throws it *)
Lemma edoes_unord F vs w st w' s' b : bunord_range T uop gir i f F vs w st = Ok (w', s', b) ->
  exists ls b', good_calls ls /\ (length ls <= 2)%nat /\ (b = false -> length ls = 2%nat) /\ updated T st ls s' b' /\ (b = false -> b' = false) /\ (b' = false -> b = true -> ls = []).
Proof.
  unfold bunord_range. destruct (bunord T uop gir F w st vs 0 0) as [[w1 [[x m]|]]| | | ]; cbn [bind]; try discriminate.
  - unfold esize, esize_of. rewrite int_update. set (p := Ptr _). destruct (t_update T w1 st p (ibytes I64)) as [[[w2 s2] [|]]| | |] eqn:E1; cbn [ebind bind]; try discriminate.
    + intros [= <- <- <-]. exists [(p, ibytes I64)], true. split; [constructor; [apply enc_arg|constructor]|]. split; [cbn; lia|]. split; [discriminate|]. split; [eapply updated_threw; exact E1|]. split; discriminate.
    + rewrite int_update. set (p2 := Ptr _). intros E2. exists [(p, ibytes I64); (p2, ibytes (fl_size f))], b. split; [constructor; [apply enc_arg|constructor; [apply enc_arg|constructor]]|].
      split; [cbn; lia|]. split; [reflexivity|]. split; [|split; [auto|congruence]]. eapply updated_more; [exact E1|]. destruct b; [eapply updated_threw; exact E2|]. eapply updated_more; [exact E2|constructor].
  - intros [= <- <- <-]. exists [], false. split; [constructor|]. split; [cbn; lia|]. split; [discriminate|]. split; [constructor|]. split; auto.
Qed.
Lemma edoes_unord_range F vs w st : edoes True st (bunord_range T uop gir i f F vs w st).
Proof.
  intros w' s' b E. destruct (edoes_unord F vs w st w' s' b E) as (ls & b' & V & L & L2 & U & B & _). exists ls, b'. split; [exact V|]. split; [|auto].
  intros _ HB HN. specialize (L2 HB). now rewrite HN in L2.
Qed.
Lemma edoes_sized (n : Prop) st r k : edoes n st r -> edoes True st (ebind T r (fun w st => esize T i f k w st)).
Proof. intros H. apply (edoes_weak T (n \/ True)); [auto|]. apply edoes_bind; [exact H|]. intros w s. apply edoes_size. Qed.
Lemma edoes_distance (n : Prop) st r p k : edoes n st r ->
  edoes True st (ebind T r (fun w st => ebind T (buser T uop p ODistance w st) (fun w st => esize T i f k w st))).
Proof. intros H. apply (edoes_weak T (n \/ True)); [auto|]. apply edoes_bind; [exact H|]. intros w s. apply edoes_pre. intros w1. apply edoes_size. Qed.
Lemma edoes_form {X} (k : call_ X) t w st : PD t -> form_ok k (has_type (im_psz i) t) -> edoes (productive k) st (bform T uop gir i f k t (BA t) w st).
Proof.
  intros HP HV. destruct k as [t' v|[|c] t' vs|[|c] t' vs|t' vs|z]; cbn [form_ok bform productive] in *.
  - now apply HP.
  - now apply edoes_ptr.
  - now apply edoes_range.
  - apply (edoes_sized (vs <> [])). now apply edoes_ptr.
  - apply (edoes_distance (vs <> [])). now apply edoes_range.
  - apply edoes_unord_range.
  - apply edoes_size_of.
Qed.
Lemma edoes_user ts : Forall PD ts -> forall cs w st, Forall (UOK (im_psz i) ts) cs ->
  edoes (Exists productive cs) st (bcalls T uop (fun c w st => ucase (fun z => esize_of T i f z w st) (fun t => bform T uop gir i f c t (BA t) w st) UB ts c) cs w st).
Proof.
  intros H. induction cs as [|c cs IH]; intros w st HV; cbn [bcalls].
  - apply (edoes_weak T False); [intros HN; inversion HN|apply edoes_buser].
  - inversion HV as [|? ? V1 V2]; subst. apply edoes_pre. intros w0. apply (edoes_weak T (productive c \/ Exists productive cs)); [intros HN; inversion HN; auto|].
    apply edoes_bind; [|intros w1 s1; now apply IH]. clear - H V1. unfold UOK in V1.
    destruct (ucase_elim _ ts c H) as [(z & ->)|[(t & HP & HI & HAl)|HAl]].
    + cbn [ucase]. apply edoes_size_of.
    + rewrite HAl in V1 |- *. now apply edoes_form.
    + rewrite HAl in V1. contradiction.
Qed.
Ltac contig EC := match goal with |- context [(negb ?x && ?y)%bool] =>
     destruct (negb x && y)%bool eqn:EC; [apply andb_prop in EC; destruct EC as [_ EC]|] end.
Ltac nocontig := cbn [bha contiguously_hashable trivially_comparable andb]; rewrite not_contig.
Theorem bha_does t : PD t.
Proof.
  induction t using ty_rect'; intros v w st HV.
  all: destruct v as [z|vs]; try easy.
  1-4: cbn [bha]; contig EC; [now apply (edoes_contig T i f)|]; apply edoes_int.
  1-3: nocontig; apply edoes_int.
  - cbn [bha]. contig EC; [now apply (edoes_contig T i f)|]. destruct HV as (HN & HL & HV). apply (edoes_weak T (vs <> [])); [|now apply edoes_ptr].
    intros _ ->. now apply HN.
  - nocontig. apply edoes_pre. intros w0. apply (edoes_sized (vs <> [])). now apply edoes_ptr.
  - nocontig. apply edoes_pre. intros w0. apply (edoes_distance (vs <> [])). now apply edoes_range.
  - nocontig. cbn [has_type] in HV. destruct HV as [HL HV]. destruct (Nat.eqb_spec n 0) as [->|HN]; [apply edoes_int|]. apply edoes_pre. intros w0. apply (edoes_weak T (vs <> [])); [|now apply edoes_ptr].
    intros _ ->. now apply HN.
  - nocontig. cbn [has_type] in HV. destruct HV as [HL HV]. destruct (Nat.eqb_spec n 0) as [->|HN]; [apply edoes_int|]. apply edoes_pre. intros w0. apply (edoes_weak T (vs <> [])); [|now apply edoes_range].
    intros _ ->. now apply HN.
  - nocontig. apply edoes_pre. intros w0. apply edoes_unord_range.
  - cbn [has_type] in HV. rewrite each_ty in HV. destruct ts as [|t ts]; [nocontig; apply edoes_int|].
    rewrite bha_tuple by discriminate. apply (edoes_weak T (t :: ts <> [])); [discriminate|]. now apply edoes_each.
  - cbn [has_type] in HV. destruct vs as [|[z|bv] [|[z2|mv] [|? ?]]]; try easy.
    rewrite !each_ty in HV. destruct HV as [HB HM]. rewrite bha_desc.
    destruct (Nat.eqb_spec (length bs + length ms) 0) as [EL|EL].
    + apply (edoes_weak T (bs <> [] \/ (ms <> [] \/ True))); [auto|]. apply edoes_bind; [now apply edoes_each|]. intros w1 s1. apply edoes_bind; [now apply edoes_each|]. intros w2 s2. apply edoes_int.
    + apply (edoes_weak T (bs <> [] \/ (ms <> [] \/ False))).
      { intros _. destruct bs; [|left; discriminate]. destruct ms; [now destruct EL|]. right. left. discriminate. }
      apply edoes_bind; [now apply edoes_each|]. intros w1 s1. apply edoes_bind; [now apply edoes_each|]. intros w2 s2. apply edoes_done.
  - cbn [has_type] in HV. rewrite each_ty in HV. destruct HV as [HN HV]. rewrite bha_tag. apply edoes_post. apply (edoes_weak T (ts <> [])); [auto|]. now apply edoes_each.
  - destruct vs as [|[k|?] [|v [|? ?]]]; try easy. cbn [has_type] in HV. destruct HV as [HI HV].
    nocontig. destruct (alt_elim _ ts (Z.to_nat k) H) as [(t & HP & HN & HAl)|HAl]; rewrite HAl in HV; [|easy].
    destruct lead; apply edoes_pre; intros w0; apply (edoes_weak T (True \/ True)); auto.
    + apply edoes_bind; [apply edoes_int|]. intros w1 s1. apply edoes_pre. intros w2. apply edoes_post. rewrite HAl. now apply HP.
    + rewrite HAl. apply edoes_bind; [now apply HP|]. intros w1 s1. apply edoes_pre. intros w2. apply edoes_post. apply edoes_int.
  - rewrite has_type_user in HV. destruct HV as [HN HV]. nocontig. apply (edoes_weak T (Exists productive (g (VInt z)))); [auto|]. now apply edoes_user.
  - rewrite has_type_user in HV. destruct HV as [HN HV]. nocontig. apply (edoes_weak T (Exists productive (g (VList vs)))); [auto|]. now apply edoes_user.
  - cbn [bha]. contig EC; [now apply (edoes_contig T i f)|]. apply (IHt (VInt z) w st (proj1 (proj2 HV))).
  - cbn [bha]. contig EC; [now apply (edoes_contig T i f)|]. apply (IHt (VList vs) w st (proj1 (proj2 HV))).
Qed.
Theorem call_bdoes k w st : call_ok (im_psz i) k -> edoes (productive k) st (bha_call T uop gir i f k w st).
Proof.
  intros HV. destruct k as [t v|d t vs|d t vs|t vs|z]; cbn [bha_call call_ok] in *; try (apply edoes_form; [apply bha_does|exact HV]). apply edoes_size_of.
Qed.
End Any.

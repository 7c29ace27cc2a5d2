(* What messages depend on. *)
From Verif Require Import Base BaseFacts SpecCommon Types SpecAppend ProofMsg ProofMsgEq.
Open Scope N_scope.

Definition qle (L : nat) (q1 q2 : list N -> N) : Prop :=
  forall m, bytes m -> (length m + 192 <= L)%nat -> q1 m = q2 m.
Lemma qle_shift x k L q1 q2 : qle (k + L) q1 q2 -> bytes x -> (length x <= k)%nat -> qle L (shift x q1) (shift x q2).
Proof.
  intros H B K m Bm Lm. unfold shift. apply H; [apply bytes_app; auto|]. rewrite app_length. lia.
Qed.
Lemma qle_mono L L' q1 q2 : qle L q1 q2 -> (L' <= L)%nat -> qle L' q1 q2.
Proof. intros H HL m Bm Lm. apply H; [exact Bm|lia]. Qed.

Lemma floats_tuple P32 P64 ts vs : all_floats P32 P64 (TTuple ts) (VList vs) <-> ZipW (all_floats P32 P64) ts vs.
Proof. cbn [all_floats]. revert vs; induction ts as [|t ts IH]; intros [|v vs]; cbn [ZipW]; try reflexivity; apply and_iff_compat_l, IH. Qed.
Lemma floats_desc P32 P64 bs ms bv mv : all_floats P32 P64 (TDesc bs ms) (VList [VList bv; VList mv]) <->
  ZipW (all_floats P32 P64) bs bv /\ ZipW (all_floats P32 P64) ms mv.
Proof. rewrite <- (floats_tuple P32 P64 bs), <- (floats_tuple P32 P64 ms). reflexivity. Qed.

Definition UFL (P32 P64 : N -> Prop) (ts : list ty) (c : call_ nat) : Prop :=
  ucase (fun _ => True) (fun t => form_ok c (all_floats P32 P64 t)) True ts c.
Lemma floats_user P32 P64 g ts v : all_floats P32 P64 (TUser g ts) v <-> Forall (UFL P32 P64 ts) (g v).
Proof. destruct v; reflexivity. Qed.

Section Ext.
Variables (le : bool) (ss psz : isz) (fz32 fz64 gz32 gz64 : N -> N).
Variables P32 P64 : N -> Prop.
Hypothesis H32 : forall b, P32 b -> fz32 b = gz32 b.
Hypothesis H64 : forall b, P64 b -> fz64 b = gz64 b.
Notation MF := (msg le ss psz fz32 fz64).
Notation MG := (msg le ss psz gz32 gz64).
Notation TMF := (tup_msg le ss psz fz32 fz64).
Notation TMG := (tup_msg le ss psz gz32 gz64).

Definition agree (t : ty) : Prop := forall v q1 q2, all_floats P32 P64 t v -> qle (blen t v) q1 q2 -> MF t v q1 = MG t v q2.

Lemma seq_agree t : agree t -> forall vs q1 q2, Forall (all_floats P32 P64 t) vs -> qle (lsum (map (blen t) vs)) q1 q2 ->
  seq_msg (MF t) vs q1 = seq_msg (MG t) vs q2.
Proof.
  intros HA. induction vs as [|v vs IH]; intros q1 q2 HF HQ; [reflexivity|].
  inversion HF; subst. cbn [seq_msg map lsum fold_right] in *.
  assert (E : MF t v q1 = MG t v q2) by (apply HA; [assumption|apply (qle_mono _ _ _ _ HQ); lia]).
  rewrite E. f_equal. apply IH; [assumption|]. apply (qle_shift _ _ _ _ _ HQ); [apply msg_bytes|apply msg_blen].
Qed.
Lemma tup_agree ts : Forall agree ts -> forall vs q1 q2, ZipW (all_floats P32 P64) ts vs -> qle (tup_blen ts vs) q1 q2 ->
  TMF ts vs q1 = TMG ts vs q2.
Proof.
  induction 1 as [|t ts HA HT IH]; intros [|v vs] q1 q2 HF HQ; try reflexivity.
  destruct HF as [F1 F2]. cbn [tup_msg tup_blen] in *.
  assert (E : MF t v q1 = MG t v q2) by (apply HA; [assumption|apply (qle_mono _ _ _ _ HQ); lia]).
  rewrite E. f_equal. apply IH; [assumption|]. apply (qle_shift _ _ _ _ _ HQ); [apply msg_bytes|apply msg_blen].
Qed.
Lemma all_agree (ts : list ty) : Forall agree ts -> Forall agree ts. Proof. trivial. Qed.

Lemma unord_agree t : agree t -> forall vs q1 q2, Forall (all_floats P32 P64 t) vs ->
  qle (lsum (map (fun v => (192 + blen t v)%nat) vs)) q1 q2 ->
  map (fun v => q1 (MF t v q1)) vs = map (fun v => q2 (MG t v q2)) vs.
Proof.
  intros IHt vs q1 q2 HF HQ'. induction HF as [|v vs F1 F2 IH]; [reflexivity|]. cbn [map lsum fold_right] in *.
  f_equal; [|apply IH; apply (qle_mono _ _ _ _ HQ'); unfold lsum; lia].
  rewrite (IHt v q1 q2 F1) by (apply (qle_mono _ _ _ _ HQ'); lia).
  apply HQ'; [apply msg_bytes|]. pose proof (msg_blen le ss psz gz32 gz64 t v q2). lia.
Qed.
Lemma form_agree {T} (k : call_ T) t q1 q2 : agree t -> form_ok k (all_floats P32 P64 t) -> qle (form_blen k (blen t)) q1 q2 ->
  form_msg le ss k (MF t) q1 = form_msg le ss k (MG t) q2.
Proof.
  intros HA HF HQ. destruct k as [t' v|k t' vs|k t' vs|t' vs|z]; cbn [form_ok form_blen form_msg] in *.
  - now apply HA.
  - now apply seq_agree.
  - f_equal. apply seq_agree; [exact HA|exact HF|]. apply (qle_mono _ _ _ _ HQ). lia.
  - rewrite (unord_agree t HA vs q1 q2 HF); [reflexivity|]. apply (qle_mono _ _ _ _ HQ). lia.
  - reflexivity.
Qed.
Lemma user_agree ts : Forall agree ts -> forall cs q1 q2, Forall (UFL P32 P64 ts) cs -> qle (lsum (map (UBLEN ts) cs)) q1 q2 ->
  seq_msg (UMSG le ss psz fz32 fz64 ts) cs q1 = seq_msg (UMSG le ss psz gz32 gz64 ts) cs q2.
Proof.
  intros H. induction cs as [|c cs IH]; intros q1 q2 HF HQ; [reflexivity|].
  inversion HF as [|? ? F1 F2]; subst. cbn [seq_msg map lsum fold_right] in *.
  assert (E : UMSG le ss psz fz32 fz64 ts c q1 = UMSG le ss psz gz32 gz64 ts c q2).
  { assert (HQ1 : qle (UBLEN ts c) q1 q2) by (apply (qle_mono _ _ _ _ HQ); lia). clear - H F1 HQ1 H32 H64.
    unfold UMSG, UFL, UBLEN in *. ucases H ts c z t HP HI HA; try reflexivity. now apply form_agree. }
  rewrite E. f_equal. apply IH; [assumption|]. apply (qle_shift _ _ _ _ _ HQ); [apply umsg_bytes|apply umsg_blen].
Qed.

Theorem msg_agree t : agree t.
Proof.
  induction t using ty_rect'; intros v q1 q2 HF HQ; destruct v as [z|vs]; try reflexivity.
  - cbn [msg]. now rewrite H32.
  - cbn [msg]. now rewrite H64.
  - cbn [msg blen all_floats] in *. apply seq_agree; [exact IHt|exact HF|]. apply (qle_mono _ _ _ _ HQ). lia.
  - cbn [msg blen all_floats] in *. f_equal. apply seq_agree; [exact IHt|exact HF|]. apply (qle_mono _ _ _ _ HQ). lia.
  - cbn [msg blen all_floats] in *. f_equal. apply seq_agree; [exact IHt|exact HF|]. apply (qle_mono _ _ _ _ HQ). lia.
  - destruct vs as [|v vs]; [reflexivity|]. apply (seq_agree t IHt (v :: vs)); [exact HF|].
    apply (qle_mono _ _ _ _ HQ). cbn [blen]. lia.
  - destruct vs as [|v vs]; [reflexivity|]. apply (seq_agree t IHt (v :: vs)); [exact HF|].
    apply (qle_mono _ _ _ _ HQ). cbn [blen]. lia.
  - cbn [msg blen all_floats] in *. rewrite (unord_agree t IHt vs q1 q2 HF); [reflexivity|]. apply (qle_mono _ _ _ _ HQ). lia.
  - destruct ts as [|t ts]; [reflexivity|]. rewrite !msg_tuple by discriminate. rewrite floats_tuple in HF. rewrite blen_tuple in HQ.
    apply tup_agree; [exact H|exact HF|]. apply (qle_mono _ _ _ _ HQ). lia.
  - destruct vs as [|[z|bv] [|[z2|mv] [|? ?]]]; try (destruct bs, ms; reflexivity).
    assert (HD : (bs = [] /\ ms = []) \/ (bs <> [] \/ ms <> [])).
    { destruct bs; [destruct ms|]; [now left|right; right; discriminate|right; left; discriminate]. }
    destruct HD as [[-> ->]|HD]; [reflexivity|]. rewrite !msg_desc by exact HD.
    rewrite floats_desc in HF. destruct HF as [F1 F2]. rewrite blen_desc in HQ.
    assert (E : TMF bs bv q1 = TMG bs bv q2) by (apply tup_agree; [exact H|exact F1|apply (qle_mono _ _ _ _ HQ); lia]).
    rewrite E. f_equal. apply tup_agree; [exact H0|exact F2|].
    apply (qle_shift _ (tup_blen bs bv)).
    + apply (qle_mono _ _ _ _ HQ). lia.
    + apply tup_msg_bytes. apply Forall_forall. intros t _. apply msg_bytes.
    + apply tup_blen_ok. apply Forall_forall. intros t _. apply msg_blen.
  - rewrite !msg_tag. rewrite (floats_tuple P32 P64 ts vs : all_floats P32 P64 (TTag ts) (VList vs) <-> _) in HF. rewrite blen_tag in HQ.
    apply tup_agree; [exact H|exact HF|]. apply (qle_mono _ _ _ _ HQ). lia.
  - destruct vs as [|[k|vs'] [|v [|? ?]]]; try (destruct lead; reflexivity).
    cbn [all_floats blen] in HF, HQ. pose proof (ibytes_8 s).
    alt_cases H ts (Z.to_nat k) t HP HI HA; destruct lead; cbn [msg]; rewrite !HA; try reflexivity; f_equal.
    + apply HP; [exact HF|]. apply (qle_shift _ 8 _ _ _ HQ); [apply enc_bytes|now rewrite enc_length].
    + apply HP; [exact HF|]. apply (qle_mono _ _ _ _ HQ). lia.
  - rewrite !msg_user. rewrite floats_user in HF. rewrite blen_user in HQ. apply user_agree; [exact H|exact HF|]. apply (qle_mono _ _ _ _ HQ). lia.
  - rewrite !msg_user. rewrite floats_user in HF. rewrite blen_user in HQ. apply user_agree; [exact H|exact HF|]. apply (qle_mono _ _ _ _ HQ). lia.
  - exact (IHt (VInt z) q1 q2 HF HQ).
  - exact (IHt (VList vs) q1 q2 HF HQ).
Qed.
Theorem call_agree k q1 q2 : call_floats P32 P64 k -> qle (call_blen k) q1 q2 ->
  call_msg le ss psz fz32 fz64 k q1 = call_msg le ss psz gz32 gz64 k q2.
Proof.
  destruct k as [t v|k t vs|k t vs|t vs|z]; cbn [call_floats call_blen call_msg]; intros HF HQ.
  1-4: apply form_agree; [apply msg_agree|exact HF|exact HQ].
  reflexivity.
Qed.
End Ext.

Lemma form_ok_all {T} (k : call_ T) (Q : val -> Prop) : (forall v, Q v) -> form_ok k Q.
Proof. intros H. destruct k; cbn [form_ok]; auto; apply Forall_forall; auto. Qed.
Lemma floats_true t : forall v, all_floats (fun _ => True) (fun _ => True) t v.
Proof.
  assert (HL : forall t, (forall v, all_floats (fun _ => True) (fun _ => True) t v) -> forall vs, Forall (all_floats (fun _ => True) (fun _ => True) t) vs)
    by (intros t0 H vs; apply Forall_forall; auto).
  assert (HZ : forall ts, Forall (fun t => forall v, all_floats (fun _ => True) (fun _ => True) t v) ts ->
            forall vs, ZipW (all_floats (fun _ => True) (fun _ => True)) ts vs).
  { induction 1; intros [|v vs]; cbn [ZipW]; auto. }
  induction t using ty_rect'; intros v; destruct v as [z|vs]; try exact I; try (apply HL; assumption).
  - apply floats_tuple. auto.
  - destruct vs as [|[z|bv] [|[z2|mv] [|? ?]]]; try exact I. apply floats_desc. auto.
  - apply floats_tuple. auto.
  - destruct vs as [|[k|vs'] [|v [|? ?]]]; try exact I. cbn [all_floats].
    alt_cases H ts (Z.to_nat k) t HP HI HA; [apply HP|exact I].
  - apply floats_user. apply Forall_forall. intros c _. unfold UFL. ucases H ts c n t HP HI HA; try exact I. now apply form_ok_all.
  - apply floats_user. apply Forall_forall. intros c _. unfold UFL. ucases H ts c n t HP HI HA; try exact I. now apply form_ok_all.
  - exact (IHt (VInt z)).
  - exact (IHt (VList vs)).
Qed.

Theorem msg_ext_b le ss psz fz32 fz64 t v q1 q2 : qle (blen t v) q1 q2 ->
  msg le ss psz fz32 fz64 t v q1 = msg le ss psz fz32 fz64 t v q2.
Proof. intros H. apply (msg_agree le ss psz fz32 fz64 fz32 fz64 (fun _ => True) (fun _ => True)); auto. apply floats_true. Qed.

Lemma call_floats_true k : call_floats (fun _ => True) (fun _ => True) k.
Proof.
  destruct k as [t v|k t vs|k t vs|t vs|z]; cbn [call_floats]; try exact I; apply form_ok_all, floats_true.
Qed.
Theorem call_ext_b le ss psz fz32 fz64 k q1 q2 : qle (call_blen k) q1 q2 ->
  call_msg le ss psz fz32 fz64 k q1 = call_msg le ss psz fz32 fz64 k q2.
Proof. intros H. apply (call_agree le ss psz fz32 fz64 fz32 fz64 (fun _ => True) (fun _ => True)); auto. apply call_floats_true. Qed.

(* without unordered containers the message is a function of the value alone *)
Lemma seq_q_indep t (HM : forall le ss psz a b v q1 q2, msg le ss psz a b t v q1 = msg le ss psz a b t v q2) le ss psz a b vs :
  forall q1 q2, seq_msg (msg le ss psz a b t) vs q1 = seq_msg (msg le ss psz a b t) vs q2.
Proof. induction vs as [|v vs IH]; intros q1 q2; [reflexivity|]. cbn [seq_msg]. rewrite (HM _ _ _ _ _ v q1 q2). f_equal. apply IH. Qed.
Lemma tup_q_indep ts : Forall (fun t => forall le ss psz a b v q1 q2, msg le ss psz a b t v q1 = msg le ss psz a b t v q2) ts ->
  forall le ss psz a b vs q1 q2, tup_msg le ss psz a b ts vs q1 = tup_msg le ss psz a b ts vs q2.
Proof.
  induction 1 as [|t ts HM HT IH]; intros le ss psz a b [|v vs] q1 q2; try reflexivity. cbn [tup_msg].
  rewrite (HM _ _ _ _ _ v q1 q2). f_equal. apply IH.
Qed.
Lemma user_q_indep ts : Forall (fun t => forall le ss psz a b v q1 q2, msg le ss psz a b t v q1 = msg le ss psz a b t v q2) ts ->
  forall le ss psz a b cs, Forall (fun c => match c with KUnord _ _ => False | _ => True end) cs -> forall q1 q2,
  seq_msg (UMSG le ss psz a b ts) cs q1 = seq_msg (UMSG le ss psz a b ts) cs q2.
Proof.
  intros H le ss psz a b cs HC. induction HC as [|c cs HC _ IH]; intros q1 q2; [reflexivity|]. cbn [seq_msg].
  assert (E : UMSG le ss psz a b ts c q1 = UMSG le ss psz a b ts c q2).
  { unfold UMSG. clear IH. ucases H ts c z t HP HI HA; try reflexivity.
    destruct c as [t' v|k t' vs|k t' vs|t' vs|z]; cbn [form_msg]; try contradiction; try reflexivity.
    - apply HP.
    - now apply seq_q_indep.
    - f_equal. now apply seq_q_indep. }
  rewrite E. f_equal. apply IH.
Qed.
Theorem msg_q_indep t : ordered t -> forall le ss psz a b v q1 q2, msg le ss psz a b t v q1 = msg le ss psz a b t v q2.
Proof.
  induction t using ty_rect'; intros HO le ss psz a b v q1 q2; destruct v as [z|vs]; try reflexivity; try contradiction.
  - exact (seq_q_indep t (IHt HO) le ss psz a b vs q1 q2).
  - cbn [msg]. f_equal. exact (seq_q_indep t (IHt HO) le ss psz a b vs q1 q2).
  - cbn [msg]. f_equal. exact (seq_q_indep t (IHt HO) le ss psz a b vs q1 q2).
  - destruct vs as [|v vs]; [reflexivity|]. exact (seq_q_indep t (IHt HO) le ss psz a b (v :: vs) q1 q2).
  - destruct vs as [|v vs]; [reflexivity|]. exact (seq_q_indep t (IHt HO) le ss psz a b (v :: vs) q1 q2).
  - rewrite ordered_tuple in HO. destruct ts as [|t ts]; [reflexivity|]. rewrite !msg_tuple by discriminate. apply tup_q_indep.
    rewrite Forall_forall in *. intros x Hx. apply H; auto.
  - destruct vs as [|[z|bv] [|[z2|mv] [|? ?]]]; try (destruct bs, ms; reflexivity).
    assert (HO2 : Forall ordered bs /\ Forall ordered ms).
    { destruct HO as [HO1 HO2]. split; apply ordered_tuple; assumption. }
    destruct HO2 as [OB OM].
    assert (HD : (bs = [] /\ ms = []) \/ (bs <> [] \/ ms <> [])).
    { destruct bs; [destruct ms|]; [now left|right; right; discriminate|right; left; discriminate]. }
    destruct HD as [[-> ->]|HD]; [reflexivity|]. rewrite !msg_desc by exact HD.
    rewrite Forall_forall in *.
    rewrite (tup_q_indep bs) with (q2 := q2) by (apply Forall_forall; intros x Hx; apply H; auto).
    f_equal. apply tup_q_indep. apply Forall_forall; intros x Hx; apply H0; auto.
  - change (ordered (TTuple ts)) in HO. rewrite ordered_tuple in HO. rewrite !msg_tag. apply tup_q_indep.
    rewrite Forall_forall in *. intros x Hx. apply H; auto.
  - change (ordered (TTuple ts)) in HO. rewrite ordered_tuple in HO. rewrite Forall_forall in HO.
    destruct vs as [|[k|vs'] [|v [|? ?]]]; try (destruct lead; reflexivity).
    alt_cases H ts (Z.to_nat k) t HP HI HA; destruct lead; cbn [msg]; rewrite !HA; try reflexivity; f_equal; apply (HP (HO t HI)).
  - destruct HO as [HO HU]. change (ordered (TTuple ts)) in HO. rewrite ordered_tuple in HO. rewrite !msg_user.
    apply user_q_indep; [|apply HU]. rewrite Forall_forall in *. intros x Hx. apply H; auto.
  - destruct HO as [HO HU]. change (ordered (TTuple ts)) in HO. rewrite ordered_tuple in HO. rewrite !msg_user.
    apply user_q_indep; [|apply HU]. rewrite Forall_forall in *. intros x Hx. apply H; auto.
  - exact (IHt HO le ss psz a b (VInt z) q1 q2).
  - exact (IHt HO le ss psz a b (VList vs) q1 q2).
Qed.

(* Messages, equality and unique parsing. *)
From Coq Require Import Permutation.
From Verif Require Import Base BaseFacts SpecCommon Types SpecAppend ProofMsg.
Open Scope N_scope.

Fixpoint Zip2 (P : ty -> val -> val -> Prop) (ts : list ty) (vs1 vs2 : list val) : Prop :=
  match ts, vs1, vs2 with
  | [], [], [] => True
  | t :: ts, v1 :: vs1, v2 :: vs2 => P t v1 v2 /\ Zip2 P ts vs1 vs2
  | _, _, _ => False
  end.
Fixpoint ZipW (P : ty -> val -> Prop) (ts : list ty) (vs : list val) : Prop :=
  match ts, vs with
  | t :: ts, v :: vs => P t v /\ ZipW P ts vs
  | _, _ => True
  end.
Lemma has_type_tuple psz ts vs : has_type psz (TTuple ts) (VList vs) <-> Zip (has_type psz) ts vs.
Proof. cbn [has_type]. revert vs; induction ts as [|t ts IH]; intros [|v vs]; cbn [Zip]; try reflexivity; apply and_iff_compat_l, IH. Qed.
Lemma has_type_tag psz ts vs : has_type psz (TTag ts) (VList vs) <-> ts <> [] /\ Zip (has_type psz) ts vs.
Proof. cbn [has_type]. apply and_iff_compat_l. apply has_type_tuple. Qed.
Lemma has_type_desc psz bs ms bv mv : has_type psz (TDesc bs ms) (VList [VList bv; VList mv]) <->
  Zip (has_type psz) bs bv /\ Zip (has_type psz) ms mv.
Proof. cbn [has_type]. rewrite <- (has_type_tuple psz bs bv), <- (has_type_tuple psz ms mv). reflexivity. Qed.
Lemma equal_tuple ts vs1 vs2 : equal (TTuple ts) (VList vs1) (VList vs2) <-> Zip2 equal ts vs1 vs2.
Proof. cbn [equal]. revert vs1 vs2; induction ts as [|t ts IH]; intros [|v1 vs1] [|v2 vs2]; cbn [Zip2]; try reflexivity; apply and_iff_compat_l, IH. Qed.
Lemma equal_tag ts vs1 vs2 : equal (TTag ts) (VList vs1) (VList vs2) <-> Zip2 equal ts vs1 vs2.
Proof. apply equal_tuple. Qed.
Lemma equal_desc bs ms b1 m1 b2 m2 : equal (TDesc bs ms) (VList [VList b1; VList m1]) (VList [VList b2; VList m2]) <->
  Zip2 equal bs b1 b2 /\ Zip2 equal ms m1 m2.
Proof. rewrite <- (equal_tuple bs), <- (equal_tuple ms). reflexivity. Qed.
(* the calls of a tag_invoke *)
Definition UOK (psz : isz) (ts : list ty) (c : call_ nat) : Prop :=
  ucase (fun _ => True) (fun t => form_ok c (has_type psz t)) False ts c.
Lemma has_type_user psz g ts v : has_type psz (TUser g ts) v <-> Exists productive (g v) /\ Forall (UOK psz ts) (g v).
Proof. destruct v; reflexivity. Qed.
Definition UEQ (ts : list ty) (c1 c2 : call_ nat) : Prop :=
  ucase (fun _ => c1 = c2) (fun t => form_equal c1 c2 (equal t)) False ts c1.
Lemma equal_user g ts v1 v2 : equal (TUser g ts) v1 v2 <-> Forall2 (UEQ ts) (g v1) (g v2).
Proof. destruct v1, v2; reflexivity. Qed.
Lemma form_equal_case (c1 c2 : call_ nat) E : form_equal c1 c2 E ->
  (exists n, c1 = KSize n /\ c2 = KSize n) \/
  forall (X : Type) (z : Z -> X) f d ts, ucase z f d ts c1 = ucase z f d ts c2.
Proof.
  destruct c1, c2; cbn [form_equal]; try easy; try (intros [-> _]; right; reflexivity). intros ->. left. eauto.
Qed.
Lemma ordered_tuple ts : ordered (TTuple ts) <-> Forall ordered ts.
Proof.
  cbn [ordered]. induction ts as [|t ts IH]; [split; constructor|]. split; intros H.
  - destruct H. constructor; [assumption|]. now apply IH.
  - inversion H; subst. split; [assumption|]. now apply IH.
Qed.
Lemma decodable_tuple ts : decodable (TTuple ts) <-> Forall decodable ts.
Proof.
  cbn [decodable]. induction ts as [|t ts IH]; [split; constructor|]. split; intros H.
  - destruct H. constructor; [assumption|]. now apply IH.
  - inversion H; subst. split; [assumption|]. now apply IH.
Qed.
Lemma decodable_ordered t : decodable t -> ordered t.
Proof.
  assert (HT : forall ts, Forall (fun t => decodable t -> ordered t) ts -> decodable (TTuple ts) -> ordered (TTuple ts)).
  { intros ts H. rewrite decodable_tuple, ordered_tuple. intros HD. rewrite Forall_forall in *. auto. }
  induction t using ty_rect'; intros HD; try exact I; try exact (IHt HD); try exact (HT ts H HD); try contradiction.
  - destruct HD as [D1 D2]. split; [exact (HT bs H D1)|exact (HT ms H0 D2)].
  - exact (HT ts H (proj2 HD)).
Qed.
Lemma null_free_tuple ts vs : null_free (TTuple ts) (VList vs) <-> ZipW null_free ts vs.
Proof. cbn [null_free]. revert vs; induction ts as [|t ts IH]; intros [|v vs]; cbn [ZipW]; try reflexivity; apply and_iff_compat_l, IH. Qed.
Lemma null_free_desc bs ms bv mv : null_free (TDesc bs ms) (VList [VList bv; VList mv]) <->
  ZipW null_free bs bv /\ ZipW null_free ms mv.
Proof. rewrite <- (null_free_tuple bs), <- (null_free_tuple ms). reflexivity. Qed.
Lemma regular_tuple ss ts vs : regular ss (TTuple ts) (VList vs) <-> ZipW (regular ss) ts vs.
Proof. cbn [regular]. revert vs; induction ts as [|t ts IH]; intros [|v vs]; cbn [ZipW]; try reflexivity; apply and_iff_compat_l, IH. Qed.
Lemma regular_desc ss bs ms bv mv : regular ss (TDesc bs ms) (VList [VList bv; VList mv]) <->
  ZipW (regular ss) bs bv /\ ZipW (regular ss) ms mv.
Proof. rewrite <- (regular_tuple ss bs), <- (regular_tuple ss ms). reflexivity. Qed.

Lemma sum64_perm l l' : Permutation l l' -> sum64 l = sum64 l'.
Proof.
  intros H. unfold sum64. f_equal. induction H; cbn [fold_right]; lia.
Qed.
Lemma permuted_Permutation {X} (l l' : list X) : permuted l l' -> Permutation l l'.
Proof. induction 1; [constructor|now constructor|constructor|eapply Permutation_trans; eassumption]. Qed.

Lemma Forall2_len {X} (P : X -> X -> Prop) l l' : Forall2 P l l' -> length l = length l'.
Proof. induction 1; cbn; congruence. Qed.

Section Msg.
Variables (le : bool) (ss psz : isz) (fz32 fz64 : N -> N).
Notation MSG := (msg le ss psz fz32 fz64).
Notation TMSG := (tup_msg le ss psz fz32 fz64).

(* messages are bytes *)
Lemma seq_msg_bytes {X : Type} (m : X -> (list N -> N) -> list N) vs : (forall v q, bytes (m v q)) -> forall q, bytes (seq_msg m vs q).
Proof.
  intros H. induction vs as [|v vs IH]; intros q; cbn [seq_msg]; [constructor|]. apply bytes_app. split; [apply H|apply IH].
Qed.
Lemma tup_msg_bytes ts : Forall (fun t => forall v q, bytes (MSG t v q)) ts -> forall vs q, bytes (TMSG ts vs q).
Proof.
  induction 1 as [|t ts Ht Hts IH]; intros [|v vs] q; cbn [tup_msg]; try constructor.
  apply bytes_app. split; [apply Ht|apply IH].
Qed.
Lemma bytes_0 : bytes [0]. Proof. constructor; [lia|constructor]. Qed.
Lemma form_bytes {T} (k : call_ T) m q : (forall v q, bytes (m v q)) -> bytes (form_msg le ss k m q).
Proof.
  intros H. destruct k as [t v|k t vs|k t vs|t vs|z]; cbn [form_msg]; try apply enc_bytes.
  - apply H.
  - now apply seq_msg_bytes.
  - apply bytes_app. split; [now apply seq_msg_bytes|apply enc_bytes].
  - apply bytes_app. split; apply enc_bytes.
Qed.
Notation UM := (UMSG le ss psz fz32 fz64).
Lemma umsg_bytes_of ts : Forall (fun t => forall v q, bytes (MSG t v q)) ts -> forall c q, bytes (UM ts c q).
Proof.
  intros H c q. unfold UMSG. ucases H ts c z t HP HI HA; [apply enc_bytes|now apply form_bytes|apply bytes_nil].
Qed.
Theorem msg_bytes t : forall v q, bytes (MSG t v q).
Proof.
  induction t using ty_rect'; intros v q; destruct v as [z|vs]; try (apply bytes_nil || apply enc_bytes).
  all: try (destruct ts; [apply bytes_nil|apply bytes_nil]).
  - now apply seq_msg_bytes.
  - cbn [msg]. apply bytes_app. split; [now apply seq_msg_bytes|apply enc_bytes].
  - cbn [msg]. apply bytes_app. split; [now apply seq_msg_bytes|apply enc_bytes].
  - destruct vs; [apply bytes_0|now apply seq_msg_bytes].
  - destruct vs; [apply bytes_0|now apply seq_msg_bytes].
  - cbn [msg]. apply bytes_app. split; apply enc_bytes.
  - destruct ts as [|t ts]; [apply bytes_0|]. rewrite msg_tuple by discriminate. now apply tup_msg_bytes.
  - destruct bs, ms; apply bytes_nil.
  - assert (HD : (bs = [] /\ ms = []) \/ (bs <> [] \/ ms <> [])).
    { destruct bs; [destruct ms|]; [now left|right; right; discriminate|right; left; discriminate]. }
    destruct HD as [[-> ->]|HD]; [apply bytes_0|].
    destruct vs as [|[z|bv] [|[z2|mv] [|? ?]]]; try (destruct bs; [destruct ms; [now destruct HD|]|]; apply bytes_nil).
    rewrite msg_desc by exact HD. apply bytes_app. split; now apply tup_msg_bytes.
  - rewrite msg_tag. now apply tup_msg_bytes.
  - destruct lead; apply bytes_nil.
  - destruct vs as [|[k|vs'] [|v [|? ?]]]; try (destruct lead; apply bytes_nil).
    alt_cases H ts (Z.to_nat k) t HP HI HA; destruct lead; cbn [msg]; rewrite !HA; apply bytes_app; split;
      try apply enc_bytes; try apply bytes_nil; apply HP.
  - rewrite msg_user. now apply seq_msg_bytes, umsg_bytes_of.
  - rewrite msg_user. now apply seq_msg_bytes, umsg_bytes_of.
  - exact (IHt (VInt z) q).
  - exact (IHt (VList vs) q).
Qed.

Theorem call_msg_bytes k q : bytes (call_msg le ss psz fz32 fz64 k q).
Proof.
  destruct k as [t v|k t vs|k t vs|t vs|z]; cbn [call_msg].
  1-4: apply form_bytes, msg_bytes.
  apply enc_bytes.
Qed.
Lemma umsg_bytes ts c q : bytes (UM ts c q).
Proof. apply umsg_bytes_of. apply Forall_forall. intros t _. apply msg_bytes. Qed.

(* every message has at least one byte *)
Lemma app_nonempty {X} (a b : list X) : a <> [] \/ b <> [] -> a ++ b <> [].
Proof. intros H E. apply app_eq_nil in E. destruct E, H; auto. Qed.
Lemma enc_nonempty k z : k <> 0%nat -> enc le k z <> [].
Proof. intros H E. apply (f_equal (@length N)) in E. rewrite enc_length in E. auto. Qed.
Lemma ibytes_nz s : ibytes s <> 0%nat. Proof. now destruct s. Qed.
Lemma tup_nonempty t ts : (forall v q, has_type psz t v -> MSG t v q <> []) ->
  forall vs q, Zip (has_type psz) (t :: ts) vs -> TMSG (t :: ts) vs q <> [].
Proof. intros H [|v vs] q HZ; [easy|]. destruct HZ as [HV _]. cbn [tup_msg]. apply app_nonempty. left. now apply H. Qed.
Lemma form_nonempty {T} (k : call_ T) t m q : (forall v q, has_type psz t v -> m v q <> []) ->
  form_ok k (has_type psz t) -> productive k -> form_msg le ss k m q <> [].
Proof.
  intros H HK HP. destruct k as [t' v|k t' vs|k t' vs|t' vs|z]; cbn [form_msg form_ok productive] in *.
  - now apply H.
  - destruct vs as [|v vs]; [easy|]. inversion HK; subst. cbn [seq_msg]. apply app_nonempty. left. now apply H.
  - apply app_nonempty. right. apply enc_nonempty, ibytes_nz.
  - apply app_nonempty. right. apply enc_nonempty, ibytes_nz.
  - apply enc_nonempty, ibytes_nz.
Qed.
Lemma seq_nonempty {X : Type} (m : X -> (list N -> N) -> list N) vs : Exists (fun v => forall q, m v q <> []) vs ->
  forall q, seq_msg m vs q <> [].
Proof. induction 1 as [v vs H|v vs H IH]; intros q; cbn [seq_msg]; apply app_nonempty; [left|right]; auto. Qed.
Lemma user_nonempty ts : Forall (fun t => forall v q, has_type psz t v -> MSG t v q <> []) ts ->
  forall cs q, Exists productive cs -> Forall (UOK psz ts) cs -> seq_msg (UM ts) cs q <> [].
Proof.
  intros H cs q HE HF. apply seq_nonempty. rewrite Exists_exists in *. destruct HE as (c & HC & HP). exists c. split; [exact HC|].
  rewrite Forall_forall in HF. specialize (HF c HC). intros q0. unfold UMSG, UOK in *.
  ucases H ts c z t HT HI HA; [apply enc_nonempty, ibytes_nz|now apply (form_nonempty c t)|contradiction].
Qed.
Theorem msg_nonempty t : forall v q, has_type psz t v -> MSG t v q <> [].
Proof.
  induction t using ty_rect'; intros v q HV; destruct v as [z|vs]; try easy.
  all: try (cbn [msg]; apply enc_nonempty; apply ibytes_nz).
  all: try (cbn [msg]; apply enc_nonempty; discriminate).
  - destruct HV as (Hn & HL & HV). destruct vs as [|v vs]; [cbn in HL; congruence|].
    inversion HV; subst. cbn [msg seq_msg]. apply app_nonempty. left. now apply IHt.
  - cbn [msg]. apply app_nonempty. right. apply enc_nonempty, ibytes_nz.
  - cbn [msg]. apply app_nonempty. right. apply enc_nonempty, ibytes_nz.
  - destruct vs as [|v vs]; [discriminate|]. destruct HV as [_ HV]. inversion HV; subst.
    cbn [msg seq_msg]. apply app_nonempty. left. now apply IHt.
  - destruct vs as [|v vs]; [discriminate|]. destruct HV as [_ HV]. inversion HV; subst.
    cbn [msg seq_msg]. apply app_nonempty. left. now apply IHt.
  - cbn [msg]. apply app_nonempty. right. apply enc_nonempty, ibytes_nz.
  - rewrite has_type_tuple in HV. destruct ts as [|t ts]; [discriminate|]. rewrite msg_tuple by discriminate.
    inversion H; subst. now apply tup_nonempty.
  - destruct vs as [|[z|bv] [|[z2|mv] [|? ?]]]; try easy. rewrite has_type_desc in HV. destruct HV as [HB HM].
    destruct bs as [|b bs]; [destruct ms as [|m ms]; [discriminate|]|].
    + rewrite msg_desc by (right; discriminate). apply app_nonempty. right. inversion H0; subst. now apply tup_nonempty.
    + rewrite msg_desc by (left; discriminate). apply app_nonempty. left. inversion H; subst. now apply tup_nonempty.
  - rewrite has_type_tag in HV. destruct HV as [HT HV]. rewrite msg_tag. destruct ts as [|t ts]; [easy|].
    inversion H; subst. now apply tup_nonempty.
  - destruct vs as [|[k|vs'] [|v [|? ?]]]; try easy. destruct lead; cbn [msg]; apply app_nonempty; [left|right]; apply enc_nonempty, ibytes_nz.
  - rewrite has_type_user in HV. rewrite msg_user. now apply user_nonempty.
  - rewrite has_type_user in HV. rewrite msg_user. now apply user_nonempty.
  - apply (IHt (VInt z) q), HV.
  - apply (IHt (VList vs) q), HV.
Qed.

(* ---------- equal values have equal messages ---------- *)
Section Equal.
Hypothesis Z32 : fz32 0 = fz32 (2^31).
Hypothesis Z64 : fz64 0 = fz64 (2^63).

Lemma zero_cases e m b : b < 2 * 2 ^ (e + m) -> flt_zero e m b -> b = 0 \/ b = 2 ^ (e + m).
Proof.
  unfold flt_zero. intros Hb Hz. assert (Hp : 2 ^ (e + m) <> 0) by now apply N.pow_nonzero.
  pose proof (N.div_mod b (2 ^ (e + m)) Hp) as HD. rewrite Hz, N.add_0_r in HD.
  assert (b / 2 ^ (e + m) < 2) by (apply N.div_lt_upper_bound; [exact Hp|lia]).
  assert (b / 2 ^ (e + m) = 0 \/ b / 2 ^ (e + m) = 1) as [E|E] by lia; rewrite E in HD; lia.
Qed.
Lemma fz_equal (fz : N -> N) e m z1 z2 : fz 0 = fz (2 ^ (e + m)) ->
  (0 <= z1 < 2 * 2 ^ Z.of_N (e + m))%Z -> (0 <= z2 < 2 * 2 ^ Z.of_N (e + m))%Z ->
  flt_equal e m z1 z2 -> fz (Z.to_N z1) = fz (Z.to_N z2).
Proof.
  intros HF H1 H2 (_ & _ & [->|[A B]]); [reflexivity|].
  assert (HB : forall z, (0 <= z < 2 * 2 ^ Z.of_N (e + m))%Z -> Z.to_N z < 2 * 2 ^ (e + m)).
  { intros z Hz. apply N2Z.inj_lt. rewrite Z2N.id, N2Z.inj_mul, N2Z.inj_pow by lia. exact (proj2 Hz). }
  destruct (zero_cases e m _ (HB _ H1) A) as [-> | ->]; destruct (zero_cases e m _ (HB _ H2) B) as [-> | ->]; congruence.
Qed.

Lemma seq_msg_equal t : (forall v1 v2 q, has_type psz t v1 -> has_type psz t v2 -> equal t v1 v2 -> MSG t v1 q = MSG t v2 q) ->
  forall vs1 vs2 q, Forall (has_type psz t) vs1 -> Forall (has_type psz t) vs2 -> Forall2 (equal t) vs1 vs2 ->
  seq_msg (MSG t) vs1 q = seq_msg (MSG t) vs2 q /\ length vs1 = length vs2.
Proof.
  intros H vs1 vs2 q F1 F2 F. revert q F1 F2. induction F as [|v1 v2 vs1 vs2 E F IH]; intros q F1 F2; [auto|].
  inversion F1; subst. inversion F2; subst. cbn [seq_msg length]. rewrite (H v1 v2 q) by assumption.
  destruct (IH (shift (MSG t v2 q) q)) as [-> ->]; auto.
Qed.
Lemma tup_msg_equal ts : Forall (fun t => forall v1 v2 q, has_type psz t v1 -> has_type psz t v2 -> equal t v1 v2 -> MSG t v1 q = MSG t v2 q) ts ->
  forall vs1 vs2 q, Zip (has_type psz) ts vs1 -> Zip (has_type psz) ts vs2 -> Zip2 equal ts vs1 vs2 ->
  TMSG ts vs1 q = TMSG ts vs2 q.
Proof.
  induction 1 as [|t ts Ht Hts IH]; intros [|v1 vs1] [|v2 vs2] q Z1 Z2 ZE; try easy.
  destruct Z1, Z2, ZE. cbn [tup_msg]. rewrite (Ht v1 v2 q) by assumption. f_equal. now apply IH.
Qed.

Definition ME (t : ty) : Prop := forall v1 v2 q, has_type psz t v1 -> has_type psz t v2 -> equal t v1 v2 -> MSG t v1 q = MSG t v2 q.
Lemma unord_msg_equal t q vs1 vs2 : ME t -> Forall (has_type psz t) vs1 -> Forall (has_type psz t) vs2 ->
  (exists vs, permuted vs1 vs /\ Forall2 (equal t) vs vs2) ->
  sum64 (map (fun v => q (MSG t v q)) vs1) = sum64 (map (fun v => q (MSG t v q)) vs2) /\ length vs1 = length vs2.
Proof.
  intros IHt T1 T2 (vs & HP & HF). apply permuted_Permutation in HP.
  assert (T3 : Forall (has_type psz t) vs) by (eapply Permutation_Forall; eassumption).
  rewrite (sum64_perm (map _ vs1) (map (fun v => q (MSG t v q)) vs)) by now apply Permutation_map.
  assert (EM : map (fun v => q (MSG t v q)) vs = map (fun v => q (MSG t v q)) vs2).
  { clear -IHt HF T3 T2. revert T3 T2. induction HF as [|a b x y E F IH]; intros T3 T2; [reflexivity|].
    inversion T3; subst. inversion T2; subst. cbn [map]. rewrite (IHt a b q), IH by assumption. reflexivity. }
  rewrite EM. rewrite (Permutation_length HP), (Forall2_len _ _ _ HF). auto.
Qed.
Lemma form_msg_equal {T} (k1 k2 : call_ T) t q : ME t -> form_ok k1 (has_type psz t) -> form_ok k2 (has_type psz t) ->
  form_equal k1 k2 (equal t) -> form_msg le ss k1 (MSG t) q = form_msg le ss k2 (MSG t) q.
Proof.
  intros HM K1 K2 HE. destruct k1 as [t1 v1|d1 t1 vs1|d1 t1 vs1|t1 vs1|z1], k2 as [t2 v2|d2 t2 vs2|d2 t2 vs2|t2 vs2|z2];
    cbn [form_ok form_equal form_msg] in *; try easy; try (match type of HE with _ /\ _ => destruct HE as [_ HE] end).
  - now apply HM.
  - now apply (seq_msg_equal t HM).
  - destruct (seq_msg_equal t HM vs1 vs2 q K1 K2 HE) as [-> ->]. reflexivity.
  - destruct (unord_msg_equal t q vs1 vs2 HM K1 K2 HE) as [-> ->]. reflexivity.
  - now subst.
Qed.
Lemma user_msg_equal ts : Forall ME ts -> forall cs1 cs2 q, Forall (UOK psz ts) cs1 -> Forall (UOK psz ts) cs2 ->
  Forall2 (UEQ ts) cs1 cs2 -> seq_msg (UM ts) cs1 q = seq_msg (UM ts) cs2 q.
Proof.
  intros H cs1 cs2 q F1 F2 F. revert q F1 F2. induction F as [|c1 c2 cs1 cs2 E F IH]; intros q F1 F2; [reflexivity|].
  inversion F1 as [|? ? K1 F1']; subst. inversion F2 as [|? ? K2 F2']; subst.
  assert (EM : UM ts c1 q = UM ts c2 q).
  { unfold UEQ, UOK, UMSG in *. ucases H ts c1 z t HP HI HA; [now subst| |contradiction].
    assert (HB : forall (X : Type) (z : Z -> X) f d, ucase z f d ts c2 = f t \/ exists n, c2 = KSize n /\ c1 = KSize n).
    { intros X z f d. destruct (form_equal_case c1 c2 _ E) as [(n & -> & ->)|HX]; [right; eauto|left].
      rewrite <- (HX X z f d ts). apply HA. }
    destruct (HB Prop (fun _ => True) (fun t => form_ok c2 (has_type psz t)) False) as [HB1|(n & -> & ->)]; [|reflexivity].
    rewrite HB1 in K2. destruct (HB (list N) (enc le (ibytes ss)) (fun t => form_msg le ss c2 (MSG t) q) []) as [HB2|(n & -> & ->)]; [|reflexivity].
    rewrite HB2. now apply form_msg_equal. }
  cbn [seq_msg]. rewrite EM. f_equal. now apply IH.
Qed.
Theorem msg_equal t : forall v1 v2 q, has_type psz t v1 -> has_type psz t v2 -> equal t v1 v2 -> MSG t v1 q = MSG t v2 q.
Proof.
  induction t using ty_rect'; intros v1 v2 q T1 T2 HE; destruct v1 as [z1|vs1], v2 as [z2|vs2]; try easy.
  - cbn in HE. now subst.
  - cbn in HE. now subst.
  - cbn in HE. now subst.
  - cbn in HE. now subst.
  - cbn [equal] in HE. cbn [msg]. rewrite (fz_equal fz32 8 23 z1 z2 Z32 T1 T2 HE). reflexivity.
  - cbn [equal] in HE. cbn [msg]. rewrite (fz_equal fz64 11 52 z1 z2 Z64 T1 T2 HE). reflexivity.
  - destruct T1 as (_ & _ & T1), T2 as (_ & _ & T2). cbn [msg]. now apply (seq_msg_equal t IHt vs1 vs2 q T1 T2).
  - cbn [msg]. destruct (seq_msg_equal t IHt vs1 vs2 q T1 T2 HE) as [-> ->]. reflexivity.
  - cbn [msg]. destruct (seq_msg_equal t IHt vs1 vs2 q T1 T2 HE) as [-> ->]. reflexivity.
  - destruct T1 as (_ & T1), T2 as (_ & T2). destruct (seq_msg_equal t IHt vs1 vs2 q T1 T2 HE) as [E EL].
    destruct vs1, vs2; try discriminate; [reflexivity|exact E].
  - destruct T1 as (_ & T1), T2 as (_ & T2). destruct (seq_msg_equal t IHt vs1 vs2 q T1 T2 HE) as [E EL].
    destruct vs1, vs2; try discriminate; [reflexivity|exact E].
  - cbn [msg]. destruct (unord_msg_equal t q vs1 vs2 IHt T1 T2 HE) as [-> ->]. reflexivity.
  - rewrite has_type_tuple in *. rewrite equal_tuple in HE. destruct ts as [|t ts]; [reflexivity|].
    rewrite !msg_tuple by discriminate. now apply tup_msg_equal.
  - destruct vs1 as [|[z|b1] [|[z2|m1] [|? ?]]]; try easy. destruct vs2 as [|[z|b2] [|[z2|m2] [|? ?]]]; try easy.
    rewrite has_type_desc in *. rewrite equal_desc in HE. destruct T1, T2, HE.
    assert (HD : (bs = [] /\ ms = []) \/ (bs <> [] \/ ms <> [])).
    { destruct bs; [destruct ms|]; [now left|right; right; discriminate|right; left; discriminate]. }
    destruct HD as [[-> ->]|HD]; [reflexivity|]. rewrite !msg_desc by exact HD.
    rewrite (tup_msg_equal bs H b1 b2) by assumption. f_equal. now apply tup_msg_equal.
  - rewrite has_type_tag in *. destruct T1, T2. rewrite equal_tag in HE. rewrite !msg_tag. now apply tup_msg_equal.
  - destruct vs1 as [|[k1|?] [|v1 [|? ?]]]; try easy. destruct vs2 as [|[k2|?] [|v2 [|? ?]]]; try easy.
    cbn [has_type equal] in *. destruct T1 as [_ T1], T2 as [_ T2], HE as [-> HE].
    alt_cases H ts (Z.to_nat k2) t HP HI HA; [|easy].
    destruct lead; cbn [msg]; rewrite !HA; f_equal; now apply HP.
  - rewrite has_type_user in T1, T2. rewrite equal_user in HE. rewrite !msg_user. apply (user_msg_equal ts H); [apply T1|apply T2|exact HE].
  - rewrite has_type_user in T1, T2. rewrite equal_user in HE. rewrite !msg_user. apply (user_msg_equal ts H); [apply T1|apply T2|exact HE].
  - rewrite has_type_user in T1, T2. rewrite equal_user in HE. rewrite !msg_user. apply (user_msg_equal ts H); [apply T1|apply T2|exact HE].
  - rewrite has_type_user in T1, T2. rewrite equal_user in HE. rewrite !msg_user. apply (user_msg_equal ts H); [apply T1|apply T2|exact HE].
  - apply (IHt (VInt z1) (VInt z2) q); [apply T1|apply T2|exact HE].
  - apply (IHt (VInt z1) (VList vs2) q); [apply T1|apply T2|exact HE].
  - apply (IHt (VList vs1) (VInt z2) q); [apply T1|apply T2|exact HE].
  - apply (IHt (VList vs1) (VList vs2) q); [apply T1|apply T2|exact HE].
Qed.
End Equal.

(* ---------- unique parsing ---------- *)
Lemma app_suffix {X} (p1 p2 m1 m2 : list X) : length m1 = length m2 -> p1 ++ m1 = p2 ++ m2 -> p1 = p2 /\ m1 = m2.
Proof.
  intros HL H. assert (HL' : length p1 = length p2).
  { apply (f_equal (@length X)) in H. rewrite !app_length in H. lia. }
  clear HL. revert p2 HL' H. induction p1 as [|x p1 IH]; intros [|y p2] HL' H; cbn in *; try discriminate; [auto|].
  injection H as -> H. destruct (IH p2 ltac:(lia) H) as [-> ->]. auto.
Qed.
Lemma to_inj k a b : (0 <= a < 2 ^ (8 * Z.of_nat k))%Z -> (0 <= b < 2 ^ (8 * Z.of_nat k))%Z ->
  enc le k a = enc le k b -> a = b.
Proof.
  intros HA HB E. unfold enc in E. rewrite !Z.mod_small in E by assumption.
  assert (E' : le_bytes k (Z.to_N a) = le_bytes k (Z.to_N b)).
  { change toLE with le_bytes in E. destruct le; [exact E|]. unfold toBE in E. change toLE with le_bytes in E.
    apply (f_equal (@rev N)) in E. now rewrite !rev_involutive in E. }
  assert (HP : forall z, (0 <= z < 2 ^ (8 * Z.of_nat k))%Z -> Z.to_N z < 256 ^ N.of_nat k).
  { intros z Hz. apply N2Z.inj_lt. rewrite Z2N.id, N2Z.inj_pow, nat_N_Z by lia. change (Z.of_N 256) with (2 ^ 8)%Z.
    rewrite <- Z.pow_mul_r by lia. apply Hz. }
  apply le_bytes_inj in E'; [|now apply HP|now apply HP]. apply (f_equal Z.of_N) in E'. rewrite !Z2N.id in E' by lia. exact E'.
Qed.
Lemma enc_inj s sg a b : in_int s sg a -> in_int s sg b -> enc le (ibytes s) a = enc le (ibytes s) b -> a = b.
Proof.
  intros HA HB E. set (w := (8 * Z.of_nat (ibytes s))%Z) in *.
  assert (Hw : (1 <= w)%Z) by (unfold w; destruct s; cbn; lia).
  assert (Hp : (2 ^ w = 2 * 2 ^ (w - 1))%Z) by (rewrite <- Z.pow_succ_r by lia; f_equal; lia).
  assert (Hp0 : (0 < 2 ^ (w - 1))%Z) by (apply Z.pow_pos_nonneg; lia).
  assert (EM : (a mod 2 ^ w = b mod 2 ^ w)%Z).
  { apply (to_inj (ibytes s)); fold w; try (apply Z.mod_pos_bound; lia).
    unfold enc in *. fold w in E |- *. rewrite !Z.mod_mod by lia. exact E. }
  unfold in_int in *. fold w in HA, HB. destruct sg.
  - pose proof (Z.div_mod a (2 ^ w) ltac:(lia)) as DA. pose proof (Z.div_mod b (2 ^ w) ltac:(lia)) as DB.
    rewrite <- EM in DB. assert (a / 2 ^ w = b / 2 ^ w)%Z by nia. lia.
  - rewrite !Z.mod_small in EM by lia. exact EM.
Qed.

Section Inj.
(* normalisation identifies nothing but the zeros *)
Hypothesis F32 : forall a b, ~ flt_nan 8 23 a -> ~ flt_nan 8 23 b -> a < 2^32 -> b < 2^32 -> fz32 a = fz32 b ->
  a = b \/ flt_zero 8 23 a /\ flt_zero 8 23 b.
Hypothesis F64 : forall a b, ~ flt_nan 11 52 a -> ~ flt_nan 11 52 b -> a < 2^64 -> b < 2^64 -> fz64 a = fz64 b ->
  a = b \/ flt_zero 11 52 a /\ flt_zero 11 52 b.
Hypothesis B32 : forall a, ~ flt_nan 8 23 a -> a < 2^32 -> fz32 a < 2^32.
Hypothesis B64 : forall a, ~ flt_nan 11 52 a -> a < 2^64 -> fz64 a < 2^64.

Definition SI (t : ty) : Prop := forall v1 v2 p1 p2 q1 q2,
  has_type psz t v1 -> has_type psz t v2 -> regular ss t v1 -> regular ss t v2 ->
  p1 ++ MSG t v1 q1 = p2 ++ MSG t v2 q2 -> p1 = p2 /\ equal t v1 v2.

Lemma seq_SI t : SI t -> forall vs1 vs2 p1 p2 q1 q2, length vs1 = length vs2 ->
  Forall (has_type psz t) vs1 -> Forall (has_type psz t) vs2 -> Forall (regular ss t) vs1 -> Forall (regular ss t) vs2 ->
  p1 ++ seq_msg (MSG t) vs1 q1 = p2 ++ seq_msg (MSG t) vs2 q2 -> p1 = p2 /\ Forall2 (equal t) vs1 vs2.
Proof.
  intros H. induction vs1 as [|v1 vs1 IH]; intros [|v2 vs2] p1 p2 q1 q2 HL T1 T2 R1 R2 E; try discriminate.
  - cbn [seq_msg] in E. rewrite !app_nil_r in E. auto.
  - inversion T1; inversion T2; inversion R1; inversion R2; subst. cbn [seq_msg] in E. rewrite !app_assoc in E.
    apply IH in E; [|cbn in HL; lia|assumption..]. destruct E as [E EF]. apply H in E; [|assumption..]. destruct E. auto.
Qed.
Lemma tup_SI ts : Forall SI ts -> forall vs1 vs2 p1 p2 q1 q2,
  Zip (has_type psz) ts vs1 -> Zip (has_type psz) ts vs2 -> ZipW (regular ss) ts vs1 -> ZipW (regular ss) ts vs2 ->
  p1 ++ TMSG ts vs1 q1 = p2 ++ TMSG ts vs2 q2 -> p1 = p2 /\ Zip2 equal ts vs1 vs2.
Proof.
  induction 1 as [|t ts Ht Hts IH]; intros [|v1 vs1] [|v2 vs2] p1 p2 q1 q2 T1 T2 R1 R2 E; try easy.
  - cbn [tup_msg] in E. rewrite !app_nil_r in E. cbn [Zip2]. auto.
  - destruct T1, T2, R1, R2. cbn [tup_msg] in E. rewrite !app_assoc in E.
    apply IH in E; [|assumption..]. destruct E as [E EF]. apply Ht in E; [|assumption..]. destruct E. cbn [Zip2]. auto.
Qed.
Lemma enc_SI s sg z1 z2 p1 p2 : in_int s sg z1 -> in_int s sg z2 ->
  p1 ++ enc le (ibytes s) z1 = p2 ++ enc le (ibytes s) z2 -> p1 = p2 /\ z1 = z2.
Proof.
  intros H1 H2 E. apply app_suffix in E; [|now rewrite !enc_length]. destruct E as [-> E]. split; [reflexivity|].
  now apply (enc_inj s sg).
Qed.
Lemma size_SI n1 n2 p1 p2 : (Z.of_nat n1 < 2 ^ (8 * Z.of_nat (ibytes ss)))%Z -> (Z.of_nat n2 < 2 ^ (8 * Z.of_nat (ibytes ss)))%Z ->
  p1 ++ size_msg le ss n1 = p2 ++ size_msg le ss n2 -> p1 = p2 /\ n1 = n2.
Proof.
  intros H1 H2 E. unfold size_msg in E. apply (enc_SI ss false) in E; [|unfold in_int; lia|unfold in_int; lia].
  destruct E as [-> E]. split; [reflexivity|lia].
Qed.
Lemma flt_SI (fz : N -> N) s e m z1 z2 p1 p2 :
  (forall a b, ~ flt_nan e m a -> ~ flt_nan e m b -> a < 2 ^ (8 * N.of_nat (ibytes s)) -> b < 2 ^ (8 * N.of_nat (ibytes s)) -> fz a = fz b ->
    a = b \/ flt_zero e m a /\ flt_zero e m b) ->
  (forall a, ~ flt_nan e m a -> a < 2 ^ (8 * N.of_nat (ibytes s)) -> fz a < 2 ^ (8 * N.of_nat (ibytes s))) ->
  in_int s false z1 -> in_int s false z2 -> ~ flt_nan e m (Z.to_N z1) -> ~ flt_nan e m (Z.to_N z2) ->
  p1 ++ enc le (ibytes s) (Z.of_N (fz (Z.to_N z1))) = p2 ++ enc le (ibytes s) (Z.of_N (fz (Z.to_N z2))) ->
  p1 = p2 /\ flt_equal e m z1 z2.
Proof.
  intros HF HB I1 I2 N1 N2 E. unfold in_int in I1, I2.
  assert (HP : forall z, (0 <= z < 2 ^ (8 * Z.of_nat (ibytes s)))%Z -> Z.to_N z < 2 ^ (8 * N.of_nat (ibytes s))).
  { intros z Hz. apply N2Z.inj_lt. rewrite Z2N.id, N2Z.inj_pow, N2Z.inj_mul, nat_N_Z by lia. apply Hz. }
  assert (HQ : forall n, n < 2 ^ (8 * N.of_nat (ibytes s)) -> in_int s false (Z.of_N n)).
  { intros n Hn. unfold in_int. apply N2Z.inj_lt in Hn. rewrite N2Z.inj_pow, N2Z.inj_mul, nat_N_Z in Hn. lia. }
  apply (enc_SI s false) in E; [|apply HQ, HB; auto|apply HQ, HB; auto]. destruct E as [-> E]. split; [reflexivity|].
  apply N2Z.inj in E. split; [exact N1|]. split; [exact N2|].
  destruct (HF _ _ N1 N2 (HP _ I1) (HP _ I2) E) as [HE|HE]; [left|right; exact HE].
  apply (f_equal Z.of_N) in HE. rewrite !Z2N.id in HE by lia. exact HE.
Qed.

Theorem msg_inj t : decodable t -> SI t.
Proof.
  induction t using ty_rect'; intros HO v1 v2 p1 p2 q1 q2 T1 T2 R1 R2 E; destruct v1 as [z1|vs1], v2 as [z2|vs2]; try easy.
  - exact (enc_SI s sg z1 z2 p1 p2 T1 T2 E).
  - cbn [has_type] in T1, T2. apply (enc_SI I8 false z1 z2); [unfold in_int; cbn; lia|unfold in_int; cbn; lia|exact E].
  - exact (enc_SI s sg z1 z2 p1 p2 T1 T2 E).
  - exact (enc_SI psz false z1 z2 p1 p2 T1 T2 E).
  - cbn [has_type] in T1, T2. subst. cbn [msg] in E. apply app_suffix in E; [|reflexivity]. destruct E. cbn. auto.
  - exact (flt_SI fz32 I32 8 23 z1 z2 p1 p2 F32 B32 T1 T2 R1 R2 E).
  - exact (flt_SI fz64 I64 11 52 z1 z2 p1 p2 F64 B64 T1 T2 R1 R2 E).
  - destruct T1 as (_ & L1 & T1), T2 as (_ & L2 & T2). cbn [msg] in E.
    apply (seq_SI t (IHt HO)) in E; [exact E|congruence|assumption..].
  - destruct R1 as [S1 R1], R2 as [S2 R2]. cbn [msg] in E. rewrite !app_assoc in E.
    apply size_SI in E; [|assumption..]. destruct E as [E EL]. apply (seq_SI t (IHt HO)) in E; [exact E|exact EL|assumption..].
  - destruct R1 as [S1 R1], R2 as [S2 R2]. cbn [msg] in E. rewrite !app_assoc in E.
    apply size_SI in E; [|assumption..]. destruct E as [E EL]. apply (seq_SI t (IHt HO)) in E; [exact E|exact EL|assumption..].
  - destruct T1 as (L1 & T1), T2 as (L2 & T2). destruct vs1 as [|x1 vs1], vs2 as [|x2 vs2]; cbn [length] in *; try congruence.
    + cbn [msg] in E. apply app_suffix in E; [|reflexivity]. destruct E. split; [assumption|constructor].
    + apply (seq_SI t (IHt HO) (x1 :: vs1) (x2 :: vs2)) in E; [exact E|cbn [length]; congruence|assumption..].
  - destruct T1 as (L1 & T1), T2 as (L2 & T2). destruct vs1 as [|x1 vs1], vs2 as [|x2 vs2]; cbn [length] in *; try congruence.
    + cbn [msg] in E. apply app_suffix in E; [|reflexivity]. destruct E. split; [assumption|constructor].
    + apply (seq_SI t (IHt HO) (x1 :: vs1) (x2 :: vs2)) in E; [exact E|cbn [length]; congruence|assumption..].
  - rewrite has_type_tuple in *. rewrite regular_tuple in *. rewrite decodable_tuple in HO. rewrite equal_tuple.
    destruct ts as [|t ts].
    + cbn [msg] in E. apply app_suffix in E; [|reflexivity]. destruct vs1, vs2; try easy.
    + rewrite !msg_tuple in E by discriminate. apply (tup_SI (t :: ts)) in E; [exact E| |assumption..].
      rewrite Forall_forall in *. intros x Hx. apply H; [exact Hx|now apply HO].
  - destruct vs1 as [|[z|b1] [|[z2|m1] [|? ?]]]; try easy. destruct vs2 as [|[z|b2] [|[z2|m2] [|? ?]]]; try easy.
    rewrite has_type_desc in *. rewrite regular_desc in *. rewrite equal_desc. destruct T1, T2, R1, R2.
    assert (HO2 : Forall decodable bs /\ Forall decodable ms).
    { destruct HO as [HO1 HO2]. split; apply decodable_tuple; assumption. }
    destruct HO2 as [OB OM].
    assert (HD : (bs = [] /\ ms = []) \/ (bs <> [] \/ ms <> [])).
    { destruct bs; [destruct ms|]; [now left|right; right; discriminate|right; left; discriminate]. }
    destruct HD as [[-> ->]|HD].
    + cbn [msg] in E. apply app_suffix in E; [|reflexivity]. destruct b1, m1, b2, m2; try easy.
    + rewrite !msg_desc in E by exact HD. rewrite !app_assoc in E.
      apply (tup_SI ms) in E; [|rewrite Forall_forall in *; intros x Hx; apply H0; [exact Hx|now apply OM]|assumption..].
      destruct E as [E EM].
      apply (tup_SI bs) in E; [|rewrite Forall_forall in *; intros x Hx; apply H; [exact Hx|now apply OB]|assumption..].
      destruct E. auto.
  - rewrite has_type_tag in *. rewrite equal_tag. destruct T1 as [_ T1], T2 as [_ T2].
    assert (R1' : ZipW (regular ss) ts vs1) by (apply regular_tuple; exact R1).
    assert (R2' : ZipW (regular ss) ts vs2) by (apply regular_tuple; exact R2).
    assert (HO' : Forall decodable ts) by (apply decodable_tuple; exact HO).
    rewrite !msg_tag in E. apply (tup_SI ts) in E; [exact E| |assumption..].
    rewrite Forall_forall in *. intros x Hx. apply H; [exact Hx|now apply HO'].
  - destruct vs1 as [|[k1|?] [|v1 [|? ?]]]; try easy. destruct vs2 as [|[k2|?] [|v2 [|? ?]]]; try easy.
    destruct HO as [-> HO]. change (decodable (TTuple ts)) in HO. rewrite decodable_tuple in HO.
    cbn [has_type regular equal msg] in *. destruct T1 as [I1 T1], T2 as [I2 T2]. rewrite !app_assoc in E.
    apply (enc_SI s false k1 k2 _ _ I1 I2) in E. destruct E as [E ->].
    alt_cases H ts (Z.to_nat k2) t HP HI HA; [|easy].
    rewrite Forall_forall in HO. apply (HP (HO t HI)) in E; try assumption. destruct E. auto.
  - apply (IHt HO (VInt z1) (VInt z2) p1 p2 q1 q2); try assumption; [apply T1|apply T2].
  - apply (IHt HO (VInt z1) (VList vs2) p1 p2 q1 q2); try assumption; [apply T1|apply T2].
  - apply (IHt HO (VList vs1) (VInt z2) p1 p2 q1 q2); try assumption; [apply T1|apply T2].
  - apply (IHt HO (VList vs1) (VList vs2) p1 p2 q1 q2); try assumption; [apply T1|apply T2].
Qed.
End Inj.
End Msg.

(* C79: for murmur3_32 and murmur3_128 messages that differ only after the last whole group of 4 (16) bytes, whatever their lengths,
   never collide. *)
From Coq Require Import ZArith.
From Verif Require Import Base BaseFacts SpecCommon Gen Bits GenMD Hasher GenBlk Types ModelResult ModelAppend SpecAppend ProofMsg ProofMsgEq
  Behaves Instances ProofRuns Samples PropsHistory PropsAlg PropsAppend PropsSeeds PropsPrims ProofLocal PropsLocal ProofMurmurDistinct PropsLong PropsLocal64 PropsLocalKeys PropsAnywhere PropsLocalHistory PropsFlood.
From Verif Require Import SpecMurmur ProofMurmur ProofSpooky ProofTails.
Open Scope N_scope.

(* ---------- the key schedules: a shorter word never makes up for a difference of lengths ---------- *)
Lemma key32_apart : forall x x' d, x < 2^24 -> x' < 2^24 -> d < 2^2 -> Mur32_k x' = N.lxor (Mur32_k x) d -> d = 0.
Proof.
  exact (key_apart 2 32 15 0xcc9e2d51 0x1b873593 0xdee13bb1 0x56ed309b 24 eq_refl eq_refl eq_refl ltac:(vm_compute; reflexivity) ltac:(discriminate)).
Qed.
Lemma key64_apart : forall x x' d, x < 2^56 -> x' < 2^56 -> d < 2^4 -> Mur128_k2 x' = N.lxor (Mur128_k2 x) d -> d = 0.
Proof.
  exact (key_apart 4 64 33 0x4cf5ad432745937f 0x87c37b91114253d5 0xa81e14edd9de2c7f 0xa98409e882ce4d7d 56 eq_refl eq_refl eq_refl ltac:(vm_compute; reflexivity) ltac:(discriminate)).
Qed.

(* ---------- the last step: state, length and tail ---------- *)
Lemma Mur32_final_len h n1 t1 n2 t2 : h < 2^32 -> Mur32_final h n1 t1 = Mur32_final h n2 t2 ->
  N.lxor (Mur32_k (LE t1)) (n1 mod 2^32) = N.lxor (Mur32_k (LE t2)) (n2 mod 2^32).
Proof.
  intros Lh E. unfold Mur32_final in E. assert (L : forall n, n mod 2^32 < 2^32) by (intros n; apply N.mod_lt; discriminate).
  apply fmix32_inj in E; [|repeat apply lxor_lt; try assumption; try apply L; apply Mur32_k_lt|repeat apply lxor_lt; try assumption; try apply L; apply Mur32_k_lt].
  rewrite !N.lxor_assoc in E. now apply lxor_inj_l in E.
Qed.
Lemma Mur128_final_len h n1 t1 n2 t2 : l2 h -> n1 < 2^64 -> n2 < 2^64 -> Mur128_final h n1 t1 = Mur128_final h n2 t2 ->
  N.lxor (Mur128_k1 (LE (firstn 8 t1))) n1 = N.lxor (Mur128_k1 (LE (firstn 8 t2))) n2 /\
  N.lxor (Mur128_k2 (LE (skipn 8 t1))) n1 = N.lxor (Mur128_k2 (LE (skipn 8 t2))) n2.
Proof.
  intros Lh L1 L2 E. pose proof (in128_lt h t1 Lh) as [X1 Y1]. pose proof (in128_lt h t2 Lh) as [X2 Y2]. clear Lh.
  destruct h as [a c]. unfold in128 in *. unfold Mur128_final in E. cbn [fst snd] in *.
  enough (G : N.lxor (N.lxor a (Mur128_k1 (LE (firstn 8 t1)))) n1 = N.lxor (N.lxor a (Mur128_k1 (LE (firstn 8 t2)))) n2 /\
              N.lxor (N.lxor c (Mur128_k2 (LE (skipn 8 t1)))) n1 = N.lxor (N.lxor c (Mur128_k2 (LE (skipn 8 t2)))) n2).
  { destruct G as [G1 G2]. rewrite !N.lxor_assoc in G1, G2. apply lxor_inj_l in G1. apply lxor_inj_l in G2. auto. }
  revert E X1 Y1 X2 Y2. generalize (N.lxor a (Mur128_k1 (LE (firstn 8 t1)))) (N.lxor c (Mur128_k2 (LE (skipn 8 t1))))
    (N.lxor a (Mur128_k1 (LE (firstn 8 t2)))) (N.lxor c (Mur128_k2 (LE (skipn 8 t2)))). intros x1 y1 x2 y2 E X1 Y1 X2 Y2.
  cbv zeta in E.
  assert (A1 : N.lxor x1 n1 < 2^64) by (apply lxor_lt; assumption). assert (A2 : N.lxor x2 n2 < 2^64) by (apply lxor_lt; assumption).
  assert (C1 : N.lxor y1 n1 < 2^64) by (apply lxor_lt; assumption). assert (C2 : N.lxor y2 n2 < 2^64) by (apply lxor_lt; assumption).
  revert E A1 A2 C1 C2. generalize (N.lxor x1 n1) (N.lxor x2 n2) (N.lxor y1 n1) (N.lxor y2 n2). clear. intros x1 x2 y1 y2 E X1 X2 Y1 Y2.
  set (u1 := ADD 64 x1 y1) in *. set (w1 := ADD 64 y1 u1) in *. set (u2 := ADD 64 x2 y2) in *. set (w2 := ADD 64 y2 u2) in *.
  assert (U1 : u1 < 2^64) by apply ADD_lt'. assert (U2 : u2 < 2^64) by apply ADD_lt'. assert (W1 : w1 < 2^64) by apply ADD_lt'. assert (W2 : w2 < 2^64) by apply ADD_lt'.
  apply app_inj_len in E; [|now rewrite !toLE_le_bytes, !le_bytes_length]. destruct E as [E1 E2].
  assert (LI : forall a b, a < 2^64 -> b < 2^64 -> toLE 8 a = toLE 8 b -> a = b).
  { intros a b Ha Hb EE. apply (f_equal LE) in EE. rewrite !LE_toLE8 in EE by assumption. exact EE. }
  apply LI in E1; [|apply ADD_lt'|apply ADD_lt']. apply LI in E2; [|apply ADD_lt'|apply ADD_lt'].
  rewrite <- E1 in E2. apply add_inj_r in E2; [|apply fmix64_lt; assumption|apply fmix64_lt; assumption].
  rewrite <- E2 in E1. apply add_inj_r in E1; [|apply fmix64_lt; assumption|apply fmix64_lt; assumption].
  apply fmix64_inj in E1; [|assumption|assumption]. apply fmix64_inj in E2; [|assumption|assumption].
  unfold w1, w2 in E2. rewrite <- E1 in E2. apply add_inj_r in E2; [|assumption|assumption]. subst y2. split; [|reflexivity].
  unfold u1, u2 in E1. now apply add_inj_r in E1.
Qed.
(* the lengths differ in their last bits only *)
Lemma group_count (c0 cw j : N) (B : nat) k (p t : list N) : N.of_nat B = 2^j -> cw = k * 2^j -> k <> 0 -> c0 mod 2^j = 0 -> (length p mod B = 0)%nat -> (length t < B)%nat ->
  (c0 + N.of_nat (length (p ++ t))) mod cw = ((c0 + N.of_nat (length p)) mod cw / 2^j) * 2^j + N.of_nat (length t).
Proof.
  intros HB HW HK H0 Hp Ht. rewrite app_length, Nat2N.inj_add, N.add_assoc.
  assert (HB0 : B <> 0%nat) by (clear - Ht; lia). assert (NZ : 2^j <> 0) by (rewrite <- HB; clear - HB0; lia).
  assert (HM : exists q, c0 + N.of_nat (length p) = q * 2^j).
  { exists (c0 / 2^j + N.of_nat (length p / B)). rewrite N.mul_add_distr_r, <- HB, <- Nat2N.inj_mul.
    pose proof (Nat.div_mod (length p) B HB0) as D1. rewrite Hp, Nat.add_0_r, Nat.mul_comm in D1. rewrite <- D1. f_equal.
    pose proof (N.div_mod c0 (2^j) NZ) as D2. rewrite H0, N.add_0_r, N.mul_comm in D2. rewrite HB. exact D2. }
  destruct HM as (q & ->). subst cw. rewrite N.mul_mod_distr_r by assumption. rewrite N.div_mul by exact NZ.
  set (r := N.of_nat (length t)). assert (Hr : r < 2^j) by (unfold r; rewrite <- HB; clear - Ht; lia). clearbody r. clear HB.
  pose proof (N.div_mod q k HK) as Dq. pose proof (N.mod_lt q k HK) as Lq.
  replace (q * 2^j + r) with ((q mod k) * 2^j + r + (q / k) * (k * 2^j)).
  2: { rewrite Dq at 3. ring. }
  rewrite N.mod_add by (apply N.neq_mul_0; auto). apply N.mod_small.
  assert ((q mod k + 1) * 2^j <= k * 2^j) by (apply N.mul_le_mono_r; clear - Lq; lia). rewrite N.mul_add_distr_r, N.mul_1_l in H. clear - H Hr. lia.
Qed.

Lemma tails32 h q t1 t2 m : h < 2^32 -> m = q * 2^2 -> bytes t1 -> bytes t2 -> (length t1 < 4)%nat -> (length t2 < 4)%nat ->
  Mur32_final h (m + N.of_nat (length t1)) t1 = Mur32_final h (m + N.of_nat (length t2)) t2 -> t1 = t2.
Proof.
  intros Lh -> B1 B2 H1 H2 E. apply Mur32_final_len in E; [|exact Lh].
  assert (MD : forall t : list N, (length t < 4)%nat -> (q * 2^2 + N.of_nat (length t)) mod 2^32 = (q mod 2^30) * 2^2 + N.of_nat (length t)).
  { intros t Ht. pose proof (N.div_mod q (2^30) ltac:(discriminate)) as D. pose proof (N.mod_lt q (2^30) ltac:(discriminate)) as L.
    change (2^2) with 4. change (2^32) with (2^30 * 4). set (w := 2^30) in *. assert (W0 : w <> 0) by discriminate. clearbody w.
    replace (q * 4 + N.of_nat (length t)) with ((q mod w) * 4 + N.of_nat (length t) + (q / w) * (w * 4)) by (rewrite D at 3; ring).
    rewrite N.mod_add by (clear - W0; lia). apply N.mod_small. clear - L Ht. lia. }
  rewrite !MD in E by assumption.
  assert (LL : forall t : list N, (length t < 4)%nat -> N.of_nat (length t) < 2^2) by (intros t Ht; change (2^2) with 4; clear - Ht; lia).
  apply same_base in E; [|now apply LL|now apply LL].
  assert (L24 : forall t, bytes t -> (length t < 4)%nat -> LE t < 2^24) by (intros t Bt Ht; apply (LE_lt 3); [exact Bt|clear - Ht; lia]).
  pose proof (key32_apart (LE t1) (LE t2) _ (L24 _ B1 H1) (L24 _ B2 H2) (lxor_lt _ _ 2 (LL _ H1) (LL _ H2)) E) as Z.
  rewrite Z, N.lxor_0_r in E. apply N.lxor_eq in Z. apply Nat2N.inj in Z.
  apply Mur32_k_inj in E; [|apply LE_lt32; [exact B2|clear - H2; lia]|apply LE_lt32; [exact B1|clear - H1; lia]].
  symmetry. apply LE_inj; auto.
Qed.
Lemma tails128 h q t1 t2 : l2 h -> q * 2^4 + N.of_nat (length t1) < 2^64 -> q * 2^4 + N.of_nat (length t2) < 2^64 ->
  bytes t1 -> bytes t2 -> (length t1 < 16)%nat -> (length t2 < 16)%nat ->
  Mur128_final h (q * 2^4 + N.of_nat (length t1)) t1 = Mur128_final h (q * 2^4 + N.of_nat (length t2)) t2 -> t1 = t2.
Proof.
  intros Lh W1 W2 B1 B2 H1 H2 E. apply Mur128_final_len in E; [|assumption..]. destruct E as [E1 E2].
  assert (LL : forall t : list N, (length t < 16)%nat -> N.of_nat (length t) < 2^4) by (intros t Ht; change (2^4) with 16; clear - Ht; lia).
  apply same_base in E1; [|now apply LL|now apply LL]. apply same_base in E2; [|now apply LL|now apply LL].
  assert (L56 : forall t, bytes t -> (length t < 16)%nat -> LE (skipn 8 t) < 2^56) by (intros t Bt Ht; apply (LE_lt 7); [now apply bytes_skipn|rewrite skipn_length; clear - Ht; lia]).
  pose proof (key64_apart _ _ _ (L56 _ B1 H1) (L56 _ B2 H2) (lxor_lt _ _ 4 (LL _ H1) (LL _ H2)) E2) as Z.
  rewrite Z, N.lxor_0_r in E1, E2. apply N.lxor_eq in Z. apply Nat2N.inj in Z.
  symmetry. apply (in128_data (0, 0)); [exact B2|exact B1|auto|clear - H2; lia|]. unfold in128. cbn [fst snd]. now rewrite E1, E2.
Qed.

(* the counter starts at a multiple of the size of a group *)
Lemma mur32_count cw c : snd (fst (mur32_start cw c)) mod 2^2 = 0.
Proof.
  destruct c as [|n|p n]; try reflexivity. cbn [mur32_start]. cbv zeta. destruct (Nat.leb n 4); [reflexivity|]. unfold mur32_ar. cbn [fst snd].
  set (l := length _). rewrite N.add_0_l. change (2^2) with (N.of_nat 4). rewrite <- Nat2N.inj_mod. change 0 with (N.of_nat 0). f_equal.
  pose proof (Nat.div_mod l 4 ltac:(discriminate)) as D. pose proof (Nat.mod_upper_bound l 4 ltac:(discriminate)) as L.
  replace (l + (4 - l mod 4))%nat with ((l / 4 + 1) * 4)%nat by lia. now apply Nat.mod_mul.
Qed.
Lemma mur128_count cw c : snd (fst (mur128_start cw c)) mod 2^4 = 0.
Proof.
  destruct c as [|n|p n]; try reflexivity. cbn [mur128_start]. cbv zeta. destruct (Nat.leb n 8); [reflexivity|]. destruct (Nat.leb n 16); [reflexivity|]. unfold mur128_ar. cbn [fst snd].
  set (l := length _). rewrite N.add_0_l. change (2^4) with (N.of_nat 16). rewrite <- Nat2N.inj_mod. change 0 with (N.of_nat 0). f_equal.
  pose proof (Nat.div_mod l 16 ltac:(discriminate)) as D. pose proof (Nat.mod_upper_bound l 16 ltac:(discriminate)) as L.
  replace (l + (16 - l mod 16))%nat with ((l / 16 + 1) * 16)%nat by lia. now apply Nat.mod_mul.
Qed.
Lemma whole_groups {A} B (p : list A) : (0 < B)%nat -> (length p mod B = 0)%nat -> length p = (length p / B * B)%nat.
Proof. intros HB H. pose proof (Nat.div_mod (length p) B ltac:(lia)) as D. rewrite H in D. lia. Qed.
Lemma short_rest {A} B (p t : list A) : (0 < B)%nat -> (length p mod B = 0)%nat -> (length t < B)%nat -> rest B (p ++ t) = t /\ chunks B (p ++ t) = chunks B p.
Proof.
  intros HB Hp Ht. pose proof (whole_groups B p HB Hp) as L. split.
  - rewrite (rest_mult_app B HB _ p t L). now apply rest_short.
  - rewrite (chunks_app_mult B HB _ p t L). rewrite (chunks_short B HB t Ht). apply app_nil_r.
Qed.

(* ... and does so after every result() *)
Lemma at_result_count {St R} (ar : ast St -> R * ast St) (out : R -> result) (start : ctor -> ast St) (P : St -> Prop) m i f c xs :
  (forall s k l, P s -> k mod m = 0 -> exists s' k', snd (ar (s, k, l)) = (s', k', []) /\ P s' /\ k' mod m = 0) ->
  (exists st k, start c = (st, k, []) /\ P st /\ k mod m = 0) -> at_result xs ->
  exists st k, asteps ab_au (fun a => (out (fst (ar a)), snd (ar a))) result64 (call_message i f) (start c) xs = (st, k, []) /\ P st /\ k mod m = 0.
Proof.
  intros HA HS HX.
  assert (G : forall xs s k l, P s -> k mod m = 0 -> exists s' k' l', asteps ab_au (fun a => (out (fst (ar a)), snd (ar a))) result64 (call_message i f) (s, k, l) xs = (s', k', l') /\ P s' /\ k' mod m = 0).
  { induction xs0 as [|x xs0 IH]; intros s k l Hs Hk; [now exists s, k, l|]. destruct x as [p n| |k0]; cbn [asteps ab_au snd]; try now apply IH.
    destruct (HA s k l Hs Hk) as (s' & k' & -> & Hs' & Hk'). now apply IH. }
  destruct HX as [-> | (xs0 & ->)]; [exact HS|]. destruct HS as (st & k & E & Hst & Hk). rewrite asteps_app, E. cbn [asteps snd].
  destruct (G xs0 st k [] Hst Hk) as (s' & k' & l' & -> & Hs' & Hk'). now apply HA.
Qed.
Lemma group_end m B k (l : list N) : N.of_nat B = m -> (0 < B)%nat -> k mod m = 0 -> (k + N.of_nat (length l + (B - length l mod B))) mod m = 0.
Proof.
  intros <- HB Hk. assert (NZ : N.of_nat B <> 0) by lia. rewrite N.add_mod, Hk by exact NZ. rewrite N.add_0_l, N.mod_mod by exact NZ.
  rewrite <- Nat2N.inj_mod. change 0 with (N.of_nat 0). f_equal.
  pose proof (Nat.div_mod (length l) B ltac:(lia)) as D. pose proof (Nat.mod_upper_bound (length l) B ltac:(lia)) as L. set (q := (length l / B)%nat) in *. set (r := (length l mod B)%nat) in *.
  replace (length l + (B - r))%nat with ((q + 1) * B)%nat; [apply Nat.mod_mul; lia|]. rewrite Nat.mul_add_distr_r, (Nat.mul_comm q B). clearbody q r. lia.
Qed.
Lemma mur32_fold_lt ds : forall s, s < 2^32 -> fold_left Mur32_block ds s < 2^32.
Proof. induction ds as [|d ds IH]; intros s Hs; [exact Hs|]. cbn [fold_left]. apply IH, ADD_lt'. Qed.
Lemma mur128_fold_l2 ds : forall s, l2 s -> l2 (fold_left Mur128_block ds s).
Proof. induction ds as [|d ds IH]; intros s Hs; [exact Hs|]. cbn [fold_left]. apply IH, Mur128_block_lt. Qed.

(* after a history that ends in result(), or none *)
Theorem C79_murmur32 e f c xs cs1 cs2 p t1 t2 : valid_env e -> valid_program e Amur32 c xs -> at_result xs -> valid_pieces Amur32 cs1 -> valid_pieces Amur32 cs2 ->
  fed cs1 = p ++ t1 -> fed cs2 = p ++ t2 -> (length p mod 4 = 0)%nat -> (length t1 < 4)%nat -> (length t2 < 4)%nat -> t1 <> t2 ->
  told_apart e Amur32 f c xs (hash_pieces cs1) (hash_pieces cs2).
Proof.
  intros HE HV HX V1 V2 F1 F2 Hp H1 H2 HN. apply told_by; try assumption; [discriminate|].
  pose proof (pieces_bytes Amur32 _ V1) as B1. pose proof (pieces_bytes Amur32 _ V2) as B2. rewrite F1 in *. rewrite F2 in *.
  apply bytes_app in B1. apply bytes_app in B2. destruct B1 as [_ B1], B2 as [_ B2].
  pose proof (mur32_count (e_cw e) c) as HK0. destruct (mur32_start_lt (e_cw e) c (proj1 HV)) as (st0 & k0 & E0 & L0). rewrite E0 in HK0. cbn [fst snd] in HK0.
  destruct (at_result_count (mur32_ar (e_cw e)) (RInt I32) (mur32_start (e_cw e)) (fun s => s < 2^32) (2^2) (e_impl e) f c xs) as (st & c0 & ES & Hst & HK); [|now exists st0, k0|exact HX|].
  { intros s k l Hs Hk. unfold mur32_ar. cbv zeta. cbn [snd]. do 2 eexists. split; [reflexivity|]. split; [now apply mur32_fold_lt|]. now apply (group_end (2^2) 4 k l eq_refl ltac:(lia)). }
  change (state e Amur32 f c xs) with (asteps ab_au (fun a => (RInt I32 (fst (mur32_ar (e_cw e) a)), snd (mur32_ar (e_cw e) a))) result64 (call_message (e_impl e) f) (mur32_start (e_cw e) c) xs).
  rewrite ES. cbn [machine_of blk_machine mc_ar mc_au]. unfold ab_au, mur32_ar. cbn [fst app].
  destruct (short_rest 4 p t1 ltac:(lia) Hp H1) as [-> ->]. destruct (short_rest 4 p t2 ltac:(lia) Hp H2) as [-> ->].
  intros E. apply (f_equal (fun r => match r with RInt _ n => n | _ => 0 end)) in E. cbn beta iota in E.
  assert (HW : exists k, e_cw e = k * 2^2 /\ k <> 0) by (destruct HE as [[-> | ->] _]; [exists (2^30)|exists (2^62)]; split; reflexivity || discriminate).
  destruct HW as (k & HW & K0).
  rewrite (group_count c0 (e_cw e) 2 4 k p t1 eq_refl HW K0 HK Hp H1), (group_count c0 (e_cw e) 2 4 k p t2 eq_refl HW K0 HK Hp H2) in E.
  apply HN. revert E. apply (tails32 _ _ t1 t2 _) with (2 := eq_refl); try assumption. now apply mur32_fold_lt.
Qed.
Theorem C79_murmur128 e f c xs cs1 cs2 p t1 t2 : valid_env e -> valid_program e Amur128 c xs -> at_result xs -> valid_pieces Amur128 cs1 -> valid_pieces Amur128 cs2 ->
  fed cs1 = p ++ t1 -> fed cs2 = p ++ t2 -> (length p mod 16 = 0)%nat -> (length t1 < 16)%nat -> (length t2 < 16)%nat -> t1 <> t2 ->
  told_apart e Amur128 f c xs (hash_pieces cs1) (hash_pieces cs2).
Proof.
  intros HE HV HX V1 V2 F1 F2 Hp H1 H2 HN. apply told_by; try assumption; [discriminate|].
  pose proof (pieces_bytes Amur128 _ V1) as B1. pose proof (pieces_bytes Amur128 _ V2) as B2. rewrite F1 in *. rewrite F2 in *.
  apply bytes_app in B1. apply bytes_app in B2. destruct B1 as [_ B1], B2 as [_ B2].
  pose proof (mur128_count (e_cw e) c) as HK0. destruct (mur128_start_lt (e_cw e) c (proj1 HV)) as (st0 & k0 & E0 & L0). rewrite E0 in HK0. cbn [fst snd] in HK0.
  destruct (at_result_count (mur128_ar (e_cw e)) RDigest (mur128_start (e_cw e)) l2 (2^4) (e_impl e) f c xs) as (st & c0 & ES & Hst & HK); [|now exists st0, k0|exact HX|].
  { intros s k l Hs Hk. unfold mur128_ar. cbv zeta. cbn [snd]. do 2 eexists. split; [reflexivity|]. split; [now apply mur128_fold_l2|]. now apply (group_end (2^4) 16 k l eq_refl ltac:(lia)). }
  change (state e Amur128 f c xs) with (asteps ab_au (fun a => (RDigest (fst (mur128_ar (e_cw e) a)), snd (mur128_ar (e_cw e) a))) result64 (call_message (e_impl e) f) (mur128_start (e_cw e) c) xs).
  rewrite ES. cbn [machine_of blk_machine mc_ar mc_au]. unfold ab_au, mur128_ar. cbn [fst app].
  destruct (short_rest 16 p t1 ltac:(lia) Hp H1) as [-> ->]. destruct (short_rest 16 p t2 ltac:(lia) Hp H2) as [-> ->].
  intros E. apply (f_equal (fun r => match r with RDigest d => d | _ => [] end)) in E. cbn beta iota in E.
  assert (HW : exists k, e_cw e = k * 2^4 /\ k <> 0 /\ e_cw e <= 2^64) by (destruct HE as [[-> | ->] _]; [exists (2^28)|exists (2^60)]; repeat split; reflexivity || discriminate).
  destruct HW as (k & HW & K0 & KL).
  assert (CL : forall n, n mod e_cw e < 2^64) by (intros n; eapply N.lt_le_trans; [apply N.mod_lt; rewrite HW; apply N.neq_mul_0; split; [exact K0|discriminate]|exact KL]).
  pose proof (CL (c0 + N.of_nat (length (p ++ t1)))) as L1. pose proof (CL (c0 + N.of_nat (length (p ++ t2)))) as L2.
  rewrite (group_count c0 (e_cw e) 4 16 k p t1 eq_refl HW K0 HK Hp H1) in E, L1. rewrite (group_count c0 (e_cw e) 4 16 k p t2 eq_refl HW K0 HK Hp H2) in E, L2.
  apply HN. revert E. apply tails128; try assumption. now apply mur128_fold_l2.
Qed.

(* short messages never collide *)
Theorem C79_short e f c xs cs1 cs2 : valid_env e -> at_result xs -> fed cs1 <> fed cs2 ->
  (valid_program e Amur32 c xs -> valid_pieces Amur32 cs1 -> valid_pieces Amur32 cs2 -> (length (fed cs1) < 4)%nat -> (length (fed cs2) < 4)%nat ->
   told_apart e Amur32 f c xs (hash_pieces cs1) (hash_pieces cs2)) /\
  (valid_program e Amur128 c xs -> valid_pieces Amur128 cs1 -> valid_pieces Amur128 cs2 -> (length (fed cs1) < 16)%nat -> (length (fed cs2) < 16)%nat ->
   told_apart e Amur128 f c xs (hash_pieces cs1) (hash_pieces cs2)).
Proof.
  intros HE HX HN. split; intros HV V1 V2 H1 H2.
  - now apply (C79_murmur32 e f c xs cs1 cs2 [] (fed cs1) (fed cs2)).
  - now apply (C79_murmur128 e f c xs cs1 cs2 [] (fed cs1) (fed cs2)).
Qed.

(* ---------- values, of any two types without unordered containers ---------- *)
Lemma told_values e a f c xs T1 v1 T2 v2 q : valid_env e -> a <> Aspooky -> ordered T1 -> ordered T2 -> (forall ys, room e a c ys) ->
  valid_program e a c (xs ++ [SAppend T1 v1; SResult]) -> valid_program e a c (xs ++ [SAppend T2 v2; SResult]) ->
  (forall cs1 cs2, valid_pieces a cs1 -> valid_pieces a cs2 -> fed cs1 = message (e_impl e) f T1 v1 q -> fed cs2 = message (e_impl e) f T2 v2 q ->
     told_apart e a f c xs (hash_pieces cs1) (hash_pieces cs2)) ->
  told_apart e a f c xs [SAppend T1 v1; SResult] [SAppend T2 v2; SResult].
Proof.
  intros HE HA O1 O2 HR V1 V2 H.
  destruct (append_feeds_ordered e a f c xs T1 v1 [SResult] q HE O1 V1 (HR _)) as (rs1 & E1 & F1).
  destruct (append_feeds_ordered e a f c xs T2 v2 [SResult] q HE O2 V2 (HR _)) as (rs2 & E2 & F2).
  assert (FD : forall m, fed [(Ptr m, length m)] = m) by (intros m; cbn; now rewrite app_nil_r, firstn_all).
  assert (VP : forall T v, valid_pieces a [(Ptr (message (e_impl e) f T v q), length (message (e_impl e) f T v q))]).
  { intros T v. constructor; [|constructor]. split; [cbn; lia|]. cbn. apply msg_bytes. }
  destruct (H _ _ (VP T1 v1) (VP T2 v2) (FD _) (FD _)) as (rs & r1 & r2 & LR & X1 & X2 & XN).
  exists rs, r1, r2. change ([feed ?m] ++ [SResult]) with (hash_pieces [(Ptr m, length m)]) in F1, F2.
  split; [exact LR|]. rewrite X1 in F1. rewrite X2 in F2. cbn [app] in E1, E2.
  split; [exact (eq_trans E1 (eq_sym F1))|]. split; [exact (eq_trans E2 (eq_sym F2))|assumption].
Qed.
Theorem C79_murmur128_values e f c xs T1 v1 T2 v2 q p t1 t2 : valid_env e -> at_result xs -> ordered T1 -> ordered T2 ->
  valid_program e Amur128 c (xs ++ [SAppend T1 v1; SResult]) -> valid_program e Amur128 c (xs ++ [SAppend T2 v2; SResult]) ->
  message (e_impl e) f T1 v1 q = p ++ t1 -> message (e_impl e) f T2 v2 q = p ++ t2 -> (length p mod 16 = 0)%nat -> (length t1 < 16)%nat -> (length t2 < 16)%nat -> t1 <> t2 ->
  told_apart e Amur128 f c xs [SAppend T1 v1; SResult] [SAppend T2 v2; SResult].
Proof.
  intros HE HX O1 O2 V1 V2 M1 M2 Hp H1 H2 HN. apply (told_values e Amur128 f c xs T1 v1 T2 v2 q); try assumption; [discriminate|intros; exact I|].
  intros cs1 cs2 W1 W2 F1 F2. apply (C79_murmur128 e f c xs cs1 cs2 p t1 t2); try assumption; [now apply valid_app in V1|congruence|congruence].
Qed.
Theorem C79_murmur32_values e f c xs T1 v1 T2 v2 q p t1 t2 : valid_env e -> at_result xs -> ordered T1 -> ordered T2 ->
  valid_program e Amur32 c (xs ++ [SAppend T1 v1; SResult]) -> valid_program e Amur32 c (xs ++ [SAppend T2 v2; SResult]) ->
  message (e_impl e) f T1 v1 q = p ++ t1 -> message (e_impl e) f T2 v2 q = p ++ t2 -> (length p mod 4 = 0)%nat -> (length t1 < 4)%nat -> (length t2 < 4)%nat -> t1 <> t2 ->
  told_apart e Amur32 f c xs [SAppend T1 v1; SResult] [SAppend T2 v2; SResult].
Proof.
  intros HE HX O1 O2 V1 V2 M1 M2 Hp H1 H2 HN. apply (told_values e Amur32 f c xs T1 v1 T2 v2 q); try assumption; [discriminate|intros; exact I|].
  intros cs1 cs2 W1 W2 F1 F2. apply (C79_murmur32 e f c xs cs1 cs2 p t1 t2); try assumption; [now apply valid_app in V1|congruence|congruence].
Qed.
(* strings, and vectors of bytes: the elements and the size after the last whole group must be shorter than a group *)
Lemma byte_key_after e a c xs l : nul_of a = true -> valid_program e a c xs -> bytes l -> valid_program e a c (xs ++ [SAppend (TVec (TInt I8 false)) (byte_vector l); SResult]).
Proof.
  intros HN [HC HX] Hb. split; [exact HC|]. apply Forall_app. split; [exact HX|]. exact (proj2 (byte_key_ok e a c l HN HC Hb)).
Qed.
Theorem C79_murmur128_keys e f c xs p t1 t2 : valid_env e -> valid_program e Amur128 c xs -> at_result xs -> bytes (p ++ t1) -> bytes (p ++ t2) ->
  (length p mod 16 = 0)%nat -> (length t1 + ibytes (fl_size f) < 16)%nat -> (length t2 + ibytes (fl_size f) < 16)%nat -> t1 <> t2 ->
  told_apart e Amur128 f c xs [SAppend (TVec (TInt I8 false)) (byte_vector (p ++ t1)); SResult] [SAppend (TVec (TInt I8 false)) (byte_vector (p ++ t2)); SResult].
Proof.
  intros HE HV HX B1 B2 Hp H1 H2 HN.
  assert (SL : forall n, length (int_bytes f (fl_size f) n) = ibytes (fl_size f)) by (intros n; unfold int_bytes; destruct (fl_order f); apply enc_length).
  apply (C79_murmur128_values e f c xs _ _ _ _ (fun _ => 0) p (t1 ++ int_bytes f (fl_size f) (Z.of_nat (length (p ++ t1)))) (t2 ++ int_bytes f (fl_size f) (Z.of_nat (length (p ++ t2)))));
    try assumption; try exact I; try (now apply byte_key_after).
  - rewrite byte_message by exact B1. symmetry. apply app_assoc.
  - rewrite byte_message by exact B2. symmetry. apply app_assoc.
  - now rewrite app_length, SL.
  - now rewrite app_length, SL.
  - intros E. apply HN. assert (HL : length t1 = length t2) by (apply (f_equal (@length N)) in E; rewrite !app_length, !SL in E; lia).
    now apply app_inj_len in E.
Qed.

(* ---------- concrete cases ---------- *)
Lemma one_ok a m n : bytes m -> length m = n -> valid_pieces a [(Ptr m, n)].
Proof. intros Hb <-. constructor; [|constructor]. split; [cbn; lia|exact Hb]. Qed.
Ltac one := apply one_ok; [repeat constructor|reflexivity].
Example C79_murmur32_ex : told_apart env_be Amur32 le_flavor (CSeed (2^40)) past (hash_pieces [(Ptr [1; 2; 3; 4; 5], 5%nat)]) (hash_pieces [(Ptr [1; 2; 3; 4; 9; 8; 7], 7%nat)]).
Proof.
  apply (C79_murmur32 _ _ _ _ _ _ [1; 2; 3; 4] [5] [9; 8; 7]); [exact env_be_valid|apply past_valid; ok|exact past_ends|one|one|reflexivity|reflexivity|reflexivity|cbn; lia|cbn; lia|discriminate].
Qed.
Example C79_murmur128_ex : told_apart env_pc Amur128 le_flavor (CSeed 9) past (hash_pieces whole40) (hash_pieces [(Ptr (firstn 35 seq40), 35%nat)]).
Proof.
  apply (C79_murmur128 _ _ _ _ _ _ (firstn 32 seq40) (skipn 32 seq40) (skipn 32 (firstn 35 seq40))); [exact env_pc_valid|apply past_valid; ok|exact past_ends|apply whole40_ok|one|reflexivity|reflexivity|reflexivity|cbn; lia|cbn; lia|discriminate].
Qed.
Example C79_short_ex : told_apart env_pc Amur128 le_flavor CDefault [] (hash_pieces []) (hash_pieces [(Ptr [0; 0; 0], 3%nat)]) /\
  told_apart env_pc Amur32 le_flavor CDefault [] (hash_pieces []) (hash_pieces [(Ptr [0; 0; 0], 3%nat)]).
Proof.
  split.
  - apply (proj2 (C79_short env_pc le_flavor CDefault [] [] [(Ptr [0; 0; 0], 3%nat)] env_pc_valid ltac:(now left) ltac:(discriminate))); [split; [exact I|constructor]|constructor|one|cbn; lia|cbn; lia].
  - apply (proj1 (C79_short env_pc le_flavor CDefault [] [] [(Ptr [0; 0; 0], 3%nat)] env_pc_valid ltac:(now left) ltac:(discriminate))); [split; [exact I|constructor]|constructor|one|cbn; lia|cbn; lia].
Qed.
(* murmur3_128: "abc" and "abcd", by the flavor with 32-bit sizes *)
Example C79_murmur128_keys_ex : told_apart env_pc Amur128 be32_flavor (CSeed 7) past
  [SAppend (TVec (TInt I8 false)) (byte_vector [97; 98; 99]); SResult] [SAppend (TVec (TInt I8 false)) (byte_vector [97; 98; 99; 100]); SResult].
Proof.
  apply (C79_murmur128_keys env_pc be32_flavor (CSeed 7) past [] [97; 98; 99] [97; 98; 99; 100]); [exact env_pc_valid|apply past_valid; ok|exact past_ends|ok|ok|reflexivity|cbn; lia|cbn; lia|discriminate].
Qed.
(* murmur3_32: 1 as unsigned char, and 258 as unsigned short; murmur3_128: 1 as unsigned char and as unsigned long long *)
Example C79_values_ex : told_apart env_pc Amur32 le_flavor (CSeed 7) past [SAppend (TInt I8 false) (VInt 1); SResult] [SAppend (TInt I16 false) (VInt 258); SResult] /\
  told_apart env_pc Amur128 le_flavor (CSeed 7) past [SAppend (TInt I8 false) (VInt 1); SResult] [SAppend (TInt I64 false) (VInt 1); SResult].
Proof.
  split.
  - apply (C79_murmur32_values env_pc le_flavor (CSeed 7) past _ _ _ _ (fun _ => 0) [] [1] [2; 1]); [exact env_pc_valid|exact past_ends|exact I|exact I|key_ok|key_ok|reflexivity|reflexivity|reflexivity|cbn; lia|cbn; lia|discriminate].
  - apply (C79_murmur128_values env_pc le_flavor (CSeed 7) past _ _ _ _ (fun _ => 0) [] [1] [1; 0; 0; 0; 0; 0; 0; 0]); [exact env_pc_valid|exact past_ends|exact I|exact I|key_ok|key_ok|reflexivity|reflexivity|reflexivity|cbn; lia|cbn; lia|discriminate].
Qed.

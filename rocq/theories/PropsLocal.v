(* C53: a change confined to one unit of the message always changes the result. *)
From Verif Require Import Base BaseFacts SpecCommon Gen Bits GenMD Hasher GenBlk Types ModelResult ModelAppend SpecAppend
  Behaves Instances ProofRuns Samples PropsHistory PropsAlg PropsAppend PropsSeeds PropsPrims ProofLocal ProofMurmurDistinct PropsLong.
From Verif Require Import SpecFnv SpecMurmur SpecXxh ProofXxh ProofFnv ProofMurmur ProofSpooky.
Open Scope N_scope.

(* both runs succeed, with different results *)
Definition distinguished (e : env) (a : alg) (f : flavor) (c : ctor) (xs1 xs2 : list ustep) : Prop :=
  exists r1 r2, runs e a f c xs1 = Ok [r1] /\ runs e a f c xs2 = Ok [r2] /\ r1 <> r2.

Lemma distinguished_by e a f c cs1 cs2 : valid_env e -> valid_ctor c -> valid_pieces a cs1 -> valid_pieces a cs2 -> a <> Aspooky ->
  fst (mc_ar (machine_of (e_cw e) a) (mc_au (machine_of (e_cw e) a) (mc_start (machine_of (e_cw e) a) c) (fed cs1))) <>
  fst (mc_ar (machine_of (e_cw e) a) (mc_au (machine_of (e_cw e) a) (mc_start (machine_of (e_cw e) a) c) (fed cs2))) ->
  distinguished e a f c (hash_pieces cs1) (hash_pieces cs2).
Proof. intros HE HC V1 V2 HA HN. do 2 eexists. rewrite !first_result' by assumption. auto. Qed.

Lemma LE_lt k l : bytes l -> (length l <= k)%nat -> LE l < 256 ^ N.of_nat k.
Proof.
  intros Hb Hl. change LE with le_val. pose proof (le_val_bound l Hb) as Hv.
  assert (256 ^ N.of_nat (length l) <= 256 ^ N.of_nat k) by (apply N.pow_le_mono_r; lia). lia.
Qed.
Lemma LE_lt32 l : bytes l -> (length l <= 4)%nat -> LE l < 2^32.
Proof. exact (LE_lt 4 l). Qed.
Lemma LE_lt64 l : bytes l -> (length l <= 8)%nat -> LE l < 2^64.
Proof. exact (LE_lt 8 l). Qed.
Lemma byte_lt w b : 8 <= w -> b < 256 -> b < 2^w.
Proof. intros Hw Hb. pose proof (N.pow_le_mono_r 2 8 w). change (2^8) with 256 in *. lia. Qed.

(* ---------- fnv1a: one byte ---------- *)
Lemma fnv_local F inv : (fnv_prime F * inv) mod 2 ^ fnv_w F = 1 mod 2 ^ fnv_w F -> 8 <= fnv_w F -> fnv_basis F < 2 ^ fnv_w F ->
  forall pre p m1 m2, bytes m1 -> bytes m2 -> differ_at p 1 m1 m2 -> bytes pre ->
  FNV1a F (pre ++ m1) <> FNV1a F (pre ++ m2).
Proof.
  intros HI HW HB0 pre p m1 m2 B1 B2 HD HP. unfold FNV1a, FNV1a_from. rewrite !fold_left_app.
  assert (PL : forall l s, s < 2 ^ fnv_w F -> fold_left (FNV1a_octet F) l s < 2 ^ fnv_w F).
  { induction l as [|b l IH]; intros s Hs; [exact Hs|]. cbn [fold_left]. apply IH, MUL_lt'. }
  destruct (differ_byte _ _ _ HD) as (a & x & y & t & -> & -> & HN & _). rewrite !fold_left_app. cbn [fold_left].
  apply bytes_app in B1. apply bytes_app in B2. destruct B1 as [A1 B1], B2 as [_ B2]. inversion B1 as [|? ? X1 T1]; inversion B2 as [|? ? X2 _]; subst.
  set (s := fold_left (FNV1a_octet F) a _). assert (Hs : s < 2 ^ fnv_w F) by (apply PL, PL; exact HB0). clearbody s.
  assert (ST : forall l s1 s2, bytes l -> s1 < 2 ^ fnv_w F -> s2 < 2 ^ fnv_w F -> fold_left (FNV1a_octet F) l s1 = fold_left (FNV1a_octet F) l s2 -> s1 = s2).
  { induction l as [|b l IH]; intros s1 s2 Hl L1 L2 E; [exact E|]. inversion Hl as [|? ? Hb Hl']; subst. cbn [fold_left] in E. apply IH in E; [|exact Hl'|apply MUL_lt'|apply MUL_lt'].
    unfold FNV1a_octet in E. pose proof (byte_lt _ _ HW Hb). apply (mul_inj _ _ inv) in E; [|exact HI|apply lxor_lt; assumption|apply lxor_lt; assumption].
    now apply lxor_inj_r in E. }
  intros E. apply ST in E; [|exact T1|apply MUL_lt'|apply MUL_lt']. unfold FNV1a_octet in E.
  pose proof (byte_lt _ _ HW X1). pose proof (byte_lt _ _ HW X2). apply (mul_inj _ _ inv) in E; [|exact HI|apply lxor_lt; assumption|apply lxor_lt; assumption].
  now apply lxor_inj_l in E.
Qed.
Lemma fnv_start_bytes c : valid_ctor c -> bytes (fnv_start c).
Proof.
  destruct c as [|n|p n]; cbn [valid_ctor fnv_start]; intros H; [constructor|destruct (n =? 0); [constructor|apply le_bytes_bytes]|].
  now apply (valid_data _ _ _ H).
Qed.
Theorem C53_fnv32 e f c cs1 cs2 p : valid_env e -> valid_ctor c -> valid_pieces Afnv32 cs1 -> valid_pieces Afnv32 cs2 ->
  differ_at p 1 (fed cs1) (fed cs2) -> distinguished e Afnv32 f c (hash_pieces cs1) (hash_pieces cs2).
Proof.
  intros HE HC V1 V2 HD. apply distinguished_by; try assumption; [discriminate|]. cbn [machine_of fnv_machine mc_start mc_ar mc_au fst].
  intros E. injection E as E. revert E. apply (fnv_local FNV32 0x359c449b) with (p := p); try (reflexivity || discriminate || assumption).
  - now apply (pieces_bytes Afnv32). - now apply (pieces_bytes Afnv32). - now apply fnv_start_bytes.
Qed.
Theorem C53_fnv64 e f c cs1 cs2 p : valid_env e -> valid_ctor c -> valid_pieces Afnv64 cs1 -> valid_pieces Afnv64 cs2 ->
  differ_at p 1 (fed cs1) (fed cs2) -> distinguished e Afnv64 f c (hash_pieces cs1) (hash_pieces cs2).
Proof.
  intros HE HC V1 V2 HD. apply distinguished_by; try assumption; [discriminate|]. cbn [machine_of fnv_machine mc_start mc_ar mc_au fst].
  intros E. injection E as E. revert E. apply (fnv_local FNV64 0xce965057aff6957b) with (p := p); try (reflexivity || discriminate || assumption).
  - now apply (pieces_bytes Afnv64). - now apply (pieces_bytes Afnv64). - now apply fnv_start_bytes.
Qed.

(* ---------- murmur3_32: one 4-byte word, or the tail ---------- *)
Lemma Mur32_k_lt k : Mur32_k k < 2^32. Proof. apply MUL_lt'. Qed.
Lemma Mur32_k_inj a b : a < 2^32 -> b < 2^32 -> Mur32_k a = Mur32_k b -> a = b.
Proof.
  intros Ha Hb E. unfold Mur32_k in E.
  apply (mul_inj 32 _ 0x56ed309b) in E; [|reflexivity|apply rotl_lt; [reflexivity|apply MUL_lt']|apply rotl_lt; [reflexivity|apply MUL_lt']].
  apply rotl_inj in E; [|reflexivity|apply MUL_lt'|apply MUL_lt'].
  apply (mul_inj 32 _ 0xdee13bb1) in E; [exact E|reflexivity|assumption|assumption].
Qed.
Lemma Mur32_block_inj h1 b1 h2 b2 : h1 < 2^32 -> h2 < 2^32 -> Mur32_block h1 b1 = Mur32_block h2 b2 ->
  N.lxor h1 (Mur32_k (LE b1)) = N.lxor h2 (Mur32_k (LE b2)).
Proof.
  intros L1 L2 E. unfold Mur32_block in E. apply add_inj_r in E; [|apply MUL_lt'|apply MUL_lt'].
  assert (X1 : N.lxor h1 (Mur32_k (LE b1)) < 2^32) by (apply lxor_lt; [exact L1|apply Mur32_k_lt]).
  assert (X2 : N.lxor h2 (Mur32_k (LE b2)) < 2^32) by (apply lxor_lt; [exact L2|apply Mur32_k_lt]).
  apply (mul_inj 32 _ 0xcccccccd) in E; [|reflexivity|apply rotl_lt; [reflexivity|assumption]|apply rotl_lt; [reflexivity|assumption]].
  apply rotl_inj in E; [exact E|reflexivity|assumption|assumption].
Qed.
Lemma Mur32_final_inj h1 t1 h2 t2 n : h1 < 2^32 -> h2 < 2^32 -> Mur32_final h1 n t1 = Mur32_final h2 n t2 ->
  N.lxor h1 (Mur32_k (LE t1)) = N.lxor h2 (Mur32_k (LE t2)).
Proof.
  intros L1 L2 E. unfold Mur32_final in E. assert (L : n mod 2^32 < 2^32) by (apply N.mod_lt; discriminate).
  apply fmix32_inj in E; [|repeat apply lxor_lt; try assumption; apply Mur32_k_lt|repeat apply lxor_lt; try assumption; apply Mur32_k_lt].
  now apply lxor_inj_r in E.
Qed.
Lemma differ_neq {A} p L (m1 m2 : list A) : differ_at p L m1 m2 -> length m1 = length m2 /\ m1 <> m2.
Proof. intros (H1 & H2 & _). auto. Qed.
Lemma mur32_local n p s m1 m2 : s < 2^32 -> (p mod 4 = 0)%nat -> bytes m1 -> bytes m2 -> differ_at p 4 m1 m2 ->
  Mur32_final (fold_left Mur32_block (chunks 4 m1) s) n (rest 4 m1) <> Mur32_final (fold_left Mur32_block (chunks 4 m2) s) n (rest 4 m2).
Proof.
  intros Hs Hp B1 B2 HD.
  apply (detect 4 0 4 ltac:(lia) ltac:(lia) False (fun s => s < 2^32) (fun s1 s2 => s1 <> s2) Mur32_block (fun s t => Mur32_final s n t))
    with (p := p); try assumption; try easy.
  - intros x b _ _. apply ADD_lt'.
  - intros s1 s2 b P1 P2 HN Hb Hl E. apply Mur32_block_inj in E; [|assumption|assumption]. now apply lxor_inj_r in E.
  - intros x b1 b2 Px C1 C2 Hl HX E. apply differ_neq in HX. destruct HX as [HL HN]. apply Mur32_block_inj in E; [|assumption|assumption].
    apply lxor_inj_l in E. apply Mur32_k_inj in E; [|apply LE_lt32; [assumption|lia]|apply LE_lt32; [assumption|lia]]. now apply LE_inj in E.
  - intros s1 s2 b P1 P2 HN Hb Hl E. apply Mur32_final_inj in E; [|assumption|assumption]. now apply lxor_inj_r in E.
  - intros x b1 b2 Px C1 C2 Hl HX _ E. apply differ_neq in HX. destruct HX as [HL HN]. apply Mur32_final_inj in E; [|assumption|assumption].
    apply lxor_inj_l in E. apply Mur32_k_inj in E; [|apply LE_lt32; [assumption|lia]|apply LE_lt32; [assumption|lia]]. now apply LE_inj in E.
Qed.
Theorem C53_murmur32 e f c cs1 cs2 p : valid_env e -> valid_ctor c -> valid_pieces Amur32 cs1 -> valid_pieces Amur32 cs2 ->
  (p mod 4 = 0)%nat -> differ_at p 4 (fed cs1) (fed cs2) -> distinguished e Amur32 f c (hash_pieces cs1) (hash_pieces cs2).
Proof.
  intros HE HC V1 V2 Hp HD. apply distinguished_by; try assumption; [discriminate|].
  cbn [machine_of blk_machine mc_start mc_ar mc_au]. destruct (mur32_start_lt (e_cw e) c HC) as (st & c0 & -> & Hst). unfold ab_au, mur32_ar. cbn [fst app].
  intros E. injection E as E. rewrite (proj1 (differ_neq _ _ _ _ HD)) in E. revert E. apply mur32_local with (p := p); try assumption.
  - now apply (pieces_bytes Amur32). - now apply (pieces_bytes Amur32).
Qed.

(* ---------- murmur3_128: one 16-byte block, or the tail ---------- *)
Lemma Mur128_k1_lt k : Mur128_k1 k < 2^64. Proof. apply MUL_lt'. Qed.
Lemma Mur128_k2_lt k : Mur128_k2 k < 2^64. Proof. apply MUL_lt'. Qed.
Lemma Mur128_k1_inj a b : a < 2^64 -> b < 2^64 -> Mur128_k1 a = Mur128_k1 b -> a = b.
Proof.
  intros Ha Hb E. unfold Mur128_k1 in E.
  apply (mul_inj 64 _ 0xa81e14edd9de2c7f) in E; [|reflexivity|apply rotl_lt; [reflexivity|apply MUL_lt']|apply rotl_lt; [reflexivity|apply MUL_lt']].
  apply rotl_inj in E; [|reflexivity|apply MUL_lt'|apply MUL_lt'].
  apply (mul_inj 64 _ 0xa98409e882ce4d7d) in E; [exact E|reflexivity|assumption|assumption].
Qed.
Lemma Mur128_k2_inj a b : a < 2^64 -> b < 2^64 -> Mur128_k2 a = Mur128_k2 b -> a = b.
Proof.
  intros Ha Hb E. unfold Mur128_k2 in E.
  apply (mul_inj 64 _ 0xa98409e882ce4d7d) in E; [|reflexivity|apply rotl_lt; [reflexivity|apply MUL_lt']|apply rotl_lt; [reflexivity|apply MUL_lt']].
  apply rotl_inj in E; [|reflexivity|apply MUL_lt'|apply MUL_lt'].
  apply (mul_inj 64 _ 0xa81e14edd9de2c7f) in E; [exact E|reflexivity|assumption|assumption].
Qed.
Definition l2 (h : N * N) : Prop := fst h < 2^64 /\ snd h < 2^64.
Definition in128 (h : N * N) (b : list N) : N * N := (N.lxor (fst h) (Mur128_k1 (LE (firstn 8 b))), N.lxor (snd h) (Mur128_k2 (LE (skipn 8 b)))).
Lemma in128_lt h b : l2 h -> l2 (in128 h b).
Proof. intros [H1 H2]. split; apply lxor_lt; try assumption; [apply Mur128_k1_lt|apply Mur128_k2_lt]. Qed.
Lemma in128_state h1 h2 b : in128 h1 b = in128 h2 b -> h1 = h2.
Proof. destruct h1, h2. unfold in128. cbn [fst snd]. intros E. apply pair_equal_spec in E. destruct E as [E1 E2]. apply lxor_inj_r in E1. apply lxor_inj_r in E2. congruence. Qed.
Lemma in128_data h b1 b2 : bytes b1 -> bytes b2 -> length b1 = length b2 -> (length b1 <= 16)%nat -> in128 h b1 = in128 h b2 -> b1 = b2.
Proof.
  intros B1 B2 HL HL' E. unfold in128 in E. apply pair_equal_spec in E. destruct E as [E1 E2]. apply lxor_inj_l in E1. apply lxor_inj_l in E2.
  apply Mur128_k1_inj in E1; [|apply LE_lt64; [now apply bytes_firstn|rewrite firstn_length; lia]|apply LE_lt64; [now apply bytes_firstn|rewrite firstn_length; lia]].
  apply Mur128_k2_inj in E2; [|apply LE_lt64; [now apply bytes_skipn|rewrite skipn_length; lia]|apply LE_lt64; [now apply bytes_skipn|rewrite skipn_length; lia]].
  apply LE_inj in E1; [|now apply bytes_firstn|now apply bytes_firstn|rewrite !firstn_length; lia].
  apply LE_inj in E2; [|now apply bytes_skipn|now apply bytes_skipn|rewrite !skipn_length; lia].
  now apply (firstn_skipn_inj 8).
Qed.
Lemma Mur128_block_lt h b : l2 (Mur128_block h b).
Proof. destruct h as [a c]. unfold Mur128_block, l2. cbn [fst snd]. split; apply ADD_lt'. Qed.
(* the second half of the input is determined first *)
Lemma Mur128_block_inj h1 b1 h2 b2 : l2 h1 -> l2 h2 -> Mur128_block h1 b1 = Mur128_block h2 b2 ->
  snd (in128 h1 b1) = snd (in128 h2 b2) /\ (snd h1 = snd h2 -> in128 h1 b1 = in128 h2 b2).
Proof.
  intros L1 L2 E. pose proof (in128_lt h1 b1 L1) as [X1 Y1]. pose proof (in128_lt h2 b2 L2) as [X2 Y2]. unfold l2 in *.
  destruct h1 as [a1 c1], h2 as [a2 c2]. unfold in128 in *. unfold Mur128_block in E. cbn [fst snd] in *.
  revert E X1 Y1 X2 Y2. generalize (N.lxor a1 (Mur128_k1 (LE (firstn 8 b1)))) (N.lxor c1 (Mur128_k2 (LE (skipn 8 b1))))
    (N.lxor a2 (Mur128_k1 (LE (firstn 8 b2)))) (N.lxor c2 (Mur128_k2 (LE (skipn 8 b2)))). intros x1 y1 x2 y2 E X1 Y1 X2 Y2.
  apply pair_equal_spec in E. destruct E as [E1 E2]. rewrite <- E1 in E2.
  apply add_inj_r in E2; [|apply MUL_lt'|apply MUL_lt'].
  apply (mul_inj 64 _ 0xcccccccccccccccd) in E2; [|reflexivity|apply ADD_lt'|apply ADD_lt'].
  apply add_inj_r in E2; [|apply rotl_lt; [reflexivity|assumption]|apply rotl_lt; [reflexivity|assumption]].
  apply rotl_inj in E2; [|reflexivity|assumption|assumption]. split; [exact E2|]. intros <-. rewrite E2. f_equal.
  apply add_inj_r in E1; [|apply MUL_lt'|apply MUL_lt'].
  apply (mul_inj 64 _ 0xcccccccccccccccd) in E1; [|reflexivity|apply ADD_lt'|apply ADD_lt'].
  apply add_inj_r in E1; [|apply rotl_lt; [reflexivity|assumption]|apply rotl_lt; [reflexivity|assumption]].
  now apply rotl_inj in E1.
Qed.
Lemma Mur128_final_inj h1 t1 h2 t2 n : l2 h1 -> l2 h2 -> n < 2^64 -> Mur128_final h1 n t1 = Mur128_final h2 n t2 -> in128 h1 t1 = in128 h2 t2.
Proof.
  intros L1 L2 Hn E. pose proof (in128_lt h1 t1 L1) as [X1 Y1]. pose proof (in128_lt h2 t2 L2) as [X2 Y2]. clear L1 L2.
  destruct h1 as [a1 c1], h2 as [a2 c2]. unfold in128 in *. unfold Mur128_final in E. cbn [fst snd] in *.
  revert E X1 Y1 X2 Y2. generalize (N.lxor a1 (Mur128_k1 (LE (firstn 8 t1)))) (N.lxor c1 (Mur128_k2 (LE (skipn 8 t1))))
    (N.lxor a2 (Mur128_k1 (LE (firstn 8 t2)))) (N.lxor c2 (Mur128_k2 (LE (skipn 8 t2)))). intros x1 y1 x2 y2 E X1 Y1 X2 Y2.
  cbv zeta in E.
  assert (A1 : N.lxor x1 n < 2^64) by (apply lxor_lt; assumption). assert (A2 : N.lxor x2 n < 2^64) by (apply lxor_lt; assumption).
  assert (C1 : N.lxor y1 n < 2^64) by (apply lxor_lt; assumption). assert (C2 : N.lxor y2 n < 2^64) by (apply lxor_lt; assumption).
  enough (G : N.lxor x1 n = N.lxor x2 n /\ N.lxor y1 n = N.lxor y2 n).
  { destruct G as [G1 G2]. apply lxor_inj_r in G1. apply lxor_inj_r in G2. congruence. }
  revert E A1 A2 C1 C2. generalize (N.lxor x1 n) (N.lxor x2 n) (N.lxor y1 n) (N.lxor y2 n). clear. intros x1 x2 y1 y2 E X1 X2 Y1 Y2.
  set (u1 := ADD 64 x1 y1) in *. set (w1 := ADD 64 y1 u1) in *. set (u2 := ADD 64 x2 y2) in *. set (w2 := ADD 64 y2 u2) in *.
  assert (U1 : u1 < 2^64) by apply ADD_lt'. assert (U2 : u2 < 2^64) by apply ADD_lt'. assert (W1 : w1 < 2^64) by apply ADD_lt'. assert (W2 : w2 < 2^64) by apply ADD_lt'.
  apply app_inj_len in E; [|now rewrite !toLE_le_bytes, !le_bytes_length]. destruct E as [E1 E2].
  assert (LI : forall a b, a < 2^64 -> b < 2^64 -> toLE 8 a = toLE 8 b -> a = b).
  { intros a b Ha Hb EE. apply (f_equal LE) in EE. rewrite !LE_toLE8 in EE by assumption. exact EE. }
  apply LI in E1; [|apply ADD_lt'|apply ADD_lt']. apply LI in E2; [|apply ADD_lt'|apply ADD_lt'].
  rewrite <- E1 in E2. apply add_inj_r in E2; [|apply fmix64_lt; assumption|apply fmix64_lt; assumption].
  rewrite <- E2 in E1. apply add_inj_r in E1; [|apply fmix64_lt; assumption|apply fmix64_lt; assumption].
  apply fmix64_inj in E1; [|assumption|assumption]. apply fmix64_inj in E2; [|assumption|assumption].
  unfold w1, w2 in E2. rewrite <- E1 in E2. apply add_inj_r in E2; [|assumption|assumption]. subst y2. split; [|reflexivity].
  unfold u1, u2 in E1. now apply add_inj_r in E1.
Qed.
Lemma mur128_local n p s m1 m2 : l2 s -> n < 2^64 -> (p mod 16 = 0)%nat -> bytes m1 -> bytes m2 -> differ_at p 16 m1 m2 ->
  Mur128_final (fold_left Mur128_block (chunks 16 m1) s) n (rest 16 m1) <> Mur128_final (fold_left Mur128_block (chunks 16 m2) s) n (rest 16 m2).
Proof.
  intros Hs Hn Hp B1 B2 HD.
  apply (detect 16 0 16 ltac:(lia) ltac:(lia) False l2 (fun s1 s2 => s1 <> s2) Mur128_block (fun s t => Mur128_final s n t))
    with (p := p); try assumption; try easy.
  - intros x b _ _. apply Mur128_block_lt.
  - intros s1 s2 b P1 P2 HN Hb Hl E. apply Mur128_block_inj in E; [|assumption|assumption]. destruct E as [E1 E2]. unfold in128 in E1. cbn [snd] in E1.
    apply lxor_inj_r in E1. specialize (E2 E1). now apply in128_state in E2.
  - intros x b1 b2 Px C1 C2 Hl HX E. apply differ_neq in HX. destruct HX as [HL HN]. apply Mur128_block_inj in E; [|assumption|assumption].
    destruct E as [_ E]. specialize (E eq_refl). apply in128_data in E; try assumption; [easy|lia].
  - intros s1 s2 b P1 P2 HN Hb Hl E. apply Mur128_final_inj in E; [|assumption|assumption|assumption]. now apply in128_state in E.
  - intros x b1 b2 Px C1 C2 Hl HX _ E. apply differ_neq in HX. destruct HX as [HL HN]. apply Mur128_final_inj in E; [|assumption|assumption|assumption].
    apply in128_data in E; try assumption; [easy|lia].
Qed.
Theorem C53_murmur128 e f c cs1 cs2 p : valid_env e -> valid_ctor c -> valid_pieces Amur128 cs1 -> valid_pieces Amur128 cs2 ->
  (p mod 16 = 0)%nat -> differ_at p 16 (fed cs1) (fed cs2) -> distinguished e Amur128 f c (hash_pieces cs1) (hash_pieces cs2).
Proof.
  intros HE HC V1 V2 Hp HD. apply distinguished_by; try assumption; [discriminate|].
  cbn [machine_of blk_machine mc_start mc_ar mc_au]. destruct (mur128_start_lt (e_cw e) c HC) as (st & c0 & -> & Hst). unfold ab_au, mur128_ar. cbn [fst app].
  intros E. assert (E' := f_equal (fun r => match r with RDigest d => d | _ => [] end) E). cbn beta iota in E'. clear E.
  rewrite (proj1 (differ_neq _ _ _ _ HD)) in E'. revert E'. apply mur128_local with (p := p); try assumption.
  - destruct HE as [[-> | ->] _]; (eapply N.lt_le_trans; [apply N.mod_lt; discriminate|]); now apply N.leb_le.
  - now apply (pieces_bytes Amur128).
  - now apply (pieces_bytes Amur128).
Qed.

(* ---------- xxhash_32: one byte, or one 4-byte word of the message ---------- *)
Lemma differ_other {A} q L (b1 b2 : list A) a n : differ_at q L b1 b2 -> (a + n <= q \/ q + L <= a)%nat ->
  firstn n (skipn a b1) = firstn n (skipn a b2).
Proof.
  intros (_ & _ & E1 & E2) [H|H].
  - rewrite !firstn_skipn_comm. replace (a + n)%nat with (Nat.min (a + n) q) by lia. rewrite <- !firstn_firstn. now rewrite E1.
  - replace a with ((a - (q + L)) + (q + L))%nat by lia. rewrite <- (skipn_twice _ (q + L) b1), <- (skipn_twice _ (q + L) b2). now rewrite E2.
Qed.
Lemma differ_here {A} q L (b1 b2 : list A) : differ_at q L b1 b2 -> firstn L (skipn q b1) <> firstn L (skipn q b2).
Proof.
  intros (_ & HN & E1 & E2) E. apply HN. rewrite <- (firstn_skipn q b1), <- (firstn_skipn q b2). rewrite E1. f_equal.
  rewrite <- (firstn_skipn L (skipn q b1)), <- (firstn_skipn L (skipn q b2)). rewrite E. f_equal. rewrite !skipn_twice, (Nat.add_comm L q). exact E2.
Qed.
Definition unit4 (p L : nat) : Prop := L = 1%nat \/ (L = 4%nat /\ (p mod 4 = 0)%nat).

Lemma XXH32_word_inj a1 w1 a2 w2 : XXH32_word a1 w1 = XXH32_word a2 w2 -> ADD 32 a1 (MUL 32 (LE w1) PRIME32_3) = ADD 32 a2 (MUL 32 (LE w2) PRIME32_3).
Proof.
  intros E. unfold XXH32_word in E.
  apply (mul_inj 32 _ 0xa0fe3bcf) in E; [|reflexivity|apply rotl_lt; [reflexivity|apply ADD_lt']|apply rotl_lt; [reflexivity|apply ADD_lt']].
  apply rotl_inj in E; [exact E|reflexivity|apply ADD_lt'|apply ADD_lt'].
Qed.
Lemma XXH32_byte_inj a1 b1 a2 b2 : XXH32_byte a1 b1 = XXH32_byte a2 b2 -> ADD 32 a1 (MUL 32 b1 PRIME32_5) = ADD 32 a2 (MUL 32 b2 PRIME32_5).
Proof.
  intros E. unfold XXH32_byte in E.
  apply (mul_inj 32 _ 0xe8b2f51) in E; [|reflexivity|apply rotl_lt; [reflexivity|apply ADD_lt']|apply rotl_lt; [reflexivity|apply ADD_lt']].
  apply rotl_inj in E; [exact E|reflexivity|apply ADD_lt'|apply ADD_lt'].
Qed.
Lemma XXH32_bytes_states : forall l s1 s2, s1 < 2^32 -> s2 < 2^32 -> fold_left XXH32_byte l s1 = fold_left XXH32_byte l s2 -> s1 = s2.
Proof.
  intros l s1 s2. apply (fold_states (fun s => s < 2^32) XXH32_byte).
  - intros. apply MUL_lt'.
  - intros x y b X Y E. apply XXH32_byte_inj in E. now apply add_inj_r in E.
Qed.
Lemma XXH32_consume_states s1 s2 t : s1 < 2^32 -> s2 < 2^32 -> XXH32_consume s1 t = XXH32_consume s2 t -> s1 = s2.
Proof.
  intros L1 L2 E. unfold XXH32_consume in E.
  assert (HW : forall ds s, s < 2^32 -> fold_left XXH32_word ds s < 2^32).
  { induction ds as [|d ds IH]; intros s Hs; [exact Hs|]. cbn [fold_left]. apply IH, MUL_lt'. }
  apply XXH32_bytes_states in E; [|now apply HW|now apply HW]. revert E. apply (fold_states (fun s => s < 2^32) XXH32_word); try assumption.
  - intros. apply MUL_lt'.
  - intros x y b X Y E. apply XXH32_word_inj in E. now apply add_inj_r in E.
Qed.
Lemma XXH32_consume_local p L s t1 t2 : s < 2^32 -> bytes t1 -> bytes t2 -> unit4 p L -> (p + L <= length t1)%nat -> differ_at p L t1 t2 ->
  XXH32_consume s t1 <> XXH32_consume s t2.
Proof.
  intros Hs B1 B2 HU HF HD.
  apply (detect 4 (p mod 4) L ltac:(lia) ltac:(destruct HU as [->|[-> ?]]; lia) True (fun s => s < 2^32) (fun s1 s2 => s1 <> s2)
           XXH32_word (fun s t => fold_left XXH32_byte t s)) with (p := p); try assumption; try easy.
  - intros. apply MUL_lt'.
  - intros s1 s2 b P1 P2 HN _ _ E. apply XXH32_word_inj in E. now apply add_inj_r in E.
  - intros x b1 b2 Px C1 C2 Hl HX E. apply differ_neq in HX. destruct HX as [HL HN]. apply XXH32_word_inj in E.
    apply add_inj_l in E; [|apply MUL_lt'|apply MUL_lt'].
    apply (mul_inj 32 _ 0xa89ed915) in E; [|reflexivity|apply LE_lt32; [assumption|lia]|apply LE_lt32; [assumption|lia]]. now apply LE_inj in E.
  - intros s1 s2 b P1 P2 HN _ _ E. now apply XXH32_bytes_states in E.
  - intros x b1 b2 Px C1 C2 Hl HX HF'. destruct HU as [->|[-> HU]]; [|specialize (HF' I); lia].
    apply (fold_byte (fun s => s < 2^32) XXH32_byte) with (p := (p mod 4)%nat); try assumption.
    + intros. apply MUL_lt'.
    + intros u v b X Y E. apply XXH32_byte_inj in E. now apply add_inj_r in E.
    + intros u y1 y2 U Y1 Y2 E. apply XXH32_byte_inj in E. apply add_inj_l in E; [|apply MUL_lt'|apply MUL_lt'].
      apply (mul_inj 32 _ 0xae398151) in E; [exact E|reflexivity|now apply byte_lt|now apply byte_lt].
Qed.
Definition l4 (w : N) (v : XXH_acc) : Prop := let '(a1, a2, a3, a4) := v in a1 < 2^w /\ a2 < 2^w /\ a3 < 2^w /\ a4 < 2^w.
(* exactly one accumulator differs *)
Definition one4 (v w : XXH_acc) : Prop :=
  let '(a1, a2, a3, a4) := v in let '(b1, b2, b3, b4) := w in
  (a1 <> b1 /\ a2 = b2 /\ a3 = b3 /\ a4 = b4) \/ (a1 = b1 /\ a2 <> b2 /\ a3 = b3 /\ a4 = b4) \/
  (a1 = b1 /\ a2 = b2 /\ a3 <> b3 /\ a4 = b4) \/ (a1 = b1 /\ a2 = b2 /\ a3 = b3 /\ a4 <> b4).
Lemma XXH32_round_state a b x : a < 2^32 -> b < 2^32 -> XXH32_round a x = XXH32_round b x -> a = b.
Proof.
  intros A B E. unfold XXH32_round in E.
  apply (mul_inj 32 _ 0xe8b2f51) in E; [|reflexivity|apply rotl_lt; [reflexivity|apply ADD_lt']|apply rotl_lt; [reflexivity|apply ADD_lt']].
  apply rotl_inj in E; [|reflexivity|apply ADD_lt'|apply ADD_lt']. now apply add_inj_r in E.
Qed.
Lemma XXH32_stripe_lt v b : l4 32 (XXH32_stripe v b).
Proof. destruct v as [[[a1 a2] a3] a4]. unfold XXH32_stripe, l4. repeat split; apply MUL_lt'. Qed.
Lemma converge_one v w : l4 32 v -> l4 32 w -> one4 v w -> XXH32_converge v <> XXH32_converge w.
Proof.
  destruct v as [[[a1 a2] a3] a4], w as [[[b1 b2] b3] b4]. intros (A1 & A2 & A3 & A4) (B1 & B2 & B3 & B4) HD E. unfold XXH32_converge in E.
  assert (R : forall n a, n < 32 -> a < 2^32 -> ROTL 32 n a < 2^32) by (intros; now apply rotl_lt).
  destruct HD as [(N1 & -> & -> & ->)|[(-> & N1 & -> & ->)|[(-> & -> & N1 & ->)|(-> & -> & -> & N1)]]].
  - do 3 (apply add_inj_r in E; [|first [apply ADD_lt'|now apply R]|first [apply ADD_lt'|now apply R]]). apply rotl_inj in E; [easy|reflexivity|assumption|assumption].
  - do 2 (apply add_inj_r in E; [|apply ADD_lt'|apply ADD_lt']). apply add_inj_l in E; [|now apply R|now apply R]. apply rotl_inj in E; [easy|reflexivity|assumption|assumption].
  - do 1 (apply add_inj_r in E; [|apply ADD_lt'|apply ADD_lt']). apply add_inj_l in E; [|now apply R|now apply R]. apply rotl_inj in E; [easy|reflexivity|assumption|assumption].
  - apply add_inj_l in E; [|now apply R|now apply R]. apply rotl_inj in E; [easy|reflexivity|assumption|assumption].
Qed.
Lemma stripe_lane v b1 b2 j : l4 32 v -> bytes b1 -> bytes b2 -> length b1 = 16%nat -> (j < 4)%nat -> differ_at (4 * j) 4 b1 b2 ->
  one4 (XXH32_stripe v b1) (XXH32_stripe v b2).
Proof.
  intros Hv B1 B2 HL Hj HD. destruct v as [[[a1 a2] a3] a4]. destruct Hv as (A1 & A2 & A3 & A4).
  assert (SAME : forall i, i <> j -> lane32 i b1 = lane32 i b2).
  { intros i Hi. unfold lane32. f_equal. apply (differ_other (4 * j) 4); [exact HD|lia]. }
  assert (DIFF : forall a, a < 2^32 -> XXH32_round a (lane32 j b1) <> XXH32_round a (lane32 j b2)).
  { intros a Ha E. pose proof (proj1 (differ_neq _ _ _ _ HD)) as HL2.
    apply XXH32_round_inj in E; [|apply LE_lt32; [now apply bytes_firstn, bytes_skipn|rewrite firstn_length; lia]|apply LE_lt32; [now apply bytes_firstn, bytes_skipn|rewrite firstn_length; lia]].
    unfold lane32 in E. apply LE_inj in E; [|now apply bytes_firstn, bytes_skipn|now apply bytes_firstn, bytes_skipn|rewrite !firstn_length, !skipn_length; lia].
    now apply (differ_here _ _ _ _ HD). }
  unfold XXH32_stripe, one4. assert (J : j = 0%nat \/ j = 1%nat \/ j = 2%nat \/ j = 3%nat) by lia. destruct J as [-> | [-> | [-> | -> ]]].
  - rewrite (SAME 1%nat), (SAME 2%nat), (SAME 3%nat) by lia. left. auto.
  - rewrite (SAME 0%nat), (SAME 2%nat), (SAME 3%nat) by lia. right. left. auto.
  - rewrite (SAME 0%nat), (SAME 1%nat), (SAME 3%nat) by lia. right. right. left. auto.
  - rewrite (SAME 0%nat), (SAME 1%nat), (SAME 2%nat) by lia. right. right. right. auto.
Qed.
Lemma XXH32_consume_lt s t : s < 2^32 -> XXH32_consume s t < 2^32.
Proof.
  intros Hs. unfold XXH32_consume. assert (HW : forall ds s, s < 2^32 -> fold_left XXH32_word ds s < 2^32).
  { induction ds as [|d ds IH]; intros x Hx; [exact Hx|]. cbn [fold_left]. apply IH, MUL_lt'. }
  assert (HB : forall ds s, s < 2^32 -> fold_left XXH32_byte ds s < 2^32).
  { induction ds as [|d ds IH]; intros x Hx; [exact Hx|]. cbn [fold_left]. apply IH, MUL_lt'. }
  now apply HB, HW.
Qed.
Lemma xx32_local n p L v m1 m2 : l4 32 v -> (16 <= n \/ length m1 < 16)%nat -> unit4 p L -> bytes m1 -> bytes m2 ->
  (p + L <= length m1)%nat -> differ_at p L m1 m2 ->
  XXH32_avalanche (xx32_acc (fold_left XXH32_stripe (chunks 16 m1) v) (N.of_nat n) (rest 16 m1)) <>
  XXH32_avalanche (xx32_acc (fold_left XXH32_stripe (chunks 16 m2) v) (N.of_nat n) (rest 16 m2)).
Proof.
  intros Hv Hn HU B1 B2 HF HD E. destruct HD as [HL HD']. assert (HD : differ_at p L m1 m2) by (split; assumption). clear HD'.
  assert (AV : forall u a, XXH32_consume (ADD 32 u (N.of_nat n)) a < 2^32) by (intros; apply XXH32_consume_lt, ADD_lt').
  destruct (Nat.lt_ge_cases (length m1) 16) as [G|G].
  - rewrite !(chunks_short 16), !(rest_short 16) in E by lia. cbn [fold_left] in E. unfold xx32_acc in E. destruct v as [[[a1 a2] a3] a4].
    apply XXH32_avalanche_inj in E; [|apply AV|apply AV]. revert E. apply (XXH32_consume_local p L); try assumption. apply ADD_lt'.
  - destruct Hn as [Hn|Hn]; [|lia]. revert E.
    apply (detect 16 (p mod 16) L ltac:(lia) ltac:(destruct HU as [->|[-> ?]]; lia) True (l4 32) one4
           XXH32_stripe (fun v t => XXH32_avalanche (xx32_acc v (N.of_nat n) t))) with (p := p); try assumption; try easy.
    + intros. apply XXH32_stripe_lt.
    + intros x y b Px Py HX _ _. destruct x as [[[a1 a2] a3] a4], y as [[[b1 b2] b3] b4]. destruct Px as (A1 & A2 & A3 & A4), Py as (C1 & C2 & C3 & C4).
      unfold XXH32_stripe, one4 in *.
      destruct HX as [(N1 & -> & -> & ->)|[(-> & N1 & -> & ->)|[(-> & -> & N1 & ->)|(-> & -> & -> & N1)]]].
      * left. repeat split. intros E. now apply XXH32_round_state in E.
      * right. left. repeat split. intros E. now apply XXH32_round_state in E.
      * right. right. left. repeat split. intros E. now apply XXH32_round_state in E.
      * right. right. right. repeat split. intros E. now apply XXH32_round_state in E.
    + intros x b1 b2 Px C1 C2 Hl HX. apply (stripe_lane x b1 b2 (p mod 16 / 4)); try assumption; [lia|].
      apply (differ_wider (p mod 16) L); try assumption; destruct HU as [->|[-> ?]]; lia.
    + intros x y t Px Py HX _ _ E. unfold xx32_acc in E. destruct (N.ltb_spec (N.of_nat n) 16) as [|G']; [lia|].
      pose proof (converge_one x y Px Py HX) as HC. destruct x as [[[a1 a2] a3] a4], y as [[[b1 b2] b3] b4].
      apply XXH32_avalanche_inj in E; [|apply AV|apply AV]. apply XXH32_consume_states in E; [|apply ADD_lt'|apply ADD_lt'].
      apply add_inj_r in E; [easy|unfold XXH32_converge; apply ADD_lt'|unfold XXH32_converge; apply ADD_lt'].
    + intros x t1 t2 Px C1 C2 Hl HX HF' E. unfold xx32_acc in E. destruct x as [[[a1 a2] a3] a4].
      apply XXH32_avalanche_inj in E; [|apply AV|apply AV]. revert E. apply (XXH32_consume_local (p mod 16) L); try assumption.
      * apply ADD_lt'.
      * destruct HU as [->|[-> HU]]; [now left|right]. split; [reflexivity|]. lia.
      * now apply HF'.
Qed.
Lemma XXH32_init_lt s : l4 32 (XXH32_init s).
Proof. unfold XXH32_init, l4. repeat split; apply N.mod_lt; discriminate. Qed.
Lemma xx32_start_lt cw c : valid_ctor c -> exists v k, xx32_start cw c = (v, N.of_nat k, []) /\ l4 32 v /\ (k = 0 \/ 16 <= k)%nat.
Proof.
  intros HC. destruct c as [|s|p n]; cbn [xx32_start].
  - exists (XXH32_init 0), 0%nat. split; [reflexivity|]. split; [apply XXH32_init_lt|now left].
  - destruct (N.eqb (s / 2^32) 0).
    + exists (XXH32_init s), 0%nat. split; [reflexivity|]. split; [apply XXH32_init_lt|now left].
    + unfold XXH32_init. eexists. exists 0%nat. split; [reflexivity|]. split; [repeat split; apply MUL_lt'|now left].
  - destruct (Nat.eqb_spec n 0) as [->|H0].
    + exists (XXH32_init 0), 0%nat. split; [reflexivity|]. split; [apply XXH32_init_lt|now left].
    + cbn [valid_ctor] in HC. pose proof (valid_data _ _ _ HC) as [Hb Hl]. unfold xx32_ar. destruct (fold_left XXH32_stripe _ _) as [[[v1 v2] v3] v4]. cbn [snd].
      do 2 eexists. split; [rewrite N.add_0_l; reflexivity|]. split; [repeat split; apply N.mod_lt; discriminate|]. right. rewrite Hl. lia.
Qed.
Theorem C53_xxh32 e f c cs1 cs2 p L : valid_env e -> valid_ctor c -> valid_pieces Axx32 cs1 -> valid_pieces Axx32 cs2 ->
  ctor_weight c + N.of_nat (length (fed cs1)) < e_cw e ->
  unit4 p L -> (p + L <= length (fed cs1))%nat -> differ_at p L (fed cs1) (fed cs2) -> distinguished e Axx32 f c (hash_pieces cs1) (hash_pieces cs2).
Proof.
  intros HE HC V1 V2 HW HU HF HD. apply distinguished_by; try assumption; [discriminate|].
  cbn [machine_of blk_machine mc_start mc_ar mc_au].
  assert (HK : aweight (xx32_start (e_cw e) c) <= ctor_weight c).
  { clear - HC HE. destruct c as [|s|p n]; cbn [xx32_start]; [cbn; lia|unfold aweight; cbn [length ctor_weight]; lia|].
    destruct (Nat.eqb n 0); [cbn; lia|]. cbn [valid_ctor] in HC. pose proof (valid_data _ _ _ HC) as [Hb Hl].
    pose proof (xx32_w (e_cw e) (XXH32_init 0, 0, data p n)) as W. unfold aweight in W at 2. rewrite Hl in W. cbn [ctor_weight]. lia. }
  destruct (xx32_start_lt (e_cw e) c HC) as (v & k & EQ & Hv & Hk). rewrite EQ in *. unfold aweight in HK. cbn [length] in HK. unfold ab_au, xx32_ar. cbn [app].
  intros E. assert (E' := f_equal (fun r => match r with RInt _ d => d | _ => 0 end) E). cbn beta iota in E'. clear E.
  rewrite <- (proj1 (differ_neq _ _ _ _ HD)) in E'. rewrite (N.mod_small (N.of_nat k + N.of_nat (length (fed cs1)))) in E' by lia. rewrite <- Nat2N.inj_add in E'.
  pose proof (xx32_local (k + length (fed cs1)) p L v (fed cs1) (fed cs2) Hv ltac:(lia) HU (pieces_bytes _ _ V1) (pieces_bytes _ _ V2) HF HD) as HL.
  revert E' HL. destruct (fold_left XXH32_stripe (chunks 16 (fed cs1)) v) as [[[x1 x2] x3] x4].
  destruct (fold_left XXH32_stripe (chunks 16 (fed cs2)) v) as [[[y1 y2] y3] y4]. cbn [fst]. auto.
Qed.

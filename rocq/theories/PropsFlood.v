(* C54: for murmur3_32 and murmur3_128, sets of 2^n messages that collide for every seed.
   (doc/hash2/hashing_bytes.adoc:93 recommends random seeds against hash flooding.) *)
From Verif Require Import Base BaseFacts SpecCommon Gen Bits GenMD Hasher GenBlk Types ModelResult ModelAppend SpecAppend ProofMsg ProofMsgEq
  Behaves Instances ProofRuns Samples PropsHistory PropsAlg PropsAppend PropsSeeds PropsPrims ProofLocal PropsLocal ProofMurmurDistinct PropsLong.
From Verif Require Import SpecMurmur ProofMurmur ProofSpooky.
Open Scope N_scope.

(* ---------- flipping the top bit ---------- *)
Lemma flip_top w y : y < 2 ^ N.succ w -> N.lxor y (2^w) = (y + 2^w) mod 2 ^ N.succ w.
Proof.
  intros Hy. pose proof (N.pow_nonzero 2 w ltac:(discriminate)) as NZ. assert (E2 : 2 ^ N.succ w = 2^w + 2^w) by (rewrite N.pow_succ_r'; lia).
  assert (LO : forall z, z < 2^w -> N.lxor z (2^w) = z + 2^w).
  { intros z Hz. symmetry. apply N.add_nocarry_lxor. apply N.bits_inj. intros i. rewrite N.land_spec, N.bits_0.
    destruct (N.eq_dec i w) as [->|G]; [now rewrite (proj1 (lt_pow2_bits z w) Hz w) by lia|]. rewrite N.pow2_bits_false by congruence. apply andb_false_r. }
  destruct (N.lt_ge_cases y (2^w)) as [G|G].
  - rewrite LO by exact G. rewrite N.mod_small; [reflexivity|lia].
  - set (z := y - 2^w). assert (Hz : z < 2^w) by (unfold z; lia). replace y with (z + 2^w) at 1 by (unfold z; lia). rewrite <- LO by exact Hz.
    rewrite N.lxor_assoc, N.lxor_nilpotent, N.lxor_0_r. replace (y + 2^w) with (z + 1 * 2 ^ N.succ w) by (unfold z; lia).
    rewrite N.mod_add by lia. rewrite N.mod_small; lia.
Qed.
Lemma flip_lt w y : y < 2 ^ N.succ w -> N.lxor y (2^w) < 2 ^ N.succ w.
Proof. intros Hy. rewrite flip_top by exact Hy. apply N.mod_lt, N.pow_nonzero. discriminate. Qed.
Lemma flip_add w y c : y < 2 ^ N.succ w -> ADD (N.succ w) (N.lxor y (2^w)) c = N.lxor (ADD (N.succ w) y c) (2^w).
Proof.
  intros Hy. assert (NZ : 2 ^ N.succ w <> 0) by (apply N.pow_nonzero; discriminate). rewrite !flip_top; [|now apply N.mod_lt|exact Hy].
  unfold ADD. rewrite !N.add_mod_idemp_l by exact NZ. f_equal. lia.
Qed.
Lemma flip_mul w y j : y < 2 ^ N.succ w -> MUL (N.succ w) (N.lxor y (2^w)) (2 * j + 1) = N.lxor (MUL (N.succ w) y (2 * j + 1)) (2^w).
Proof.
  intros Hy. assert (NZ : 2 ^ N.succ w <> 0) by (apply N.pow_nonzero; discriminate). rewrite !flip_top; [|now apply N.mod_lt|exact Hy].
  unfold MUL. rewrite N.mul_mod_idemp_l, N.add_mod_idemp_l by exact NZ.
  replace ((y + 2^w) * (2 * j + 1)) with (y * (2 * j + 1) + 2^w + j * 2 ^ N.succ w) by (rewrite N.pow_succ_r'; lia). now rewrite N.mod_add by exact NZ.
Qed.
Lemma rotl_xor w n a b : n < w -> a < 2^w -> b < 2^w -> ROTL w n (N.lxor a b) = N.lxor (ROTL w n a) (ROTL w n b).
Proof.
  intros Hn Ha Hb. apply N.bits_inj. intros i. rewrite N.lxor_spec, !rotl_bits by (assumption || now apply lxor_lt). rewrite !N.lxor_spec.
  destruct (i <? n); [reflexivity|]. now destruct (i <? w).
Qed.

(* ---------- murmur3_32 ---------- *)
(* the two 8-byte strings *)
Definition flood32 (b : bool) : list N := if b then [0x58; 0xa1; 0x82; 0x6c; 0x00; 0x00; 0xb1; 0x3b] else [0; 0; 0; 0; 0; 0; 0; 0].
Lemma flood32_k : Mur32_k 0x6c82a158 = 2^18 /\ Mur32_k 0x3bb10000 = 2^31 /\ Mur32_k 0 = 0.
Proof. vm_compute. auto. Qed.
Definition flip31 : forall y, y < 2^32 -> N.lxor y (2^31) < 2^32 := flip_lt 31.
Definition add31 : forall y c, y < 2^32 -> ADD 32 (N.lxor y (2^31)) c = N.lxor (ADD 32 y c) (2^31) := flip_add 31.
Definition mul31 : forall y, y < 2^32 -> MUL 32 (N.lxor y (2^31)) 5 = N.lxor (MUL 32 y 5) (2^31) := fun y => flip_mul 31 y 2.
Lemma Mur32_flip h : h < 2^32 -> ADD 32 (MUL 32 (ROTL 32 13 (N.lxor h (2^18))) 5) 0xe6546b64 = N.lxor (ADD 32 (MUL 32 (ROTL 32 13 h) 5) 0xe6546b64) (2^31).
Proof.
  intros Hh. rewrite rotl_xor; [|reflexivity|exact Hh|reflexivity]. change (ROTL 32 13 (2^18)) with (2^31).
  rewrite mul31 by (apply rotl_lt; [reflexivity|exact Hh]). apply add31, MUL_lt'.
Qed.
Lemma flood32_block b h : h < 2^32 -> fold_left Mur32_block (chunks 4 (flood32 b)) h = fold_left Mur32_block (chunks 4 (flood32 false)) h.
Proof.
  intros Hh. destruct b; [|reflexivity]. destruct flood32_k as (K1 & K2 & K0).
  change (chunks 4 (flood32 true)) with [[0x58; 0xa1; 0x82; 0x6c]; [0x00; 0x00; 0xb1; 0x3b]].
  change (chunks 4 (flood32 false)) with [[0; 0; 0; 0]; [0; 0; 0; 0]]. cbn [fold_left].
  unfold Mur32_block. change (LE [0x58; 0xa1; 0x82; 0x6c]) with 0x6c82a158. change (LE [0x00; 0x00; 0xb1; 0x3b]) with 0x3bb10000. change (LE [0; 0; 0; 0]) with 0.
  rewrite K1, K2, K0. rewrite (Mur32_flip h Hh). rewrite !N.lxor_0_r. rewrite N.lxor_assoc, N.lxor_nilpotent, N.lxor_0_r. reflexivity.
Qed.
(* the messages: any sequence of the two *)
Definition flood (blk : bool -> list N) (bs : list bool) : list N := concat (map blk bs).
Lemma flood_length blk k : (forall b, length (blk b) = k) -> forall bs, length (flood blk bs) = (length bs * k)%nat.
Proof. intros H bs. unfold flood. induction bs as [|b bs IH]; [reflexivity|]. cbn [map concat length]. rewrite app_length, IH, H. lia. Qed.
Lemma flood_inj blk k : (forall b, length (blk b) = k) -> blk true <> blk false -> forall bs1 bs2, length bs1 = length bs2 ->
  flood blk bs1 = flood blk bs2 -> bs1 = bs2.
Proof.
  intros HK HN bs1. induction bs1 as [|b1 bs1 IH]; intros [|b2 bs2] HL E; try discriminate; [reflexivity|].
  change (blk b1 ++ flood blk bs1 = blk b2 ++ flood blk bs2) in E. apply app_inj_len in E; [|now rewrite !HK]. destruct E as [E1 E2].
  f_equal; [|apply IH; [now injection HL|exact E2]]. destruct b1, b2; try reflexivity; congruence.
Qed.
Lemma flood_state {St} (P : St -> Prop) (step : St -> list N -> St) blk B k : (0 < B)%nat -> (forall b, length (blk b) = (k * B)%nat) ->
  (forall s b, P s -> P (step s b)) ->
  (forall b s, P s -> fold_left step (chunks B (blk b)) s = fold_left step (chunks B (blk false)) s) ->
  forall t bs1 bs2 s, length bs1 = length bs2 -> P s ->
  fold_left step (chunks B (flood blk bs1 ++ t)) s = fold_left step (chunks B (flood blk bs2 ++ t)) s.
Proof.
  intros HB HK HP HE t. induction bs1 as [|b1 bs1 IH]; intros [|b2 bs2] s HL Ps; try discriminate; [reflexivity|].
  change (flood blk (b1 :: bs1)) with (blk b1 ++ flood blk bs1). change (flood blk (b2 :: bs2)) with (blk b2 ++ flood blk bs2). rewrite <- !app_assoc.
  rewrite (chunks_app_mult B HB k (blk b1) _ (HK b1)), (chunks_app_mult B HB k (blk b2) _ (HK b2)). rewrite !fold_left_app. rewrite (HE b1), (HE b2) by exact Ps. apply IH; [now injection HL|].
  assert (PL : forall l s, P s -> P (fold_left step l s)) by (induction l; cbn [fold_left]; auto). now apply PL.
Qed.
Lemma flood_rest blk B k t : (0 < B)%nat -> (forall b, length (blk b) = (k * B)%nat) -> forall bs, rest B (flood blk bs ++ t) = rest B t.
Proof.
  intros HB HK bs. apply (rest_mult_app B HB (length bs * k)). rewrite (flood_length blk (k * B) HK). lia.
Qed.
Lemma flood32_len b : length (flood32 b) = (2 * 4)%nat. Proof. now destruct b. Qed.

Theorem C54_murmur32 e f c bs1 bs2 t cs1 cs2 : valid_env e -> valid_ctor c -> valid_pieces Amur32 cs1 -> valid_pieces Amur32 cs2 ->
  fed cs1 = flood flood32 bs1 ++ t -> fed cs2 = flood flood32 bs2 ++ t -> length bs1 = length bs2 ->
  runs e Amur32 f c (hash_pieces cs1) = runs e Amur32 f c (hash_pieces cs2) /\ (bs1 <> bs2 -> fed cs1 <> fed cs2).
Proof.
  intros HE HC V1 V2 F1 F2 HL. split.
  - rewrite !first_result' by (assumption || discriminate). rewrite F1, F2. cbn [machine_of blk_machine mc_start mc_ar mc_au].
    destruct (mur32_start_lt (e_cw e) c HC) as (st & c0 & -> & Hst). unfold ab_au, mur32_ar. cbn [fst app].
    rewrite !(flood_rest flood32 4 2 t ltac:(lia) flood32_len).
    rewrite (flood_state (fun s => s < 2^32) Mur32_block flood32 4 2 ltac:(lia) flood32_len ltac:(intros; apply ADD_lt') flood32_block t bs1 bs2 st HL Hst).
    rewrite !app_length, !(flood_length flood32 _ flood32_len), HL. reflexivity.
  - intros HN E. rewrite F1, F2 in E. apply app_inv_tail in E. apply HN. revert E. now apply (flood_inj flood32 _ flood32_len).
Qed.

(* ---------- murmur3_128 ---------- *)
Definition flood128 (b : bool) : list N :=
  if b then [0x60; 0xa0; 0xfd; 0x21; 0x9e; 0x0e; 0xf2; 0xcd; 0x42; 0xe0; 0x98; 0xd3; 0x8e; 0xe8; 0x72; 0x8d;
             0x00; 0x00; 0x00; 0x00; 0x7d; 0x4d; 0xce; 0x82; 0; 0; 0; 0; 0; 0; 0; 0]
  else repeat 0 32.
Lemma flood128_k : Mur128_k1 0xcdf20e9e21fda060 = 2^36 /\ Mur128_k2 0x8d72e88ed398e042 = 2^32 /\ Mur128_k1 0x82ce4d7d00000000 = 2^63 /\ Mur128_k1 0 = 0 /\ Mur128_k2 0 = 0.
Proof. vm_compute. auto. Qed.
Definition add63 : forall y c, y < 2^64 -> ADD 64 (N.lxor y (2^63)) c = N.lxor (ADD 64 y c) (2^63) := flip_add 63.
Definition mul63 : forall y, y < 2^64 -> MUL 64 (N.lxor y (2^63)) 5 = N.lxor (MUL 64 y 5) (2^63) := fun y => flip_mul 63 y 2.
(* the block function on the words of the block *)
Definition core128 (a c : N) (k1 k2 : N) : N * N :=
  let h1 := ADD 64 (MUL 64 (ADD 64 (ROTL 64 27 (N.lxor a k1)) c) 5) 0x52dce729 in
  (h1, ADD 64 (MUL 64 (ADD 64 (ROTL 64 31 (N.lxor c k2)) h1) 5) 0x38495ab5).
Lemma block_core h b : Mur128_block h b = core128 (fst h) (snd h) (Mur128_k1 (LE (firstn 8 b))) (Mur128_k2 (LE (skipn 8 b))).
Proof. now destruct h. Qed.
Lemma core_flip a c : a < 2^64 -> c < 2^64 ->
  core128 a c (2^36) (2^32) = (N.lxor (fst (core128 a c 0 0)) (2^63), snd (core128 a c 0 0)).
Proof.
  intros Ha Hc. unfold core128. cbv zeta. cbn [fst snd]. rewrite !N.lxor_0_r.
  rewrite !rotl_xor by (assumption || reflexivity). change (ROTL 64 27 (2^36)) with (2^63). change (ROTL 64 31 (2^32)) with (2^63).
  rewrite (add63 (ROTL 64 27 a)) by (apply rotl_lt; [reflexivity|exact Ha]). rewrite mul63 by apply ADD_lt'. rewrite add63 by apply MUL_lt'.
  assert (Hu : ADD 64 (MUL 64 (ADD 64 (ROTL 64 27 a) c) 5) 0x52dce729 < 2^64) by apply ADD_lt'.
  revert Hu. generalize (ADD 64 (MUL 64 (ADD 64 (ROTL 64 27 a) c) 5) 0x52dce729). intros u Hu. f_equal.
  rewrite (add63 (ROTL 64 31 c)) by (apply rotl_lt; [reflexivity|exact Hc]).
  assert (Q : forall x, N.lxor (ADD 64 x (N.lxor u (2^63))) (2^63) = ADD 64 x u).
  { intros x. rewrite (ADD_comm' 64 x), add63 by exact Hu. rewrite N.lxor_assoc, N.lxor_nilpotent, N.lxor_0_r. apply ADD_comm'. }
  now rewrite Q.
Qed.
Lemma core_back a c k : core128 (N.lxor a k) c k 0 = core128 a c 0 0.
Proof. unfold core128. now rewrite N.lxor_assoc, N.lxor_nilpotent. Qed.
Lemma flood128_block b h : l2 h -> fold_left Mur128_block (chunks 16 (flood128 b)) h = fold_left Mur128_block (chunks 16 (flood128 false)) h.
Proof.
  intros [H1 H2]. destruct b; [|reflexivity]. destruct flood128_k as (K1 & K2 & K3 & K4 & K5).
  change (chunks 16 (flood128 true)) with [firstn 16 (flood128 true); skipn 16 (flood128 true)].
  change (chunks 16 (flood128 false)) with [repeat 0 16; repeat 0 16]. cbn [fold_left]. rewrite !block_core.
  change (LE (firstn 8 (firstn 16 (flood128 true)))) with 0xcdf20e9e21fda060. change (LE (skipn 8 (firstn 16 (flood128 true)))) with 0x8d72e88ed398e042.
  change (LE (firstn 8 (skipn 16 (flood128 true)))) with 0x82ce4d7d00000000. change (LE (skipn 8 (skipn 16 (flood128 true)))) with 0.
  change (LE (firstn 8 (repeat 0 16))) with 0. change (LE (skipn 8 (repeat 0 16))) with 0.
  rewrite K1, K2, K3, K4, K5. rewrite core_flip by assumption. cbn [fst snd]. apply core_back.
Qed.
Lemma flood128_len b : length (flood128 b) = (2 * 16)%nat. Proof. now destruct b. Qed.
Theorem C54_murmur128 e f c bs1 bs2 t cs1 cs2 : valid_env e -> valid_ctor c -> valid_pieces Amur128 cs1 -> valid_pieces Amur128 cs2 ->
  fed cs1 = flood flood128 bs1 ++ t -> fed cs2 = flood flood128 bs2 ++ t -> length bs1 = length bs2 ->
  runs e Amur128 f c (hash_pieces cs1) = runs e Amur128 f c (hash_pieces cs2) /\ (bs1 <> bs2 -> fed cs1 <> fed cs2).
Proof.
  intros HE HC V1 V2 F1 F2 HL. split.
  - rewrite !first_result' by (assumption || discriminate). rewrite F1, F2. cbn [machine_of blk_machine mc_start mc_ar mc_au].
    destruct (mur128_start_lt (e_cw e) c HC) as (st & c0 & -> & Hst). unfold ab_au, mur128_ar. cbn [fst app].
    rewrite !(flood_rest flood128 16 2 t ltac:(lia) flood128_len).
    rewrite (flood_state l2 Mur128_block flood128 16 2 ltac:(lia) flood128_len ltac:(intros; apply Mur128_block_lt) flood128_block t bs1 bs2 st HL Hst).
    rewrite !app_length, !(flood_length flood128 _ flood128_len), HL. reflexivity.
  - intros HN E. rewrite F1, F2 in E. apply app_inv_tail in E. apply HN. revert E. now apply (flood_inj flood128 _ flood128_len).
Qed.

(* ---------- as keys: std::vector<unsigned char>, or std::string, of those bytes ---------- *)
Definition byte_vector (l : list N) : val := VList (map (fun b => VInt (Z.of_N b)) l).
Lemma enc_one le b : b < 256 -> enc le 1 (Z.of_N b) = [b].
Proof.
  intros H. pose proof (C26_enc le 1 (Z.of_N b)) as (HL & HB & HV). destruct (enc le 1 (Z.of_N b)) as [|x [|? ?]]; try discriminate.
  assert (E : LE (if le then [x] else rev [x]) = x) by (destruct le; cbn; lia). rewrite E in HV. change (2 ^ (8 * Z.of_nat 1))%Z with 256%Z in HV.
  rewrite Z.mod_small in HV by lia. f_equal. lia.
Qed.
Lemma byte_message i f l q : bytes l -> message i f (TVec (TInt I8 false)) (byte_vector l) q = l ++ int_bytes f (fl_size f) (Z.of_nat (length l)).
Proof.
  intros Hb. unfold message, byte_vector. cbn [msg]. rewrite map_length. f_equal.
  - revert q. induction Hb as [|b l Hb Hl IH]; intros q; [reflexivity|]. cbn [map seq_msg]. rewrite IH. cbn [ibytes]. now rewrite enc_one.
  - unfold int_bytes. destruct (fl_order f); reflexivity.
Qed.
Lemma byte_key_ok e a c l : nul_of a = true -> valid_ctor c -> bytes l -> valid_program e a c [SAppend (TVec (TInt I8 false)) (byte_vector l); SResult].
Proof.
  intros HN HC Hb. split; [exact HC|]. constructor; [|constructor; [exact I|constructor]]. split.
  - cbn. apply Forall_map. eapply Forall_impl; [|exact Hb]. intros b H. cbn beta in H |- *. unfold in_int. cbn. lia.
  - intros _. now left.
Qed.
(* such keys collide for every seed if their bytes do *)
Lemma byte_keys e a f c l1 l2 : valid_env e -> valid_ctor c -> nul_of a = true -> a <> Aspooky -> bytes l1 -> bytes l2 ->
  (forall t cs1 cs2, valid_pieces a cs1 -> valid_pieces a cs2 -> bytes t -> length t = ibytes (fl_size f) ->
     t = int_bytes f (fl_size f) (Z.of_nat (length l1)) ->
     fed cs1 = l1 ++ t -> fed cs2 = l2 ++ t -> runs e a f c (hash_pieces cs1) = runs e a f c (hash_pieces cs2)) ->
  length l1 = length l2 ->
  runs e a f c [SAppend (TVec (TInt I8 false)) (byte_vector l1); SResult] = runs e a f c [SAppend (TVec (TInt I8 false)) (byte_vector l2); SResult].
Proof.
  intros HE HC HNu HA B1 B2 H HL. set (t := int_bytes f (fl_size f) (Z.of_nat (length l1))).
  assert (Bt : bytes t /\ length t = ibytes (fl_size f)).
  { unfold t, int_bytes. destruct (fl_order f); split; apply enc_bytes || apply enc_length. }
  assert (HR : forall xs, room e a c xs) by (intros xs; unfold room, roomy; destruct a; try exact I; contradiction).
  assert (G : forall l, bytes l -> length l = length l1 ->
    runs e a f c [SAppend (TVec (TInt I8 false)) (byte_vector l); SResult] = runs e a f c (hash_pieces [(Ptr (l ++ t), length (l ++ t))])).
  { intros l Bl Ll. destruct (append_feeds_ordered e a f c [] (TVec (TInt I8 false)) (byte_vector l) [SResult] (fun _ => 0) HE I (byte_key_ok e a c l HNu HC Bl) (HR _)) as (rs & E1 & E2).
    cbn [app] in E1, E2. rewrite E1, <- E2. rewrite byte_message by exact Bl. rewrite Ll. fold t. reflexivity. }
  assert (VP : forall l, bytes l -> valid_pieces a [(Ptr (l ++ t), length (l ++ t))]).
  { intros l Bl. constructor; [|constructor]. split; [cbn; lia|]. cbn. apply bytes_app. tauto. }
  assert (FD : forall m, fed [(Ptr m, length m)] = m) by (intros m; cbn; now rewrite app_nil_r, firstn_all).
  rewrite (G l1 B1 eq_refl), (G l2 B2 (eq_sym HL)). apply (H t); try tauto; [now apply VP|now apply VP|apply FD|apply FD].
Qed.
Lemma flood_bytes blk bs : (forall b, bytes (blk b)) -> bytes (flood blk bs).
Proof. intros H. unfold flood. induction bs as [|b bs IH]; [constructor|]. cbn [map concat]. apply bytes_app. split; [apply H|exact IH]. Qed.
Theorem C54_murmur32_keys e f c bs1 bs2 : valid_env e -> valid_ctor c -> length bs1 = length bs2 ->
  runs e Amur32 f c [SAppend (TVec (TInt I8 false)) (byte_vector (flood flood32 bs1)); SResult] =
  runs e Amur32 f c [SAppend (TVec (TInt I8 false)) (byte_vector (flood flood32 bs2)); SResult].
Proof.
  intros HE HC HL. apply byte_keys; try assumption; try reflexivity; try discriminate.
  - apply flood_bytes. intros []; repeat constructor.
  - apply flood_bytes. intros []; repeat constructor.
  - intros t cs1 cs2 V1 V2 _ _ _ F1 F2. now apply (C54_murmur32 e f c bs1 bs2 t).
  - now rewrite !(flood_length flood32 _ flood32_len), HL.
Qed.
Theorem C54_murmur128_keys e f c bs1 bs2 : valid_env e -> valid_ctor c -> length bs1 = length bs2 ->
  runs e Amur128 f c [SAppend (TVec (TInt I8 false)) (byte_vector (flood flood128 bs1)); SResult] =
  runs e Amur128 f c [SAppend (TVec (TInt I8 false)) (byte_vector (flood flood128 bs2)); SResult].
Proof.
  intros HE HC HL. apply byte_keys; try assumption; try reflexivity; try discriminate.
  - apply flood_bytes. intros []; repeat constructor.
  - apply flood_bytes. intros []; repeat constructor.
  - intros t cs1 cs2 V1 V2 _ _ _ F1 F2. now apply (C54_murmur128 e f c bs1 bs2 t).
  - now rewrite !(flood_length flood128 _ flood128_len), HL.
Qed.
(* the keys are distinct: there are 2^n of them, of 8n (32n) bytes *)
Theorem C54_distinct bs1 bs2 : length bs1 = length bs2 -> bs1 <> bs2 ->
  byte_vector (flood flood32 bs1) <> byte_vector (flood flood32 bs2) /\ byte_vector (flood flood128 bs1) <> byte_vector (flood flood128 bs2).
Proof.
  assert (BI : forall l1 l2, byte_vector l1 = byte_vector l2 -> l1 = l2).
  { intros l1 l2 E. injection E as E. revert l2 E. induction l1 as [|x l1 IH]; intros [|y l2] E; try discriminate; [reflexivity|].
    cbn in E. injection E as E1 E2. apply IH in E2. apply N2Z.inj in E1. congruence. }
  intros HL HN. split; intros E; apply BI in E; apply HN; revert E; [now apply (flood_inj flood32 _ flood32_len)|now apply (flood_inj flood128 _ flood128_len)].
Qed.
Example C54_murmur32_keys_ex : exists r, forall bs, length bs = 3%nat ->
  runs env_pc Amur32 le_flavor (CSeed 0x123456789) [SAppend (TVec (TInt I8 false)) (byte_vector (flood flood32 bs)); SResult] = Ok [r].
Proof.
  eexists. intros bs Hb. rewrite (C54_murmur32_keys env_pc le_flavor (CSeed 0x123456789) bs [true; false; true] env_pc_valid ltac:(ok) Hb). vm_compute. reflexivity.
Qed.
Example C54_murmur128_keys_ex : exists r, forall bs, length bs = 2%nat ->
  runs env_be Amur128 le_flavor (CBytes (Ptr [1; 2; 3]) 3) [SAppend (TVec (TInt I8 false)) (byte_vector (flood flood128 bs)); SResult] = Ok [r].
Proof.
  eexists. intros bs Hb. rewrite (C54_murmur128_keys env_be le_flavor (CBytes (Ptr [1; 2; 3]) 3) bs [true; false] env_be_valid ltac:(ok) Hb). vm_compute. reflexivity.
Qed.

(* C53, xxhash_64: two keys of 32 bytes that differ in one bit, with the same hash (default seed) *)
From Verif Require Import PropsLocal64.
Theorem C53_xxh64_keys_refuted e f : valid_env e ->
  byte_vector stripe_a <> byte_vector stripe_b /\
  runs e Axx64 f CDefault [SAppend (TVec (TInt I8 false)) (byte_vector stripe_a); SResult] =
  runs e Axx64 f CDefault [SAppend (TVec (TInt I8 false)) (byte_vector stripe_b); SResult].
Proof.
  intros HE. split; [discriminate|]. apply byte_keys; try assumption; try reflexivity; try discriminate.
  - repeat constructor.
  - repeat constructor.
  - intros t cs1 cs2 V1 V2 _ Lt _ F1 F2. apply (proj2 C53_xxh64_stripe_refuted e f cs1 cs2 t); try assumption. rewrite Lt. destruct (fl_size f); cbn; lia.
Qed.

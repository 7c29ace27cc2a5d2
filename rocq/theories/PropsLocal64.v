(* C53, xxhash_64: a change confined to one unit of the last, incomplete stripe always changes the result;
   a change of one 8-byte lane of a complete stripe need not. *)
From Verif Require Import Base BaseFacts SpecCommon Gen Bits GenMD Hasher GenBlk Types ModelResult ModelAppend SpecAppend
  Behaves Instances ProofRuns Samples PropsHistory PropsAlg PropsAppend PropsSeeds PropsPrims ProofLocal PropsLocal.
From Verif Require Import SpecXxh ProofXxh ProofSpooky.
Open Scope N_scope.

Definition unit8 (p L : nat) : Prop := L = 1%nat \/ (L = 4%nat /\ (p mod 4 = 0)%nat) \/ (L = 8%nat /\ (p mod 8 = 0)%nat).

Lemma XXH64_round_inj' a x y : x < 2^64 -> y < 2^64 -> XXH64_round a x = XXH64_round a y -> x = y.
Proof.
  intros Hx Hy E. unfold XXH64_round in E.
  apply (mul_inj 64 _ 0x887493432badb37) in E; [|reflexivity|apply rotl_lt; [reflexivity|apply ADD_lt']|apply rotl_lt; [reflexivity|apply ADD_lt']].
  apply rotl_inj in E; [|reflexivity|apply ADD_lt'|apply ADD_lt']. apply add_inj_l in E; [|apply MUL_lt'|apply MUL_lt'].
  now apply (mul_inj 64 _ 0xba79078168d4baf) in E.
Qed.
Lemma XXH64_round_lt a x : XXH64_round a x < 2^64. Proof. apply MUL_lt'. Qed.
Lemma XXH64_dword_inj a1 w1 a2 w2 : a1 < 2^64 -> a2 < 2^64 -> XXH64_dword a1 w1 = XXH64_dword a2 w2 ->
  N.lxor a1 (XXH64_round 0 (LE w1)) = N.lxor a2 (XXH64_round 0 (LE w2)).
Proof.
  intros L1 L2 E. unfold XXH64_dword in E.
  assert (X1 : N.lxor a1 (XXH64_round 0 (LE w1)) < 2^64) by (apply lxor_lt; [exact L1|apply XXH64_round_lt]).
  assert (X2 : N.lxor a2 (XXH64_round 0 (LE w2)) < 2^64) by (apply lxor_lt; [exact L2|apply XXH64_round_lt]).
  apply add_inj_r in E; [|apply MUL_lt'|apply MUL_lt'].
  apply (mul_inj 64 _ 0x887493432badb37) in E; [|reflexivity|apply rotl_lt; [reflexivity|assumption]|apply rotl_lt; [reflexivity|assumption]].
  apply rotl_inj in E; [exact E|reflexivity|assumption|assumption].
Qed.
Lemma XXH64_word_inj a1 w1 a2 w2 : a1 < 2^64 -> a2 < 2^64 -> XXH64_word a1 w1 = XXH64_word a2 w2 ->
  N.lxor a1 (MUL 64 (LE w1) PRIME64_1) = N.lxor a2 (MUL 64 (LE w2) PRIME64_1).
Proof.
  intros L1 L2 E. unfold XXH64_word in E.
  assert (X1 : N.lxor a1 (MUL 64 (LE w1) PRIME64_1) < 2^64) by (apply lxor_lt; [exact L1|apply MUL_lt']).
  assert (X2 : N.lxor a2 (MUL 64 (LE w2) PRIME64_1) < 2^64) by (apply lxor_lt; [exact L2|apply MUL_lt']).
  apply add_inj_r in E; [|apply MUL_lt'|apply MUL_lt'].
  apply (mul_inj 64 _ 0xba79078168d4baf) in E; [|reflexivity|apply rotl_lt; [reflexivity|assumption]|apply rotl_lt; [reflexivity|assumption]].
  apply rotl_inj in E; [exact E|reflexivity|assumption|assumption].
Qed.
Lemma XXH64_byte_inj a1 b1 a2 b2 : a1 < 2^64 -> a2 < 2^64 -> XXH64_byte a1 b1 = XXH64_byte a2 b2 ->
  N.lxor a1 (MUL 64 b1 PRIME64_5) = N.lxor a2 (MUL 64 b2 PRIME64_5).
Proof.
  intros L1 L2 E. unfold XXH64_byte in E.
  assert (X1 : N.lxor a1 (MUL 64 b1 PRIME64_5) < 2^64) by (apply lxor_lt; [exact L1|apply MUL_lt']).
  assert (X2 : N.lxor a2 (MUL 64 b2 PRIME64_5) < 2^64) by (apply lxor_lt; [exact L2|apply MUL_lt']).
  apply (mul_inj 64 _ 0x887493432badb37) in E; [|reflexivity|apply rotl_lt; [reflexivity|assumption]|apply rotl_lt; [reflexivity|assumption]].
  apply rotl_inj in E; [exact E|reflexivity|assumption|assumption].
Qed.
(* what is left after the 8-byte lanes *)
Definition tail7 (s : N) (t : list N) : N := fold_left XXH64_byte (rest 4 t) (fold_left XXH64_word (chunks 4 t) s).
Lemma XXH64_bytes_states : forall l s1 s2, s1 < 2^64 -> s2 < 2^64 -> fold_left XXH64_byte l s1 = fold_left XXH64_byte l s2 -> s1 = s2.
Proof.
  intros l s1 s2. apply (fold_states (fun s => s < 2^64) XXH64_byte).
  - intros. apply MUL_lt'.
  - intros x y b X Y E. apply XXH64_byte_inj in E; [|assumption|assumption]. now apply lxor_inj_r in E.
Qed.
Lemma XXH64_words_lt ds : forall s, s < 2^64 -> fold_left XXH64_word ds s < 2^64.
Proof. induction ds as [|d ds IH]; intros s Hs; [exact Hs|]. cbn [fold_left]. apply IH, ADD_lt'. Qed.
Lemma XXH64_dwords_lt ds : forall s, s < 2^64 -> fold_left XXH64_dword ds s < 2^64.
Proof. induction ds as [|d ds IH]; intros s Hs; [exact Hs|]. cbn [fold_left]. apply IH, ADD_lt'. Qed.
Lemma XXH64_bytes_lt ds : forall s, s < 2^64 -> fold_left XXH64_byte ds s < 2^64.
Proof. induction ds as [|d ds IH]; intros s Hs; [exact Hs|]. cbn [fold_left]. apply IH, MUL_lt'. Qed.
Lemma tail7_states s1 s2 t : s1 < 2^64 -> s2 < 2^64 -> tail7 s1 t = tail7 s2 t -> s1 = s2.
Proof.
  intros L1 L2 E. unfold tail7 in E. apply XXH64_bytes_states in E; [|now apply XXH64_words_lt|now apply XXH64_words_lt].
  revert E. apply (fold_states (fun s => s < 2^64) XXH64_word); try assumption.
  - intros. apply ADD_lt'.
  - intros x y b X Y E. apply XXH64_word_inj in E; [|assumption|assumption]. now apply lxor_inj_r in E.
Qed.
Lemma tail7_local p L s t1 t2 : s < 2^64 -> bytes t1 -> bytes t2 -> unit4 p L -> (p + L <= length t1)%nat -> differ_at p L t1 t2 ->
  tail7 s t1 <> tail7 s t2.
Proof.
  intros Hs B1 B2 HU HF HD. unfold tail7.
  apply (detect 4 (p mod 4) L ltac:(lia) ltac:(destruct HU as [->|[-> ?]]; lia) True (fun s => s < 2^64) (fun s1 s2 => s1 <> s2)
           XXH64_word (fun s t => fold_left XXH64_byte t s)) with (p := p); try assumption; try easy.
  - intros. apply ADD_lt'.
  - intros s1 s2 b P1 P2 HN _ _ E. apply XXH64_word_inj in E; [|assumption|assumption]. now apply lxor_inj_r in E.
  - intros x b1 b2 Px C1 C2 Hl HX E. apply differ_neq in HX. destruct HX as [HL HN]. apply XXH64_word_inj in E; [|assumption|assumption].
    apply lxor_inj_l in E.
    apply (mul_inj 64 _ 0x887493432badb37) in E; [|reflexivity|apply LE_lt64; [assumption|lia]|apply LE_lt64; [assumption|lia]]. now apply LE_inj in E.
  - intros s1 s2 b P1 P2 HN _ _ E. now apply XXH64_bytes_states in E.
  - intros x b1 b2 Px C1 C2 Hl HX HF'. destruct HU as [->|[-> HU]]; [|specialize (HF' I); lia].
    apply (fold_byte (fun s => s < 2^64) XXH64_byte) with (p := (p mod 4)%nat); try assumption.
    + intros. apply MUL_lt'.
    + intros u v b X Y E. apply XXH64_byte_inj in E; [|assumption|assumption]. now apply lxor_inj_r in E.
    + intros u y1 y2 U Y1 Y2 E. apply XXH64_byte_inj in E; [|assumption|assumption]. apply lxor_inj_l in E.
      apply (mul_inj 64 _ 0xc592c09fdfba7f0d) in E; [exact E|reflexivity|now apply byte_lt|now apply byte_lt].
Qed.
Lemma XXH64_consume_local p L s t1 t2 : s < 2^64 -> bytes t1 -> bytes t2 -> unit8 p L -> (p + L <= length t1)%nat -> differ_at p L t1 t2 ->
  XXH64_consume s t1 <> XXH64_consume s t2.
Proof.
  intros Hs B1 B2 HU HF HD. change (tail7 (fold_left XXH64_dword (chunks 8 t1) s) (rest 8 t1) <> tail7 (fold_left XXH64_dword (chunks 8 t2) s) (rest 8 t2)).
  apply (detect 8 (p mod 8) L ltac:(lia) ltac:(destruct HU as [->|[[-> ?]|[-> ?]]]; lia) True (fun s => s < 2^64) (fun s1 s2 => s1 <> s2)
           XXH64_dword tail7) with (p := p); try assumption; try easy.
  - intros. apply ADD_lt'.
  - intros s1 s2 b P1 P2 HN _ _ E. apply XXH64_dword_inj in E; [|assumption|assumption]. now apply lxor_inj_r in E.
  - intros x b1 b2 Px C1 C2 Hl HX E. apply differ_neq in HX. destruct HX as [HL HN]. apply XXH64_dword_inj in E; [|assumption|assumption].
    apply lxor_inj_l in E. apply XXH64_round_inj' in E; [|apply LE_lt64; [assumption|lia]|apply LE_lt64; [assumption|lia]]. now apply LE_inj in E.
  - intros s1 s2 b P1 P2 HN _ _ E. now apply tail7_states in E.
  - intros x b1 b2 Px C1 C2 Hl HX HF'. apply (tail7_local (p mod 8) L); try assumption; [|now apply HF'].
    specialize (HF' I). destruct HU as [->|[[-> ?]|[-> ?]]]; [now left|right; split; [reflexivity|lia]|lia].
Qed.
Lemma XXH64_consume_lt s t : s < 2^64 -> XXH64_consume s t < 2^64.
Proof. intros Hs. unfold XXH64_consume. cbv zeta. now apply XXH64_bytes_lt, XXH64_words_lt, XXH64_dwords_lt. Qed.
Lemma same_full B p L (m1 m2 : list N) : (0 < B)%nat -> (B * (length m1 / B) <= p)%nat -> (p + L <= length m1)%nat -> differ_at p L m1 m2 ->
  chunks B m1 = chunks B m2 /\ differ_at (p - B * (length m1 / B)) L (rest B m1) (rest B m2).
Proof.
  intros HB Hp HF HD. pose proof (differ_lt _ _ _ _ HD) as HLt. destruct HD as (HL & HN & E1 & E2).
  set (q := (B * (length m1 / B))%nat) in *.
  assert (EF : firstn q m1 = firstn q m2) by (replace q with (Nat.min q p) by lia; rewrite <- !firstn_firstn; now rewrite E1).
  split; [apply chunks_same; [exact HB|now rewrite HL|rewrite <- HL; exact EF]|]. unfold rest. rewrite <- HL. fold q.
  split; [rewrite !skipn_length; lia|]. split; [intros E; apply HN; now apply (firstn_skipn_inj q)|]. split.
  - rewrite !firstn_skipn_comm. replace (q + (p - q))%nat with p by lia. now rewrite E1.
  - rewrite !skipn_twice. replace (p - q + L + q)%nat with (p + L)%nat by lia. exact E2.
Qed.
Lemma xx64_local n p L v m1 m2 : unit8 p L -> bytes m1 -> bytes m2 -> (32 * (length m1 / 32) <= p)%nat ->
  (p + L <= length m1)%nat -> differ_at p L m1 m2 ->
  XXH64_avalanche (xx64_acc (fold_left XXH64_stripe (chunks 32 m1) v) n (rest 32 m1)) <>
  XXH64_avalanche (xx64_acc (fold_left XXH64_stripe (chunks 32 m2) v) n (rest 32 m2)).
Proof.
  intros HU B1 B2 Hp HF HD. destruct (same_full 32 p L m1 m2 ltac:(lia) Hp HF HD) as [EC HR]. rewrite <- EC.
  generalize (fold_left XXH64_stripe (chunks 32 m1) v). intros [[[v1 v2] v3] v4] E. unfold xx64_acc in E.
  apply XXH64_avalanche_inj in E; [|apply XXH64_consume_lt, ADD_lt'|apply XXH64_consume_lt, ADD_lt']. revert E.
  apply (XXH64_consume_local (p - 32 * (length m1 / 32)) L); try assumption; [apply ADD_lt'|now apply rest_bytes|now apply rest_bytes| |].
  - destruct HU as [->|[[-> ?]|[-> ?]]]; [now left|right; left; split; [reflexivity|lia]|right; right; split; [reflexivity|lia]].
  - rewrite (rest_length 32 ltac:(lia)). lia.
Qed.
Lemma xx64_start_nil cw c : exists v k, xx64_start cw c = (v, k, []).
Proof.
  destruct c as [|s|p n]; cbn [xx64_start]; [now do 2 eexists|now do 2 eexists|]. destruct (Nat.eqb n 0); [now do 2 eexists|].
  unfold xx64_ar. destruct (fold_left XXH64_stripe _ _) as [[[v1 v2] v3] v4]. cbn [snd]. now do 2 eexists.
Qed.
Theorem C53_xxh64_tail e f c cs1 cs2 p L : valid_env e -> valid_ctor c -> valid_pieces Axx64 cs1 -> valid_pieces Axx64 cs2 ->
  (32 * (length (fed cs1) / 32) <= p)%nat ->
  unit8 p L -> (p + L <= length (fed cs1))%nat -> differ_at p L (fed cs1) (fed cs2) -> distinguished e Axx64 f c (hash_pieces cs1) (hash_pieces cs2).
Proof.
  intros HE HC V1 V2 HT HU HF HD. apply distinguished_by; try assumption; [discriminate|].
  cbn [machine_of blk_machine mc_start mc_ar mc_au]. destruct (xx64_start_nil (2^64) c) as (v & k & ->). unfold ab_au, xx64_ar. cbn [app].
  intros E. assert (E' := f_equal (fun r => match r with RInt _ d => d | _ => 0 end) E). cbn beta iota in E'. clear E.
  rewrite <- (proj1 (differ_neq _ _ _ _ HD)) in E'.
  pose proof (xx64_local ((k + N.of_nat (length (fed cs1))) mod 2^64) p L v (fed cs1) (fed cs2) HU (pieces_bytes _ _ V1) (pieces_bytes _ _ V2) HT HF HD) as HL.
  revert E' HL. destruct (fold_left XXH64_stripe (chunks 32 (fed cs1)) v) as [[[x1 x2] x3] x4].
  destruct (fold_left XXH64_stripe (chunks 32 (fed cs2)) v) as [[[y1 y2] y3] y4]. cbn [fst]. auto.
Qed.

(* Inside a complete stripe the claim fails: these two messages of 32 bytes differ in one bit (bit 3 of
   byte 3) and no result of a default-constructed xxhash_64 tells them apart, whatever the fewer than 32
   bytes that follow. *)
Definition stripe_a : list N := [0x2d; 0xd2; 0xcd; 0x51; 0xa7; 0x38; 0xf0; 0xcd; 0xc9; 0x5c; 0xe1; 0x35; 0x27; 0xf6; 0x57; 0x9e;
  0; 0; 0; 0; 0; 0; 0; 0; 0; 0; 0; 0; 0; 0; 0; 0].
Definition stripe_b : list N := [0x2d; 0xd2; 0xcd; 0x59; 0xa7; 0x38; 0xf0; 0xcd; 0xc9; 0x5c; 0xe1; 0x35; 0x27; 0xf6; 0x57; 0x9e;
  0; 0; 0; 0; 0; 0; 0; 0; 0; 0; 0; 0; 0; 0; 0; 0].
Lemma stripes_same_hash : XXH64 0 stripe_a = XXH64 0 stripe_b /\ stripe_a <> stripe_b.
Proof. split; [vm_compute; reflexivity|discriminate]. Qed.
Lemma stripe_one (m t : list N) : length m = 32%nat -> (length t < 32)%nat -> chunks 32 (m ++ t) = [m] /\ rest 32 (m ++ t) = t.
Proof.
  intros H1 H2. rewrite (chunks_block 32 ltac:(lia) m t H1), (rest_block 32 ltac:(lia) m t H1), (chunks_short 32 ltac:(lia) t H2), (rest_short 32 t H2). auto.
Qed.
Lemma converge_same : XXH64_converge (XXH64_stripe (XXH64_init 0) stripe_a) = XXH64_converge (XXH64_stripe (XXH64_init 0) stripe_b).
Proof. vm_compute. reflexivity. Qed.
Lemma acc_by_converge v w n t : 32 <= n -> XXH64_converge v = XXH64_converge w -> xx64_acc v n t = xx64_acc w n t.
Proof.
  intros Hn E. unfold xx64_acc. destruct (N.ltb_spec n 32); [lia|]. destruct v as [[[v1 v2] v3] v4], w as [[[w1 w2] w3] w4]. now rewrite E.
Qed.
Lemma first64 (v : XXH_acc) c l cw : fst (xx64_ar cw (v, c, l)) =
  XXH64_avalanche (xx64_acc (fold_left XXH64_stripe (chunks 32 l) v) ((c + N.of_nat (length l)) mod cw) (rest 32 l)).
Proof. unfold xx64_ar. now destruct (fold_left XXH64_stripe (chunks 32 l) v) as [[[v1 v2] v3] v4]. Qed.
Lemma first64_stripe v m t : length m = 32%nat -> (length t < 32)%nat ->
  fst (xx64_ar (2^64) (v, 0, m ++ t)) = XXH64_avalanche (xx64_acc (XXH64_stripe v m) (32 + N.of_nat (length t)) t).
Proof.
  intros Hm Ht. destruct (stripe_one m t Hm Ht) as [HC HR]. rewrite first64, HC, HR. cbn [fold_left]. rewrite app_length, Hm.
  replace ((0 + N.of_nat (32 + length t)) mod 2^64) with (32 + N.of_nat (length t)); [reflexivity|]. symmetry.
  assert (2^8 <= 2^64) by (apply N.pow_le_mono_r; lia). change (2^8) with 256 in *. rewrite N.mod_small; lia.
Qed.
Theorem C53_xxh64_stripe_refuted : differ_at 3 1 stripe_a stripe_b /\
  forall e f cs1 cs2 t, valid_env e -> valid_pieces Axx64 cs1 -> valid_pieces Axx64 cs2 ->
  fed cs1 = stripe_a ++ t -> fed cs2 = stripe_b ++ t -> (length t < 32)%nat ->
  runs e Axx64 f CDefault (hash_pieces cs1) = runs e Axx64 f CDefault (hash_pieces cs2).
Proof.
  split; [repeat split; discriminate|]. intros e f cs1 cs2 t HE V1 V2 F1 F2 Ht.
  rewrite !first_result' by (assumption || exact I || discriminate). rewrite F1, F2.
  cbn [machine_of blk_machine mc_start mc_ar mc_au xx64_start]. unfold ab_au. cbn [app].
  assert (Q : fst (xx64_ar (2^64) (XXH64_init 0, 0, stripe_a ++ t)) = fst (xx64_ar (2^64) (XXH64_init 0, 0, stripe_b ++ t))).
  { rewrite !first64_stripe by (reflexivity || exact Ht). apply (f_equal XXH64_avalanche). apply acc_by_converge; [clear; lia|exact converge_same]. }
  destruct (xx64_ar (2^64) (XXH64_init 0, 0, stripe_a ++ t)) as [x ?], (xx64_ar (2^64) (XXH64_init 0, 0, stripe_b ++ t)) as [y ?].
  cbn [fst] in *. now rewrite Q.
Qed.

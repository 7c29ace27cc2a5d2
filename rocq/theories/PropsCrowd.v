(* C57: xxhash_32 and xxhash_64: for every seed, 3^n fixed messages have at most 2^n different hashes.
   (doc/hash2/hashing_bytes.adoc:79-94 recommends random seeds against hash flooding.) *)
From Verif Require Import Base BaseFacts SpecCommon Gen Bits GenMD Hasher GenBlk Types ModelResult ModelAppend SpecAppend ProofMsg ProofMsgEq
  Behaves Instances ProofRuns Samples PropsHistory PropsAlg PropsAppend PropsSeeds PropsPrims ProofLocal PropsLocal PropsLocal64 ProofMurmurDistinct PropsLong PropsFlood.
From Verif Require Import SpecXxh ProofXxh.
Open Scope N_scope.

(* ---------- two rounds of an accumulator ---------- *)
Section Cross.
Variables w' r s P1 P2 d kb kc : N.
Notation w := (N.succ w').
Definition two_rounds (a k1 k2 : N) : N :=
  let R a k := MUL w (ROTL w r (ADD w a (MUL w k P2))) P1 in R (R a k1) k2.
Hypothesis Hr : r < w.
Hypothesis Hs : s < w.
Hypothesis Hd : MUL w d P2 = 2^w'.
Hypothesis Hrot : ROTL w r (2^w') = 2^s.
Hypothesis Hb : (MUL w kb P2 + 2^s * P1) mod 2^w = 0.
Hypothesis Hc : MUL w kc P2 = (2^s * P1) mod 2^w.
Lemma lxor_bit y : N.testbit y s = false -> N.lxor y (2^s) = y + 2^s.
Proof.
  intros H. symmetry. apply N.add_nocarry_lxor. apply N.bits_inj. intros i. rewrite N.land_spec, N.bits_0.
  destruct (N.eq_dec i s) as [->|G]; [now rewrite H|]. rewrite N.pow2_bits_false by congruence. apply andb_false_r.
Qed.
Lemma cross a : two_rounds a d kb = two_rounds a 0 0 \/ two_rounds a d kc = two_rounds a 0 0.
Proof.
  unfold two_rounds. cbv beta zeta. assert (NZ : 2^w <> 0) by (apply N.pow_nonzero; discriminate).
  set (x := a mod 2^w). assert (Hx : x < 2^w) by now apply N.mod_lt.
  replace (ADD w a (MUL w 0 P2)) with x by (unfold ADD, MUL; now rewrite N.mul_0_l, N.mod_0_l, N.add_0_r by exact NZ).
  replace (ADD w a (MUL w d P2)) with (N.lxor x (2^w')) by (rewrite Hd, flip_top by exact Hx; unfold ADD, x; now rewrite N.add_mod_idemp_l by exact NZ).
  assert (H2 : 2^w' < 2^w) by (apply N.pow_lt_mono_r; lia).
  rewrite rotl_xor by assumption. rewrite Hrot. set (y := ROTL w r x). assert (Hy : y < 2^w) by (apply rotl_lt; assumption).
  assert (E0 : ADD w (MUL w y P1) (MUL w 0 P2) = (y * P1) mod 2^w).
  { unfold ADD, MUL. rewrite N.mul_0_l, N.mod_0_l, N.add_0_r, N.mod_mod by exact NZ. reflexivity. }
  destruct (N.testbit y s) eqn:T.
  - right. do 2 f_equal. rewrite E0. set (z := N.lxor y (2^s)). assert (Ey : y = z + 2^s).
    { rewrite <- lxor_bit; [unfold z; now rewrite N.lxor_assoc, N.lxor_nilpotent, N.lxor_0_r|]. unfold z. now rewrite N.lxor_spec, T, N.pow2_bits_true. }
    rewrite Ey, Hc. unfold ADD, MUL. rewrite N.add_mod_idemp_l, N.add_mod_idemp_r by exact NZ. f_equal. lia.
  - left. do 2 f_equal. rewrite E0, lxor_bit by exact T. unfold ADD. unfold MUL at 1. rewrite N.add_mod_idemp_l by exact NZ.
    rewrite N.mul_add_distr_r, <- N.add_assoc, (N.add_comm (2^s * P1)), N.add_mod, Hb, N.add_0_r, N.mod_mod by exact NZ. reflexivity.
Qed.
End Cross.

(* ---------- the messages ---------- *)
Inductive choice := A | B | C.
Definition crowd (blk : choice -> list N) (xs : list choice) : list N := concat (map blk xs).
(* 64 bytes: one lane of two stripes *)
Definition crowd64 (x : choice) : list N :=
  match x with
  | A => repeat 0 64
  | B => [0; 0; 0; 0; 0; 0; 0; 0x80] ++ repeat 0 24 ++ [0; 0; 0; 0xc0; 0x2d; 0; 0x48; 0xce] ++ repeat 0 24
  | C => [0; 0; 0; 0; 0; 0; 0; 0x80] ++ repeat 0 24 ++ [0; 0; 0; 0x40; 0xd2; 0xff; 0xb7; 0x31] ++ repeat 0 24
  end.
(* 32 bytes *)
Definition crowd32 (x : choice) : list N :=
  match x with
  | A => repeat 0 32
  | B => [0; 0; 0; 0x80] ++ repeat 0 12 ++ [0; 0x90; 0x0e; 0xcc] ++ repeat 0 12
  | C => [0; 0; 0; 0x80] ++ repeat 0 12 ++ [0; 0x70; 0xf1; 0x33] ++ repeat 0 12
  end.
Definition cross64 : forall a, _ \/ _ := cross 63 31 30 PRIME64_1 PRIME64_2 (2^63) 0xce48002dc0000000 0x31b7ffd240000000
  eq_refl eq_refl eq_refl eq_refl eq_refl eq_refl.
Definition cross32 : forall a, _ \/ _ := cross 31 13 12 PRIME32_1 PRIME32_2 (2^31) 0xcc0e9000 0x33f17000
  eq_refl eq_refl eq_refl eq_refl eq_refl eq_refl.

Definition block64 (v : XXH_acc) (x : choice) : XXH_acc := fold_left XXH64_stripe (chunks 32 (crowd64 x)) v.
Definition block32 (v : XXH_acc) (x : choice) : XXH_acc := fold_left XXH32_stripe (chunks 16 (crowd32 x)) v.
Definition zz64 (a : N) : N := XXH64_round (XXH64_round a 0) 0.
Definition zz32 (a : N) : N := XXH32_round (XXH32_round a 0) 0.
Lemma block64_lanes x a1 a2 a3 a4 : block64 (a1, a2, a3, a4) x =
  (match x with A => XXH64_round (XXH64_round a1 0) 0 | B => XXH64_round (XXH64_round a1 (2^63)) 0xce48002dc0000000
   | C => XXH64_round (XXH64_round a1 (2^63)) 0x31b7ffd240000000 end, zz64 a2, zz64 a3, zz64 a4).
Proof. destruct x; reflexivity. Qed.
Lemma block32_lanes x a1 a2 a3 a4 : block32 (a1, a2, a3, a4) x =
  (match x with A => XXH32_round (XXH32_round a1 0) 0 | B => XXH32_round (XXH32_round a1 (2^31)) 0xcc0e9000
   | C => XXH32_round (XXH32_round a1 (2^31)) 0x33f17000 end, zz32 a2, zz32 a3, zz32 a4).
Proof. destruct x; reflexivity. Qed.
Lemma block64_cross v : block64 v B = block64 v A \/ block64 v C = block64 v A.
Proof.
  destruct v as [[[a1 a2] a3] a4]. rewrite !block64_lanes.
  destruct (cross64 a1) as [E|E]; [left|right]; apply (f_equal (fun z => (z, _, _, _))); exact E.
Qed.
Lemma block32_cross v : block32 v B = block32 v A \/ block32 v C = block32 v A.
Proof.
  destruct v as [[[a1 a2] a3] a4]. rewrite !block32_lanes.
  destruct (cross32 a1) as [E|E]; [left|right]; apply (f_equal (fun z => (z, _, _, _))); exact E.
Qed.

(* ---------- sequences of blocks ---------- *)
(* the messages with block i equal to A or to s_i *)
Fixpoint pick (s : list choice) (bs : list bool) : list choice :=
  match s, bs with x :: s, b :: bs => (if b then x else A) :: pick s bs | _, _ => [] end.
Section Blocks.
Context {St : Type} (block : St -> choice -> St).
Hypothesis Hcross : forall v, block v B = block v A \/ block v C = block v A.
Lemma other v : exists x, x <> A /\ block v x = block v A.
Proof. destruct (Hcross v) as [E|E]; [exists B|exists C]; split; congruence. Qed.
Lemma chosen n : forall v, exists s, length s = n /\ Forall (fun x => x <> A) s /\
  forall bs, length bs = n -> fold_left block (pick s bs) v = fold_left block (repeat A n) v.
Proof.
  induction n as [|n IH]; intros v.
  - exists []. split; [reflexivity|]. split; [constructor|]. intros [|]; [reflexivity|discriminate].
  - destruct (other v) as (x & HX & E). destruct (IH (block v A)) as (s & L & F & HS). exists (x :: s). cbn [length]. split; [congruence|].
    split; [now constructor|]. intros [|b bs] HB; [discriminate|]. injection HB as HB. cbn [pick fold_left repeat]. rewrite <- (HS bs HB).
    f_equal. destruct b; [exact E|reflexivity].
Qed.
Lemma few n : forall v, exists vs, (length vs <= 2^n)%nat /\ forall xs, length xs = n -> In (fold_left block xs v) vs.
Proof.
  induction n as [|n IH]; intros v.
  - exists [v]. split; [cbn; lia|]. intros [|]; [now left|discriminate].
  - destruct (IH (block v A)) as (v1 & L1 & I1).
    assert (X : exists y, forall x, block v x = block v A \/ block v x = block v y).
    { destruct (Hcross v) as [E|E]; [exists C|exists B]; intros [| |]; auto. }
    destruct X as [y HY]. destruct (IH (block v y)) as (v2 & L2 & I2). exists (v1 ++ v2). split; [rewrite app_length; cbn; lia|].
    intros [|x xs] HX; [discriminate|]. injection HX as HX. cbn [fold_left]. apply in_or_app. destruct (HY x) as [-> | ->]; [left|right]; auto.
Qed.
End Blocks.
Lemma crowd_length blk k : (forall x, length (blk x) = k) -> forall xs, length (crowd blk xs) = (length xs * k)%nat.
Proof. intros H xs. unfold crowd. induction xs as [|x xs IH]; [reflexivity|]. cbn [map concat length]. rewrite app_length, IH, H. lia. Qed.
Lemma crowd_inj blk k : (forall x, length (blk x) = k) -> (forall x y, blk x = blk y -> x = y) -> forall xs ys, length xs = length ys ->
  crowd blk xs = crowd blk ys -> xs = ys.
Proof.
  intros HK HN xs. induction xs as [|x xs IH]; intros [|y ys] HL E; try discriminate; [reflexivity|].
  change (blk x ++ crowd blk xs = blk y ++ crowd blk ys) in E. apply app_inj_len in E; [|now rewrite !HK]. destruct E as [E1 E2].
  f_equal; [now apply HN|apply IH; [now injection HL|exact E2]].
Qed.
Lemma crowd_fold {St} (step : St -> list N -> St) blk B k : (0 < B)%nat -> (forall x, length (blk x) = (k * B)%nat) ->
  forall t xs v, fold_left step (chunks B (crowd blk xs ++ t)) v =
    fold_left step (chunks B t) (fold_left (fun v x => fold_left step (chunks B (blk x)) v) xs v).
Proof.
  intros HB HK t. induction xs as [|x xs IH]; intros v; [reflexivity|]. change (crowd blk (x :: xs)) with (blk x ++ crowd blk xs). rewrite <- app_assoc.
  rewrite (chunks_app_mult B HB k (blk x) _ (HK x)), fold_left_app, IH. reflexivity.
Qed.
Lemma crowd_rest blk B k t : (0 < B)%nat -> (forall x, length (blk x) = (k * B)%nat) -> forall xs, rest B (crowd blk xs ++ t) = rest B t.
Proof. intros HB HK xs. apply (rest_mult_app B HB (length xs * k)). rewrite (crowd_length blk (k * B) HK). lia. Qed.
Lemma crowd64_len x : length (crowd64 x) = (2 * 32)%nat. Proof. now destruct x. Qed.
Lemma crowd32_len x : length (crowd32 x) = (2 * 16)%nat. Proof. now destruct x. Qed.
Lemma crowd64_inj x y : crowd64 x = crowd64 y -> x = y. Proof. destruct x, y; (reflexivity || discriminate). Qed.
Lemma crowd32_inj x y : crowd32 x = crowd32 y -> x = y. Proof. destruct x, y; (reflexivity || discriminate). Qed.
Lemma crowd64_bytes xs : bytes (crowd crowd64 xs).
Proof. unfold crowd. induction xs as [|x xs IH]; [constructor|]. cbn [map concat]. apply bytes_app. split; [destruct x; repeat constructor|exact IH]. Qed.
Lemma crowd32_bytes xs : bytes (crowd crowd32 xs).
Proof. unfold crowd. induction xs as [|x xs IH]; [constructor|]. cbn [map concat]. apply bytes_app. split; [destruct x; repeat constructor|exact IH]. Qed.
Lemma pick_length s : forall bs, length bs = length s -> length (pick s bs) = length s.
Proof. induction s as [|x s IH]; intros [|b bs] H; try discriminate; [reflexivity|]. injection H as H. cbn [pick length]. now rewrite IH. Qed.
Lemma pick_inj s : Forall (fun x => x <> A) s -> forall bs1 bs2, length bs1 = length s -> length bs2 = length s -> pick s bs1 = pick s bs2 -> bs1 = bs2.
Proof.
  induction 1 as [|x s HX HS IH]; intros [|b1 bs1] [|b2 bs2] H1 H2 E; try discriminate; [reflexivity|]. injection H1 as H1. injection H2 as H2.
  cbn [pick] in E. injection E as E1 E2. f_equal; [destruct b1, b2; congruence|now apply IH].
Qed.

(* ---------- the theorems ---------- *)
(* the result of the message l, once the constructor is fixed, is a function of the state after the blocks *)
Lemma xx64_by_state e f c : valid_env e -> valid_ctor c -> exists v0, forall n t, exists g, forall xs cs, valid_pieces Axx64 cs ->
  length xs = n -> fed cs = crowd crowd64 xs ++ t -> runs e Axx64 f c (hash_pieces cs) = Ok [g (fold_left block64 xs v0)].
Proof.
  intros HE HC. destruct (xx64_start_nil (2^64) c) as (v & k & EQ). exists v. intros n t.
  eexists (fun z => RInt I64 (XXH64_avalanche (xx64_acc (fold_left XXH64_stripe (chunks 32 t) z) ((k + N.of_nat (n * (2 * 32) + length t)) mod 2^64) (rest 32 t)))).
  intros xs cs HV HN HF. rewrite first_result' by (assumption || discriminate). rewrite HF. cbn [machine_of blk_machine mc_start mc_ar mc_au]. rewrite EQ.
  unfold ab_au, xx64_ar. cbn [app]. rewrite (crowd_rest crowd64 32 2 t ltac:(lia) crowd64_len).
  rewrite (crowd_fold XXH64_stripe crowd64 32 2 ltac:(lia) crowd64_len t xs v). rewrite !app_length, !(crowd_length crowd64 _ crowd64_len), HN.
  change (fun v x => fold_left XXH64_stripe (chunks 32 (crowd64 x)) v) with block64.
  generalize (fold_left XXH64_stripe (chunks 32 t) (fold_left block64 xs v)). intros [[[a1 a2] a3] a4]. reflexivity.
Qed.
Lemma xx32_by_state e f c : valid_env e -> valid_ctor c -> exists v0, forall n t, exists g, forall xs cs, valid_pieces Axx32 cs ->
  length xs = n -> fed cs = crowd crowd32 xs ++ t -> runs e Axx32 f c (hash_pieces cs) = Ok [g (fold_left block32 xs v0)].
Proof.
  intros HE HC. destruct (xx32_start_lt (e_cw e) c HC) as (v & k & EQ & _). exists v. intros n t.
  eexists (fun z => RInt I32 (XXH32_avalanche (xx32_acc (fold_left XXH32_stripe (chunks 16 t) z) ((N.of_nat k + N.of_nat (n * (2 * 16) + length t)) mod e_cw e) (rest 16 t)))).
  intros xs cs HV HN HF. rewrite first_result' by (assumption || discriminate). rewrite HF. cbn [machine_of blk_machine mc_start mc_ar mc_au]. rewrite EQ.
  unfold ab_au, xx32_ar. cbn [app]. rewrite (crowd_rest crowd32 16 2 t ltac:(lia) crowd32_len).
  rewrite (crowd_fold XXH32_stripe crowd32 16 2 ltac:(lia) crowd32_len t xs v). rewrite !app_length, !(crowd_length crowd32 _ crowd32_len), HN.
  change (fun v x => fold_left XXH32_stripe (chunks 16 (crowd32 x)) v) with block32.
  generalize (fold_left XXH32_stripe (chunks 16 t) (fold_left block32 xs v)). intros [[[a1 a2] a3] a4]. reflexivity.
Qed.

(* The 3^n messages (of 64n resp. 32n bytes) are different. *)
Theorem C57_distinct xs ys : length xs = length ys -> xs <> ys -> crowd crowd64 xs <> crowd crowd64 ys /\ crowd crowd32 xs <> crowd crowd32 ys.
Proof.
  intros HL HN. split; intros E; apply HN; revert E; [now apply (crowd_inj crowd64 _ crowd64_len crowd64_inj)|now apply (crowd_inj crowd32 _ crowd32_len crowd32_inj)].
Qed.
(* Followed by any common bytes t, they have at most 2^n different hashes, whatever the seed. *)
Theorem C57_xxh64_few e f c n t : valid_env e -> valid_ctor c -> exists rs, (length rs <= 2^n)%nat /\
  forall xs cs, length xs = n -> valid_pieces Axx64 cs -> fed cs = crowd crowd64 xs ++ t ->
  exists r, In r rs /\ runs e Axx64 f c (hash_pieces cs) = Ok [r].
Proof.
  intros HE HC. destruct (xx64_by_state e f c HE HC) as [v0 H]. destruct (H n t) as [g HG]. destruct (few block64 block64_cross n v0) as (vs & L & HI).
  exists (map g vs). rewrite map_length. split; [exact L|]. intros xs cs HN HV HF. eexists. split; [|now apply (HG xs cs)]. now apply in_map, HI.
Qed.
Theorem C57_xxh32_few e f c n t : valid_env e -> valid_ctor c -> exists rs, (length rs <= 2^n)%nat /\
  forall xs cs, length xs = n -> valid_pieces Axx32 cs -> fed cs = crowd crowd32 xs ++ t ->
  exists r, In r rs /\ runs e Axx32 f c (hash_pieces cs) = Ok [r].
Proof.
  intros HE HC. destruct (xx32_by_state e f c HE HC) as [v0 H]. destruct (H n t) as [g HG]. destruct (few block32 block32_cross n v0) as (vs & L & HI).
  exists (map g vs). rewrite map_length. split; [exact L|]. intros xs cs HN HV HF. eexists. split; [|now apply (HG xs cs)]. now apply in_map, HI.
Qed.
(* For every seed, 2^n of them have the same hash, whatever common bytes follow. *)
Theorem C57_xxh64 e f c n : valid_env e -> valid_ctor c -> exists s, length s = n /\ Forall (fun x => x <> A) s /\
  forall bs1 bs2 t cs1 cs2, length bs1 = n -> length bs2 = n -> valid_pieces Axx64 cs1 -> valid_pieces Axx64 cs2 ->
  fed cs1 = crowd crowd64 (pick s bs1) ++ t -> fed cs2 = crowd crowd64 (pick s bs2) ++ t ->
  runs e Axx64 f c (hash_pieces cs1) = runs e Axx64 f c (hash_pieces cs2) /\ (bs1 <> bs2 -> fed cs1 <> fed cs2).
Proof.
  intros HE HC. destruct (xx64_by_state e f c HE HC) as [v0 H]. destruct (chosen block64 block64_cross n v0) as (s & L & F & HS).
  exists s. split; [exact L|]. split; [exact F|]. intros bs1 bs2 t cs1 cs2 L1 L2 V1 V2 F1 F2. destruct (H n t) as [g HG]. split.
  - rewrite (HG (pick s bs1) cs1 V1), (HG (pick s bs2) cs2 V2); try assumption; try (rewrite pick_length; congruence).
    now rewrite !HS.
  - intros HN E. rewrite F1, F2 in E. apply app_inv_tail in E. apply (crowd_inj crowd64 _ crowd64_len crowd64_inj) in E; [|rewrite !pick_length; congruence].
    apply HN. apply (pick_inj s F); congruence.
Qed.
Theorem C57_xxh32 e f c n : valid_env e -> valid_ctor c -> exists s, length s = n /\ Forall (fun x => x <> A) s /\
  forall bs1 bs2 t cs1 cs2, length bs1 = n -> length bs2 = n -> valid_pieces Axx32 cs1 -> valid_pieces Axx32 cs2 ->
  fed cs1 = crowd crowd32 (pick s bs1) ++ t -> fed cs2 = crowd crowd32 (pick s bs2) ++ t ->
  runs e Axx32 f c (hash_pieces cs1) = runs e Axx32 f c (hash_pieces cs2) /\ (bs1 <> bs2 -> fed cs1 <> fed cs2).
Proof.
  intros HE HC. destruct (xx32_by_state e f c HE HC) as [v0 H]. destruct (chosen block32 block32_cross n v0) as (s & L & F & HS).
  exists s. split; [exact L|]. split; [exact F|]. intros bs1 bs2 t cs1 cs2 L1 L2 V1 V2 F1 F2. destruct (H n t) as [g HG]. split.
  - rewrite (HG (pick s bs1) cs1 V1), (HG (pick s bs2) cs2 V2); try assumption; try (rewrite pick_length; congruence).
    now rewrite !HS.
  - intros HN E. rewrite F1, F2 in E. apply app_inv_tail in E. apply (crowd_inj crowd32 _ crowd32_len crowd32_inj) in E; [|rewrite !pick_length; congruence].
    apply HN. apply (pick_inj s F); congruence.
Qed.
(* ... and so do the corresponding keys std::vector<unsigned char> (or std::string) passed to hash_append *)
Theorem C57_xxh64_keys e f c n : valid_env e -> valid_ctor c -> exists s, length s = n /\ Forall (fun x => x <> A) s /\
  forall bs1 bs2, length bs1 = n -> length bs2 = n ->
  runs e Axx64 f c [SAppend (TVec (TInt I8 false)) (byte_vector (crowd crowd64 (pick s bs1))); SResult] =
  runs e Axx64 f c [SAppend (TVec (TInt I8 false)) (byte_vector (crowd crowd64 (pick s bs2))); SResult].
Proof.
  intros HE HC. destruct (C57_xxh64 e f c n HE HC) as (s & L & F & H). exists s. split; [exact L|]. split; [exact F|]. intros bs1 bs2 L1 L2.
  apply byte_keys; try assumption; try reflexivity; try discriminate; try apply crowd64_bytes.
  - intros t cs1 cs2 V1 V2 _ _ _ F1 F2. now apply (H bs1 bs2 t).
  - rewrite !(crowd_length crowd64 _ crowd64_len), !pick_length; congruence.
Qed.
Theorem C57_xxh32_keys e f c n : valid_env e -> valid_ctor c -> exists s, length s = n /\ Forall (fun x => x <> A) s /\
  forall bs1 bs2, length bs1 = n -> length bs2 = n ->
  runs e Axx32 f c [SAppend (TVec (TInt I8 false)) (byte_vector (crowd crowd32 (pick s bs1))); SResult] =
  runs e Axx32 f c [SAppend (TVec (TInt I8 false)) (byte_vector (crowd crowd32 (pick s bs2))); SResult].
Proof.
  intros HE HC. destruct (C57_xxh32 e f c n HE HC) as (s & L & F & H). exists s. split; [exact L|]. split; [exact F|]. intros bs1 bs2 L1 L2.
  apply byte_keys; try assumption; try reflexivity; try discriminate; try apply crowd32_bytes.
  - intros t cs1 cs2 V1 V2 _ _ _ F1 F2. now apply (H bs1 bs2 t).
  - rewrite !(crowd_length crowd32 _ crowd32_len), !pick_length; congruence.
Qed.
(* a random-looking seed: which of B and C collides with A differs from block to block *)
Definition the_pieces (xs : list choice) : list (ptr * nat) := [(Ptr (crowd crowd64 xs), length (crowd crowd64 xs))].
Example C57_xxh64_ex : exists r, map (fun xs => runs env_pc Axx64 le_flavor (CSeed 42) (hash_pieces (the_pieces xs)))
  [[A; A; A]; [A; A; B]; [A; C; A]; [A; C; B]; [B; A; A]; [B; A; B]; [B; C; A]; [B; C; B]] = repeat (Ok [r]) 8.
Proof. eexists. vm_compute. reflexivity. Qed.

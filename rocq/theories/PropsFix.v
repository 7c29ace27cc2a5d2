(* C56, continued: xxhash_32 and xxhash_64, with every integer seed, return the same value from two
   consecutive calls of result() after a suitable message. *)
From Verif Require Import Base BaseFacts SpecCommon Gen Bits GenMD Hasher GenBlk Types ModelResult ModelAppend SpecAppend
  Behaves Instances ProofRuns Samples PropsHistory PropsAlg PropsAppend ProofLocal PropsLocal PropsLocal64.
From Verif Require Import SpecXxh ProofXxh ProofHmacInst.
Open Scope N_scope.

(* ---------- the operations are onto ---------- *)
Lemma rotl_onto w n y : 0 < n -> n < w -> y < 2^w -> exists x, x < 2^w /\ ROTL w n x = y.
Proof.
  intros H0 Hn Hy. exists (ROTL w (w - n) y). assert (HL : ROTL w (w - n) y < 2^w) by (apply rotl_lt; [lia|exact Hy]). split; [exact HL|].
  apply N.bits_inj. intros i. rewrite rotl_bits by assumption. destruct (N.ltb_spec i n) as [G|G].
  - rewrite rotl_bits by (assumption || lia). rewrite (proj2 (N.ltb_ge _ _)) by lia. rewrite (proj2 (N.ltb_lt _ _)) by lia. cbn [andb]. f_equal. lia.
  - destruct (N.ltb_spec i w) as [K|K]; cbn [andb].
    + rewrite rotl_bits by (assumption || lia). rewrite (proj2 (N.ltb_lt _ _)) by lia. f_equal. lia.
    + symmetry. now apply (proj1 (lt_pow2_bits y w) Hy).
Qed.
Lemma mul_onto w m m' y : (m * m') mod 2^w = 1 mod 2^w -> y < 2^w -> exists x, x < 2^w /\ MUL w x m = y.
Proof.
  intros Hm Hy. assert (NZ : 2^w <> 0) by now apply N.pow_nonzero. exists ((y * m') mod 2^w). split; [now apply N.mod_lt|].
  unfold MUL. rewrite N.mul_mod_idemp_l, <- N.mul_assoc by exact NZ. rewrite N.mul_mod, (N.mul_comm m'), Hm by exact NZ.
  rewrite <- N.mul_mod, N.mul_1_r by exact NZ. now apply N.mod_small.
Qed.
Lemma add_onto w a y : y < 2^w -> exists x, x < 2^w /\ ADD w a x = y.
Proof.
  intros Hy. assert (NZ : 2^w <> 0) by now apply N.pow_nonzero. exists ((y + (2^w - a mod 2^w)) mod 2^w). split; [now apply N.mod_lt|].
  assert (Ha : a mod 2^w < 2^w) by now apply N.mod_lt. unfold ADD. rewrite N.add_mod_idemp_r by exact NZ. rewrite <- N.add_mod_idemp_l by exact NZ.
  replace (a mod 2^w + (y + (2^w - a mod 2^w))) with (y + 1 * 2^w) by lia. rewrite N.mod_add by exact NZ. now apply N.mod_small.
Qed.
Lemma lxor_onto w a y : a < 2^w -> y < 2^w -> exists x, x < 2^w /\ N.lxor a x = y.
Proof. intros Ha Hy. exists (N.lxor a y). split; [now apply lxor_lt|]. now rewrite <- N.lxor_assoc, N.lxor_nilpotent, N.lxor_0_l. Qed.

Lemma XXH64_round_onto a y : y < 2^64 -> exists k, k < 2^64 /\ XXH64_round a k = y.
Proof.
  intros Hy. destruct (mul_onto 64 PRIME64_1 0x887493432badb37 y eq_refl Hy) as (y1 & H1 & <-).
  destruct (rotl_onto 64 31 y1 eq_refl eq_refl H1) as (y2 & H2 & <-). destruct (add_onto 64 a y2 H2) as (y3 & H3 & <-).
  destruct (mul_onto 64 PRIME64_2 0xba79078168d4baf y3 eq_refl H3) as (k & HK & <-). now exists k.
Qed.
Lemma XXH32_round_onto a y : y < 2^32 -> exists k, k < 2^32 /\ XXH32_round a k = y.
Proof.
  intros Hy. destruct (mul_onto 32 PRIME32_1 0xe8b2f51 y eq_refl Hy) as (y1 & H1 & <-).
  destruct (rotl_onto 32 13 y1 eq_refl eq_refl H1) as (y2 & H2 & <-). destruct (add_onto 32 a y2 H2) as (y3 & H3 & <-).
  destruct (mul_onto 32 PRIME32_2 0xb6c92f47 y3 eq_refl H3) as (k & HK & <-). now exists k.
Qed.
(* the last 8 (4) bytes can give the accumulator any value *)
Lemma XXH64_dword_onto a y : a < 2^64 -> y < 2^64 -> exists l, bytes l /\ length l = 8%nat /\ XXH64_dword a l = y.
Proof.
  intros Ha Hy. destruct (add_onto 64 PRIME64_4 y Hy) as (y1 & H1 & <-).
  destruct (mul_onto 64 PRIME64_1 0x887493432badb37 y1 eq_refl H1) as (y2 & H2 & <-).
  destruct (rotl_onto 64 27 y2 eq_refl eq_refl H2) as (y3 & H3 & <-). destruct (lxor_onto 64 a y3 Ha H3) as (y4 & H4 & <-).
  destruct (XXH64_round_onto 0 y4 H4) as (k & HK & <-). exists (toLE 8 k). split; [apply toLE_bytes|]. split; [apply toLE_length|].
  unfold XXH64_dword. change LE with le_val. change toLE with le_bytes. rewrite le_val_bytes, (N.mod_small k) by exact HK. apply ADD_comm'.
Qed.
Lemma XXH32_word_onto a y : y < 2^32 -> exists l, bytes l /\ length l = 4%nat /\ XXH32_word a l = y.
Proof.
  intros Hy. destruct (mul_onto 32 PRIME32_4 0xa0fe3bcf y eq_refl Hy) as (y2 & H2 & <-).
  destruct (rotl_onto 32 17 y2 eq_refl eq_refl H2) as (y3 & H3 & <-). destruct (add_onto 32 a y3 H3) as (y4 & H4 & <-).
  destruct (mul_onto 32 PRIME32_3 0xa89ed915 y4 eq_refl H4) as (k & HK & <-). exists (toLE 4 k). split; [apply toLE_bytes|]. split; [apply toLE_length|].
  unfold XXH32_word. change LE with le_val. change toLE with le_bytes. rewrite le_val_bytes, (N.mod_small k) by exact HK. reflexivity.
Qed.
(* one stripe can give the accumulators any values *)
Lemma four_words (k : nat) (a b c d : N) : let l := toLE k a ++ toLE k b ++ toLE k c ++ toLE k d in
  bytes l /\ length l = (4 * k)%nat /\ firstn k l = toLE k a /\ firstn k (skipn k l) = toLE k b /\
  firstn k (skipn (2 * k) l) = toLE k c /\ firstn k (skipn (3 * k) l) = toLE k d.
Proof.
  cbv zeta. assert (F : forall x t, firstn k (toLE k x ++ t) = toLE k x).
  { intros x t. rewrite firstn_app, firstn_all2 by (rewrite toLE_length; lia). rewrite toLE_length, Nat.sub_diag. apply app_nil_r. }
  assert (S : forall x t, skipn k (toLE k x ++ t) = t).
  { intros x t. rewrite skipn_app, skipn_all2 by (rewrite toLE_length; lia). now rewrite toLE_length, Nat.sub_diag. }
  split; [rewrite !bytes_app; repeat split; apply toLE_bytes|]. split; [rewrite !app_length, !toLE_length; lia|].
  rewrite !F. split; [reflexivity|]. rewrite S, F. split; [reflexivity|].
  replace (2 * k)%nat with (k + k)%nat by lia. replace (3 * k)%nat with (k + (k + k))%nat by lia. rewrite <- !skipn_twice, !S, F. split; [reflexivity|].
  rewrite <- (app_nil_r (toLE k d)) at 1. apply F.
Qed.
Lemma XXH64_stripe_onto v y : l4 64 y -> exists l, bytes l /\ length l = 32%nat /\ XXH64_stripe v l = y.
Proof.
  destruct v as [[[a1 a2] a3] a4], y as [[[y1 y2] y3] y4]. intros (H1 & H2 & H3 & H4).
  destruct (XXH64_round_onto a1 y1 H1) as (k1 & K1 & <-). destruct (XXH64_round_onto a2 y2 H2) as (k2 & K2 & <-).
  destruct (XXH64_round_onto a3 y3 H3) as (k3 & K3 & <-). destruct (XXH64_round_onto a4 y4 H4) as (k4 & K4 & <-).
  destruct (four_words 8 k1 k2 k3 k4) as (FB & FL & F1 & F2 & F3 & F4). eexists. split; [exact FB|]. split; [exact FL|].
  unfold XXH64_stripe, lane64. cbn [Nat.mul Nat.add skipn] in F2, F3, F4 |- *. rewrite F1, F2, F3, F4. change LE with le_val. change toLE with le_bytes. rewrite !le_val_bytes, !N.mod_small by assumption. reflexivity.
Qed.
Lemma XXH32_stripe_onto v y : l4 32 y -> exists l, bytes l /\ length l = 16%nat /\ XXH32_stripe v l = y.
Proof.
  destruct v as [[[a1 a2] a3] a4], y as [[[y1 y2] y3] y4]. intros (H1 & H2 & H3 & H4).
  destruct (XXH32_round_onto a1 y1 H1) as (k1 & K1 & <-). destruct (XXH32_round_onto a2 y2 H2) as (k2 & K2 & <-).
  destruct (XXH32_round_onto a3 y3 H3) as (k3 & K3 & <-). destruct (XXH32_round_onto a4 y4 H4) as (k4 & K4 & <-).
  destruct (four_words 4 k1 k2 k3 k4) as (FB & FL & F1 & F2 & F3 & F4). eexists. split; [exact FB|]. split; [exact FL|].
  unfold XXH32_stripe, lane32. cbn [Nat.mul Nat.add skipn] in F2, F3, F4 |- *. rewrite F1, F2, F3, F4. change LE with le_val. change toLE with le_bytes. rewrite !le_val_bytes, !N.mod_small by assumption. reflexivity.
Qed.
(* the perturbation of the accumulators by result() *)
Lemma before64 (w : XXH_acc) h : l4 64 w -> h < 2^64 ->
  exists v1 v2 v3 v4, l4 64 (v1, v2, v3, v4) /\ (add64 v1 h, add64 v2 h, sub64 v3 h, sub64 v4 h) = w.
Proof.
  destruct w as [[[w1 w2] w3] w4]. intros (H1 & H2 & H3 & H4) Hh.
  destruct (add_onto 64 h w1 H1) as (v1 & K1 & E1). destruct (add_onto 64 h w2 H2) as (v2 & K2 & E2).
  exists v1, v2, ((w3 + h) mod 2^64), ((w4 + h) mod 2^64). split; [repeat split; try assumption; now apply N.mod_lt|].
  assert (S : forall x, x < 2^64 -> sub64 ((x + h) mod 2^64) h = x).
  { intros x Hx. unfold sub64, w64. rewrite (N.mod_small h) by exact Hh. rewrite N.add_mod_idemp_l by discriminate.
    replace (x + h + (2^64 - h)) with (x + 1 * 2^64) by lia. rewrite N.mod_add by discriminate. now apply N.mod_small. }
  rewrite !S by assumption. unfold add64, w64. rewrite <- E1, <- E2. unfold ADD. rewrite (N.add_comm v1), (N.add_comm v2). reflexivity.
Qed.
Lemma before32 (w : XXH_acc) h : l4 32 w -> h < 2^32 ->
  exists v1 v2 v3 v4, l4 32 (v1, v2, v3, v4) /\ (add32 v1 h, add32 v2 h, sub32 v3 h, sub32 v4 h) = w.
Proof.
  destruct w as [[[w1 w2] w3] w4]. intros (H1 & H2 & H3 & H4) Hh.
  destruct (add_onto 32 h w1 H1) as (v1 & K1 & E1). destruct (add_onto 32 h w2 H2) as (v2 & K2 & E2).
  exists v1, v2, ((w3 + h) mod 2^32), ((w4 + h) mod 2^32). split; [repeat split; try assumption; now apply N.mod_lt|].
  assert (S : forall x, x < 2^32 -> sub32 ((x + h) mod 2^32) h = x).
  { intros x Hx. unfold sub32, w32. rewrite (N.mod_small h) by exact Hh. rewrite N.add_mod_idemp_l by discriminate.
    replace (x + h + (2^32 - h)) with (x + 1 * 2^32) by lia. rewrite N.mod_add by discriminate. now apply N.mod_small. }
  rewrite !S by assumption. unfold add32, w32. rewrite <- E1, <- E2. unfold ADD. rewrite (N.add_comm v1), (N.add_comm v2). reflexivity.
Qed.
Lemma consume_eight a l : length l = 8%nat -> XXH64_consume a l = XXH64_dword a l.
Proof. intros L. do 9 (destruct l as [|? l]; [try (cbn in L; lia)|]); [reflexivity|cbn in L; lia]. Qed.
Lemma consume_four a l : length l = 4%nat -> XXH32_consume a l = XXH32_word a l.
Proof. intros L. do 5 (destruct l as [|? l]; [try (cbn in L; lia)|]); [reflexivity|cbn in L; lia]. Qed.
Lemma repeat64 v0 : exists l, bytes l /\ length l = 40%nat /\
  let r1 := xx64_ar (2^64) (v0, 0, l) in fst (xx64_ar (2^64) (snd r1)) = fst r1.
Proof.
  (* the accumulators after the first result() *)
  set (w := (1, 2, 3, 4)). set (h := ADD 64 (XXH64_converge w) 64).
  assert (Hh : h < 2^64) by apply ADD_lt'. assert (Hw : l4 64 w) by (repeat split).
  destruct (before64 w h Hw Hh) as (v1 & v2 & v3 & v4 & HV & EV).
  destruct (XXH64_stripe_onto v0 _ HV) as (l1 & B1 & L1 & E1).
  destruct (XXH64_dword_onto (ADD 64 (XXH64_converge (v1, v2, v3, v4)) 40) h (ADD_lt' _ _ _) Hh) as (l2 & B2 & L2 & E2).
  exists (l1 ++ l2). split; [apply bytes_app; tauto|]. split; [rewrite app_length, L1, L2; reflexivity|]. cbv zeta.
  destruct (stripe_one l1 l2 L1) as [C1 C2]; [lia|]. unfold xx64_ar at 2 3. rewrite C1, C2, app_length, L1, L2. cbn [fold_left]. rewrite E1.
  change ((0 + N.of_nat (32 + 8)) mod 2^64) with 40. unfold xx64_acc. change (40 <? 32) with false. cbv iota.
  assert (EC : forall a, XXH64_consume a l2 = XXH64_dword a l2) by (intros a; exact (consume_eight a l2 L2)).
  rewrite !EC, !E2, EV. cbn [fst snd]. unfold xx64_ar. change (chunks 32 []) with (@nil (list N)). change (rest 32 []) with (@nil N). cbn [fold_left].
  replace ((0 + N.of_nat (32 + 8 + (32 - (32 + 8) mod 32)) + N.of_nat (length (@nil N))) mod 2^64) with 64 by reflexivity.
  unfold xx64_acc, w. change (64 <? 32) with false. cbv iota. cbn [fst]. apply (f_equal XXH64_avalanche).
  assert (EN : forall a, XXH64_consume a [] = a) by reflexivity. rewrite EN. reflexivity.
Qed.
Lemma repeat32 cw v0 : cw = 2^32 \/ cw = 2^64 -> exists l, bytes l /\ length l = 20%nat /\
  let r1 := xx32_ar cw (v0, 0, l) in fst (xx32_ar cw (snd r1)) = fst r1.
Proof.
  intros HC. set (w := (1, 2, 3, 4)). set (h := ADD 32 (XXH32_converge w) 32).
  assert (Hh : h < 2^32) by apply ADD_lt'. assert (Hw : l4 32 w) by (repeat split).
  destruct (before32 w h Hw Hh) as (v1 & v2 & v3 & v4 & HV & EV).
  destruct (XXH32_stripe_onto v0 _ HV) as (l1 & B1 & L1 & E1).
  destruct (XXH32_word_onto (ADD 32 (XXH32_converge (v1, v2, v3, v4)) 20) h Hh) as (l2 & B2 & L2 & E2).
  exists (l1 ++ l2). split; [apply bytes_app; tauto|]. split; [rewrite app_length, L1, L2; reflexivity|]. cbv zeta.
  assert (C1 : chunks 16 (l1 ++ l2) = [l1] /\ rest 16 (l1 ++ l2) = l2).
  { rewrite (chunks_app_mult 16 ltac:(lia) 1 l1 l2) by (rewrite L1; reflexivity). split.
    - rewrite <- (app_nil_r l1) at 1. rewrite (chunks_block 16 ltac:(lia) l1 [] L1), (chunks_short 16 ltac:(lia) l2) by lia. reflexivity.
    - rewrite (rest_mult_app 16 ltac:(lia) 1) by (rewrite L1; reflexivity). apply rest_short. lia. }
  destruct C1 as [C1 C2]. unfold xx32_ar at 2 3. rewrite C1, C2, app_length, L1, L2. cbn [fold_left]. rewrite E1.
  assert (M20 : (0 + N.of_nat (16 + 4)) mod cw = 20) by (destruct HC as [-> | ->]; reflexivity). rewrite M20.
  unfold xx32_acc. change (20 <? 16) with false. cbv iota.
  assert (EC : forall a, XXH32_consume a l2 = XXH32_word a l2) by (intros a; exact (consume_four a l2 L2)).
  rewrite !EC, !E2, EV. cbn [fst snd]. unfold xx32_ar. change (chunks 16 []) with (@nil (list N)). change (rest 16 []) with (@nil N). cbn [fold_left].
  assert (M32 : (0 + N.of_nat (16 + 4 + (16 - (16 + 4) mod 16)) + N.of_nat (length (@nil N))) mod cw = 32) by (destruct HC as [-> | ->]; reflexivity). rewrite M32.
  unfold xx32_acc, w. change (32 <? 16) with false. cbv iota. cbn [fst]. apply (f_equal XXH32_avalanche).
  assert (EN : forall a, XXH32_consume a [] = a) by reflexivity. rewrite EN. reflexivity.
Qed.

(* update( l, 40 ), then result() twice *)
Theorem C56_xxhash64_refuted e f n : valid_env e -> n < 2^64 -> exists l r, bytes l /\ length l = 40%nat /\
  runs e Axx64 f (CSeed n) [SUpdate (Ptr l) 40; SResult; SResult] = Ok [r; r].
Proof.
  intros HE Hn. destruct (repeat64 (XXH64_init n)) as (l & HB & HL & HR). cbv zeta in HR. exists l.
  eexists. split; [exact HB|]. split; [exact HL|]. rewrite runs_expected; [|exact HE| |apply room_any; discriminate].
  2:{ split; [exact Hn|]. repeat constructor; [rewrite HL; lia|exact HB]. }
  unfold expected. cbn [machine_of blk_machine mc_start mc_ar mc_au aprun xx64_start]. unfold ab_au. cbn [app data].
  rewrite <- HL, firstn_all. set (r1 := xx64_ar (2^64) (XXH64_init n, 0, l)) in *.
  cbn [fst snd]. rewrite HR. reflexivity.
Qed.
Theorem C56_xxhash32_always e f n : valid_env e -> n < 2^64 -> exists l r, bytes l /\ length l = 20%nat /\
  runs e Axx32 f (CSeed n) [SUpdate (Ptr l) 20; SResult; SResult] = Ok [r; r].
Proof.
  intros HE Hn. pose (v0 := fst (fst (xx32_start (e_cw e) (CSeed n)))).
  destruct (repeat32 (e_cw e) v0) as (l & HB & HL & HR); [apply HE|]. cbv zeta in HR. exists l.
  eexists. split; [exact HB|]. split; [exact HL|]. rewrite runs_expected; [|exact HE| |apply room_any; discriminate].
  2:{ split; [exact Hn|]. repeat constructor; [rewrite HL; lia|exact HB]. }
  unfold expected. cbn [machine_of blk_machine mc_start mc_ar mc_au aprun].
  assert (E0 : xx32_start (e_cw e) (CSeed n) = (v0, 0, [])) by (unfold v0; cbn [xx32_start fst]; reflexivity). rewrite E0.
  unfold ab_au. cbn [app data].
  rewrite <- HL, firstn_all. set (r1 := xx32_ar (e_cw e) (v0, 0, l)) in *.
  cbn [fst snd]. rewrite HR. reflexivity.
Qed.

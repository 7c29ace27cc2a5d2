(* Tails of murmur3: MUL, ROTL, MUL separates short words by more than the lengths can make up for. *)
From Coq Require Import ZArith.
From Verif Require Import Base BaseFacts SpecCommon Gen Bits ProofMurmurDistinct.
Open Scope N_scope.

Lemma join_xor j q a : a < 2^j -> q * 2^j + a = N.lxor (q * 2^j) a.
Proof.
  intros Ha. apply N.add_nocarry_lxor. apply N.bits_inj. intros i. rewrite N.land_spec, N.bits_0.
  destruct (N.lt_ge_cases i j) as [G|G].
  - rewrite <- N.shiftl_mul_pow2, N.shiftl_spec_low by exact G. reflexivity.
  - rewrite (proj1 (lt_pow2_bits a j) Ha i G). apply andb_false_r.
Qed.
(* counters that agree but for their last bits *)
Lemma same_base j q a b x y : a < 2^j -> b < 2^j -> N.lxor x (q * 2^j + a) = N.lxor y (q * 2^j + b) -> y = N.lxor x (N.lxor a b).
Proof.
  intros Ha Hb E. rewrite !join_xor in E by assumption.
  assert (G : N.lxor (N.lxor x (N.lxor (q * 2^j) a)) (N.lxor (q * 2^j) b) = y).
  { rewrite E. rewrite N.lxor_assoc, N.lxor_nilpotent. apply N.lxor_0_r. }
  rewrite <- G. rewrite N.lxor_assoc. f_equal. rewrite (N.lxor_comm (q * 2^j) a), N.lxor_assoc. f_equal. rewrite <- N.lxor_assoc, N.lxor_nilpotent. symmetry. apply N.lxor_0_l.
Qed.
Lemma near_xor j y d : d < 2^j -> N.lxor y d / 2^j = y / 2^j.
Proof. intros Hd. rewrite <- !N.shiftr_div_pow2, N.shiftr_lxor. rewrite (N.shiftr_div_pow2 d), (N.div_small d) by exact Hd. apply N.lxor_0_r. Qed.
Lemma near_diff j y d : d < 2^j -> (- 2 ^ Z.of_N j < Z.of_N (N.lxor y d) - Z.of_N y < 2 ^ Z.of_N j)%Z.
Proof.
  intros Hd. pose proof (near_xor j y d Hd) as E. assert (NZ : 2^j <> 0) by (apply N.pow_nonzero; discriminate).
  pose proof (N.div_mod y (2^j) NZ) as E1. pose proof (N.div_mod (N.lxor y d) (2^j) NZ) as E2. rewrite E in E2.
  pose proof (N.mod_lt y (2^j) NZ). pose proof (N.mod_lt (N.lxor y d) (2^j) NZ). replace (2 ^ Z.of_N j)%Z with (Z.of_N (2^j)) by now rewrite N2Z.inj_pow.
  set (z := N.lxor y d) in *. clearbody z. set (b := 2^j) in *. clearbody b. set (q := y / b) in *. clearbody q. set (r1 := y mod b) in *. set (r2 := z mod b) in *. clearbody r1 r2. lia.
Qed.
(* rotation, as arithmetic *)
Lemma rotl_arith w n x : n < w -> x < 2^w -> ROTL w n x = (x mod 2^(w-n)) * 2^n + x / 2^(w-n).
Proof.
  intros Hn Hx. assert (EW : 2^w = 2^(w-n) * 2^n) by (rewrite <- N.pow_add_r; f_equal; lia).
  assert (NZ : forall k, 2^k <> 0) by (intros k; apply N.pow_nonzero; discriminate).
  unfold ROTL. rewrite N.shiftl_mul_pow2, N.shiftr_div_pow2, EW. rewrite N.mul_mod_distr_r by apply NZ.
  assert (HL : x / 2^(w-n) < 2^n) by (apply N.div_lt_upper_bound; [apply NZ|]; rewrite <- EW; exact Hx).
  rewrite join_xor by exact HL. apply N.bits_inj. intros i. rewrite N.lor_spec, N.lxor_spec.
  destruct (N.lt_ge_cases i n) as [G|G].
  - rewrite <- N.shiftl_mul_pow2, N.shiftl_spec_low by exact G. now destruct (N.testbit _ i).
  - rewrite (proj1 (lt_pow2_bits _ n) HL i G). now rewrite orb_false_r, xorb_false_r.
Qed.

Open Scope Z_scope.
(* what a difference e after the second multiplication says of the difference before the first *)
Definition origin (W R S i1 i2 : Z) (e c k : Z) : Z :=
  let D := (e * i2) mod W in (i1 * ((D mod R) * S + D / R + c - k * S)) mod W.
Definition apart (W R S i1 i2 B : Z) (e : Z) : bool :=
  forallb (fun c => forallb (fun k => let E := origin W R S i1 i2 e c k in (B <=? E) && (E <=? W - B)) [0; 1]) [0; 1].
Lemma mulmod_inv W r y c2 i2 : 0 < W -> (c2 * i2) mod W = 1 mod W -> y = (r * c2) mod W -> r mod W = (y * i2) mod W.
Proof.
  intros HW HI ->. rewrite Z.mul_mod_idemp_l by lia. rewrite <- Z.mul_assoc. rewrite <- Z.mul_mod_idemp_r, HI, Z.mul_mod_idemp_r by lia. now rewrite Z.mul_1_r.
Qed.
Lemma halves W R S a : W = S * R -> 0 < R -> 0 < S -> 0 <= a < W -> 0 <= a / S < R /\ 0 <= a mod S < S /\ a = S * (a / S) + a mod S.
Proof.
  intros -> HR HS Ha. split; [split; [apply Z.div_pos; lia|apply Z.div_lt_upper_bound; lia]|]. split; [now apply Z.mod_pos_bound|]. apply Z.div_mod. lia.
Qed.
Lemma turned S R lo hi : 0 < R -> 0 < S -> 0 <= hi < R -> 0 <= lo < S -> 0 <= lo * R + hi < S * R.
Proof. intros. split; [|assert (lo * R <= (S - 1) * R) by (apply Z.mul_le_mono_nonneg_r; lia); lia]. assert (0 <= lo * R) by (apply Z.mul_nonneg_nonneg; lia). lia. Qed.
Lemma carries S R lo hi lo' hi' Dh Dl k : 0 < R -> 0 <= hi < R -> 0 <= hi' < R -> 0 <= Dl < R ->
  lo' * R + hi' = lo * R + hi + (R * Dh + Dl) - k * (S * R) ->
  exists c, (c = 0 \/ c = 1) /\ hi' = hi + Dl - c * R /\ lo' = lo + Dh + c - k * S.
Proof.
  intros HR H1 H2 H3 Q. set (t := lo' - lo - Dh + k * S). assert (Q2 : t * R = hi + Dl - hi') by (unfold t; lia).
  assert (T : t = 0 \/ t = 1).
  { clear Q. clearbody t. assert (-1 < t) by (apply (Z.mul_lt_mono_pos_r R); lia). assert (t < 2) by (apply (Z.mul_lt_mono_pos_r R); lia). lia. }
  exists t. split; [exact T|]. split; [lia|unfold t; lia].
Qed.
Lemma apart_spec W R S i1 i2 B e c k : apart W R S i1 i2 B e = true -> c = 0 \/ c = 1 -> k = 0 \/ k = 1 -> B <= origin W R S i1 i2 e c k <= W - B.
Proof.
  intros HA Hc Hk. unfold apart in HA. rewrite forallb_forall in HA. assert (Ic : In c [0; 1]) by (cbn; destruct Hc; auto). specialize (HA c Ic).
  rewrite forallb_forall in HA. assert (Ik : In k [0; 1]) by (cbn; destruct Hk; auto). specialize (HA k Ik). cbv zeta in HA.
  apply andb_true_iff in HA. destruct HA as [H1 H2]. apply Z.leb_le in H1. apply Z.leb_le in H2. auto.
Qed.
Lemma outside W B x x' : 0 <= x < B -> 0 <= x' < B -> B <= W -> B <= (x' - x) mod W <= W - B -> False.
Proof.
  intros Hx Hx' HB HE. destruct (Z.lt_ge_cases (x' - x) 0) as [G|G].
  - replace (x' - x) with (x' - x + W + (-1) * W) in HE by ring. rewrite Z_mod_plus_full in HE. rewrite Z.mod_small in HE; lia.
  - rewrite Z.mod_small in HE; lia.
Qed.
Lemma apart_false W R S c1 c2 i1 i2 B : W = S * R -> 0 < R -> 0 < S -> B <= W -> (c1 * i1) mod W = 1 mod W -> (c2 * i2) mod W = 1 mod W ->
  forall x x' e, apart W R S i1 i2 B e = true -> 0 <= x < B -> 0 <= x' < B ->
  forall a a' r r', a = (x * c1) mod W -> a' = (x' * c1) mod W -> r = (a mod S) * R + a / S -> r' = (a' mod S) * R + a' / S ->
  (r' * c2) mod W - (r * c2) mod W = e -> False.
Proof.
  intros EW HR HS HB I1 I2 x x' e HA Hx Hx' a a' r r' Ea Ea' Er Er' Ee.
  assert (HW : 0 < W) by (rewrite EW; now apply Z.mul_pos_pos). assert (NW : W <> 0) by (clear - HW; lia).
  assert (Ba : 0 <= a < W) by (subst a; now apply Z.mod_pos_bound). assert (Ba' : 0 <= a' < W) by (subst a'; now apply Z.mod_pos_bound).
  destruct (halves W R S a EW HR HS Ba) as (Ha & La & Da). destruct (halves W R S a' EW HR HS Ba') as (Ha' & La' & Da').
  set (lo := a mod S) in *. set (hi := a / S) in *. set (lo' := a' mod S) in *. set (hi' := a' / S) in *.
  assert (Br : 0 <= r < W) by (rewrite EW, Er; now apply turned). assert (Br' : 0 <= r' < W) by (rewrite EW, Er'; now apply turned).
  set (y := (r * c2) mod W) in *. set (y' := (r' * c2) mod W) in *.
  assert (R1 : r mod W = (y * i2) mod W) by (apply (mulmod_inv W r y c2); auto). assert (R2 : r' mod W = (y' * i2) mod W) by (apply (mulmod_inv W r' y' c2); auto).
  rewrite Z.mod_small in R1, R2 by assumption.
  set (D := (e * i2) mod W). assert (BD : 0 <= D < W) by now apply Z.mod_pos_bound.
  assert (ED : (r + D) mod W = r').
  { unfold D. rewrite R1, R2. rewrite <- Z.add_mod by exact NW. f_equal. rewrite <- Ee. ring. }
  assert (ED' : exists k, (k = 0 \/ k = 1) /\ r' = r + D - k * W).
  { clear - ED BD Br. destruct (Z.lt_ge_cases (r + D) W) as [G|G].
    - exists 0. split; [auto|]. rewrite <- ED. rewrite Z.mod_small; lia.
    - exists 1. split; [auto|]. rewrite <- ED. replace ((r + D) mod W) with ((r + D - W + 1 * W) mod W) by (f_equal; ring). rewrite Z_mod_plus_full, Z.mod_small; lia. }
  destruct ED' as (k & Hk & Ek).
  pose proof (Z.div_mod D R ltac:(clear - HR; lia)) as DD. pose proof (Z.mod_pos_bound D R HR) as LD.
  destruct (carries S R lo hi lo' hi' (D / R) (D mod R) k HR Ha Ha' LD) as (c & Hc & C1 & C2).
  { rewrite <- DD, <- EW, <- Er, <- Er'. exact Ek. }
  assert (O : origin W R S i1 i2 e c k = (x' - x) mod W).
  { unfold origin. fold D.
    replace (D mod R * S + D / R + c - k * S) with (a' - a + c * W) by (rewrite Da, Da', C1, C2, EW; ring).
    rewrite <- Z.mul_mod_idemp_r by exact NW. rewrite Z_mod_plus_full, Z.mul_mod_idemp_r by exact NW. rewrite Ea, Ea'.
    rewrite <- Z.mul_mod_idemp_r by exact NW. rewrite <- Zminus_mod, Z.mul_mod_idemp_r by exact NW.
    replace (i1 * (x' * c1 - x * c1)) with ((x' - x) * (c1 * i1)) by ring. rewrite <- Z.mul_mod_idemp_r, I1, Z.mul_mod_idemp_r by exact NW. now rewrite Z.mul_1_r. }
  pose proof (apart_spec W R S i1 i2 B e c k HA Hc Hk) as HE. rewrite O in HE. now apply (outside W B x x').
Qed.
(* the differences to check *)
Definition diffs (j : nat) : list Z := flat_map (fun i => [Z.of_nat i; - Z.of_nat i]) (seq 1 (2 ^ j - 1)).
Lemma diffs_all j e : - 2 ^ Z.of_nat j < e < 2 ^ Z.of_nat j -> e <> 0 -> In e (diffs j).
Proof.
  intros He NZ. apply in_flat_map. exists (Z.abs_nat e). assert (P : 2 ^ Z.of_nat j = Z.of_nat (2 ^ j)) by now rewrite Nat2Z.inj_pow. split.
  - apply in_seq. lia.
  - cbn. lia.
Qed.
Close Scope Z_scope.
Lemma pow_split w rot : rot < w -> (2 ^ Z.of_N w = 2 ^ Z.of_N (w - rot) * 2 ^ Z.of_N rot)%Z.
Proof. intros H. rewrite <- Z.pow_add_r; [f_equal; lia|lia|lia]. Qed.
Lemma pow_le b w : b <= w -> (2 ^ Z.of_N b <= 2 ^ Z.of_N w)%Z.
Proof. intros H. apply Z.pow_le_mono_r; lia. Qed.
Lemma not_zero u v : u <> v -> (Z.of_N u - Z.of_N v <> 0)%Z. Proof. lia. Qed.
(* the key schedule of murmur3 *)
Definition key (w rot c1 c2 x : N) : N := MUL w (ROTL w rot (MUL w x c1)) c2.
Lemma key_apart j w rot c1 c2 i1 i2 b : rot < w -> (c1 * i1) mod 2^w = 1 mod 2^w -> (c2 * i2) mod 2^w = 1 mod 2^w ->
  forallb (apart (2 ^ Z.of_N w) (2 ^ Z.of_N rot) (2 ^ Z.of_N (w - rot)) (Z.of_N i1) (Z.of_N i2) (2 ^ Z.of_N b)) (diffs j) = true ->
  b <= w -> forall x x' d, x < 2^b -> x' < 2^b -> d < 2 ^ N.of_nat j -> key w rot c1 c2 x' = N.lxor (key w rot c1 c2 x) d -> d = 0.
Proof.
  intros Hw I1 I2 HC Hb x x' d Hx Hx' Hd E. destruct (N.eq_dec d 0) as [|NZ]; [assumption|exfalso].
  assert (HE : (Z.of_N (key w rot c1 c2 x') - Z.of_N (key w rot c1 c2 x) <> 0)%Z).
  { apply not_zero. rewrite E. intros H'. apply NZ.
    apply (f_equal (N.lxor (key w rot c1 c2 x))) in H'. rewrite <- N.lxor_assoc, N.lxor_nilpotent in H'. now rewrite N.lxor_0_l in H'. }
  pose proof (near_diff (N.of_nat j) (key w rot c1 c2 x) d Hd) as ND. rewrite <- E in ND. rewrite nat_N_Z in ND.
  rewrite forallb_forall in HC. specialize (HC _ (diffs_all j _ ND HE)).
  assert (PW : forall k, Z.of_N (2^k) = (2 ^ Z.of_N k)%Z) by (intros k; now rewrite N2Z.inj_pow).
  assert (PP : forall k, (0 < 2 ^ Z.of_N k)%Z) by (intros k; apply Z.pow_pos_nonneg; lia).
  assert (WI : forall c i, (c * i) mod 2^w = 1 mod 2^w -> ((Z.of_N c * Z.of_N i) mod 2 ^ Z.of_N w = 1 mod 2 ^ Z.of_N w)%Z).
  { intros c i H. apply (f_equal Z.of_N) in H. rewrite !N2Z.inj_mod, N2Z.inj_mul, PW in H. exact H. }
  assert (LT : forall x k, x < 2^k -> (0 <= Z.of_N x < 2 ^ Z.of_N k)%Z) by (intros y k Hy; rewrite <- PW; clear - Hy; lia).
  assert (MM : forall u v, Z.of_N (MUL w u v) = ((Z.of_N u * Z.of_N v) mod 2 ^ Z.of_N w)%Z) by (intros u v; unfold MUL; now rewrite N2Z.inj_mod, N2Z.inj_mul, PW).
  assert (RR : forall a, a < 2^w -> Z.of_N (ROTL w rot a) = ((Z.of_N a mod 2 ^ Z.of_N (w - rot)) * 2 ^ Z.of_N rot + Z.of_N a / 2 ^ Z.of_N (w - rot))%Z).
  { intros a Ha. rewrite rotl_arith by assumption. now rewrite N2Z.inj_add, N2Z.inj_mul, N2Z.inj_mod, N2Z.inj_div, !PW. }
  apply (apart_false (2 ^ Z.of_N w) (2 ^ Z.of_N rot) (2 ^ Z.of_N (w - rot)) (Z.of_N c1) (Z.of_N c2) (Z.of_N i1) (Z.of_N i2) (2 ^ Z.of_N b))
    with (x := Z.of_N x) (x' := Z.of_N x') (e := (Z.of_N (key w rot c1 c2 x') - Z.of_N (key w rot c1 c2 x))%Z)
         (a := Z.of_N (MUL w x c1)) (a' := Z.of_N (MUL w x' c1)) (r := Z.of_N (ROTL w rot (MUL w x c1))) (r' := Z.of_N (ROTL w rot (MUL w x' c1))); auto.
  - now apply pow_split.
  - now apply pow_le.
  - apply RR, MUL_lt'.
  - apply RR, MUL_lt'.
  - unfold key. now rewrite !MM.
Qed.

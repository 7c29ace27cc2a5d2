(* The floating point part of the model (ModelAppend.v: fadd0; SpecAppend.v: flt_nan, flt_equal) agrees with
   the IEEE 754 arithmetic of Flocq on binary32 and binary64. *)
From Coq Require Import NArith ZArith Lia Reals.
From Flocq Require Import Core.Raux IEEE754.Binary IEEE754.Bits.
From Verif Require Import Base SpecAppend ModelAppend.
Open Scope Z_scope.

(* a bit pattern is the join of its fields *)
Lemma fields mw ew x : 0 < mw -> 0 < ew -> 0 <= x < 2 ^ (mw + ew + 1) ->
  exists s m e, split_bits mw ew x = (s, m, e) /\ 0 <= m < 2 ^ mw /\ 0 <= e < 2 ^ ew /\
    x = (if s then 2 ^ ew else 0) * 2 ^ mw + e * 2 ^ mw + m /\ x mod 2 ^ (mw + ew) = e * 2 ^ mw + m.
Proof.
  intros Hm He Hx. destruct (split_bits mw ew x) as [[s m] e] eqn:E. exists s, m, e. split; [reflexivity|].
  pose proof (join_split_bits mw ew Hm He x Hx) as J. rewrite E in J.
  assert (P1 : 0 < 2 ^ mw) by (apply Z.pow_pos_nonneg; lia).
  assert (P2 : 0 < 2 ^ ew) by (apply Z.pow_pos_nonneg; lia).
  unfold split_bits in E. injection E as E1 E2 E3.
  assert (HM : 0 <= m < 2 ^ mw) by (rewrite <- E2; now apply Z.mod_pos_bound).
  assert (HE : 0 <= e < 2 ^ ew) by (rewrite <- E3; now apply Z.mod_pos_bound).
  assert (HX : x = (if s then 2 ^ ew else 0) * 2 ^ mw + e * 2 ^ mw + m).
  { rewrite <- J. unfold join_bits. rewrite Z.shiftl_mul_pow2 by lia. ring. }
  repeat split; try apply HM; try apply HE; [exact HX|].
  rewrite Z.pow_add_r by lia. symmetry. apply (Z.mod_unique _ _ (if s then 1 else 0)).
  - left. split; [nia|]. assert (e * 2 ^ mw <= (2 ^ ew - 1) * 2 ^ mw) by (apply Z.mul_le_mono_nonneg_r; lia). nia.
  - rewrite HX. destruct s; ring.
Qed.

Section B.
Variables mw ew : Z.
Hypothesis Hmw : 0 < mw.
Hypothesis Hew : 0 < ew.
Hypothesis Hmax : mw + 1 < 2 ^ (ew - 1).
Notation prec := (mw + 1).
Notation emax := (2 ^ (ew - 1)).
Notation ofb := (binary_float_of_bits mw ew Hmw Hew Hmax).
Notation tob := (bits_of_binary_float mw ew).

(* which bit patterns are NaN *)
Lemma nan_fields x : 0 <= x < 2 ^ (mw + ew + 1) ->
  Binary.is_nan prec emax (ofb x) = true <-> (2 ^ ew - 1) * 2 ^ mw < x mod 2 ^ (mw + ew).
Proof.
  intros Hx.
  assert (P1 : 0 < 2 ^ mw) by (apply Z.pow_pos_nonneg; lia).
  assert (P2 : 1 < 2 ^ ew) by (apply Z.pow_gt_1; lia).
  destruct (fields mw ew x Hmw Hew Hx) as (s & m & e & E & HM & HE & HX & MOD). rewrite MOD.
  unfold binary_float_of_bits. rewrite is_nan_FF2B. unfold binary_float_of_bits_aux. rewrite E.
  destruct (Zeq_bool e 0) eqn:E0; [apply Zeq_bool_eq in E0|apply Zeq_bool_neq in E0].
  { subst e. destruct m as [|p|p]; cbn [is_nan_FF]; try lia; split; try discriminate; intros H; nia. }
  destruct (Zeq_bool e (2 ^ ew - 1)) eqn:E1; [apply Zeq_bool_eq in E1|apply Zeq_bool_neq in E1].
  { subst e. destruct m as [|p|p]; cbn [is_nan_FF]; try lia; split; try discriminate; try reflexivity; intros H; lia. }
  destruct (m + 2 ^ mw) as [|p|p] eqn:E2; try lia. cbn [is_nan_FF]. split; [discriminate|]. intros H.
  assert (e + 1 <= 2 ^ ew - 1) by lia. assert ((e + 1) * 2 ^ mw <= (2 ^ ew - 1) * 2 ^ mw) by (apply Z.mul_le_mono_nonneg_r; lia). lia.
Qed.
(* and which are zeros *)
Lemma zero_fields x : 0 <= x < 2 ^ (mw + ew + 1) ->
  (exists s, ofb x = B754_zero prec emax s) <-> x mod 2 ^ (mw + ew) = 0.
Proof.
  intros Hx. pose proof (bits_of_binary_float_of_bits mw ew Hmw Hew Hmax x Hx) as B.
  assert (P1 : 0 < 2 ^ mw) by (apply Z.pow_pos_nonneg; lia).
  assert (P2 : 1 < 2 ^ ew) by (apply Z.pow_gt_1; lia).
  destruct (fields mw ew x Hmw Hew Hx) as (s & m & e & E & HM & HE & HX & MOD). rewrite MOD. split.
  - intros (s' & H). apply (f_equal (B2FF prec emax)) in H. unfold binary_float_of_bits in H. rewrite B2FF_FF2B in H.
    unfold binary_float_of_bits_aux in H. rewrite E in H. cbn [B2FF] in H.
    destruct (Zeq_bool e 0) eqn:E0; [apply Zeq_bool_eq in E0|].
    + subst e. destruct m; try discriminate. reflexivity.
    + destruct (Zeq_bool e (2 ^ ew - 1)); [destruct m; discriminate|]. destruct (m + 2 ^ mw); discriminate.
  - intros H. assert (e = 0) by nia. assert (m = 0) by nia. subst e m. exists s. apply B2FF_inj.
    unfold binary_float_of_bits. rewrite B2FF_FF2B. unfold binary_float_of_bits_aux. rewrite E. reflexivity.
Qed.

(* x + 0 *)
Variables (Hp : Core.FLX.Prec_gt_0 prec) (Hpe : BinarySingleNaN.Prec_lt_emax prec emax).
Lemma plus_zero nanf md x : Binary.is_nan prec emax x = false ->
  Bplus prec emax Hp Hpe nanf md x (B754_zero prec emax false) =
  match x with
  | B754_zero _ _ s => B754_zero prec emax (if s then match md with BinarySingleNaN.mode_DN => true | _ => false end else false)
  | _ => x
  end.
Proof.
  destruct x as [s|s|s pl H|s m e H]; cbn [Binary.is_nan]; intros HN; try discriminate; unfold Bplus; cbn [B2BSN BinarySingleNaN.Bplus BSN2B].
  - destruct s, md; reflexivity.
  - reflexivity.
  - reflexivity.
Qed.
Lemma tob_zero s : tob (B754_zero prec emax s) = if s then 2 ^ (mw + ew) else 0.
Proof.
  cbn [bits_of_binary_float]. unfold join_bits. rewrite Z.shiftl_mul_pow2 by lia. rewrite Z.pow_add_r by lia. destruct s; ring.
Qed.
Lemma ofb_0 : ofb 0 = B754_zero prec emax false.
Proof.
  apply B2FF_inj. unfold binary_float_of_bits. rewrite B2FF_FF2B. unfold binary_float_of_bits_aux, split_bits.
  assert (P1 : 0 < 2 ^ mw) by (apply Z.pow_pos_nonneg; lia).
  assert (P2 : 0 < 2 ^ ew) by (apply Z.pow_pos_nonneg; lia).
  rewrite !Z.mod_0_l by lia.
  cbn [Zeq_bool Z.compare B2FF]. f_equal. apply Z.leb_gt. nia.
Qed.

Lemma add0 nanf md x : 0 <= x < 2 ^ (mw + ew + 1) -> ~ (2 ^ ew - 1) * 2 ^ mw < x mod 2 ^ (mw + ew) ->
  tob (Bplus prec emax Hp Hpe nanf md (ofb x) (ofb 0)) =
  if x =? 2 ^ (mw + ew) then match md with BinarySingleNaN.mode_DN => x | _ => 0 end else x.
Proof.
  intros Hx HN. rewrite ofb_0, plus_zero.
  2: { destruct (Binary.is_nan prec emax (ofb x)) eqn:E; [|reflexivity]. now apply nan_fields in E. }
  pose proof (bits_of_binary_float_of_bits mw ew Hmw Hew Hmax x Hx) as B.
  assert (PP : 0 < 2 ^ (mw + ew)) by (apply Z.pow_pos_nonneg; lia).
  destruct (Z.eqb_spec x (2 ^ (mw + ew))) as [EX|NX].
  - assert (Z0 : exists s, ofb x = B754_zero prec emax s) by (apply zero_fields; [exact Hx|rewrite EX; now apply Z.mod_same; lia]).
    destruct Z0 as (s & Es). rewrite Es in *. rewrite tob_zero in *. destruct s; [|lia].
    destruct md; try reflexivity. exact B.
  - destruct (ofb x) as [s|s|s pl H|s m e H]; try exact B. rewrite tob_zero in *. destruct s; [lia|]. exact B.
Qed.

(* x == y *)
Lemma compare_eq x y : 0 <= x < 2 ^ (mw + ew + 1) -> 0 <= y < 2 ^ (mw + ew + 1) ->
  Bcompare prec emax (ofb x) (ofb y) = Some Eq <->
  ~ (2 ^ ew - 1) * 2 ^ mw < x mod 2 ^ (mw + ew) /\ ~ (2 ^ ew - 1) * 2 ^ mw < y mod 2 ^ (mw + ew) /\
  (x = y \/ x mod 2 ^ (mw + ew) = 0 /\ y mod 2 ^ (mw + ew) = 0).
Proof.
  intros Hx Hy. rewrite <- !nan_fields, <- !zero_fields by assumption.
  assert (HXY : x = y <-> ofb x = ofb y).
  { split; [now intros ->|]. intros E. apply (f_equal tob) in E. now rewrite !bits_of_binary_float_of_bits in E. }
  rewrite HXY. generalize (ofb x), (ofb y). clear. intros x y.
  assert (K : forall s1 m1 e1 H1 s2 m2 e2 H2, s1 = s2 -> m1 = m2 -> e1 = e2 ->
            B754_finite prec emax s1 m1 e1 H1 = B754_finite prec emax s2 m2 e2 H2).
  { intros. apply B2FF_inj. cbn [B2FF]. congruence. }
  destruct x as [s1|s1|s1 p1 H1|s1 m1 e1 H1], y as [s2|s2|s2 p2 H2|s2 m2 e2 H2]; unfold Bcompare; cbn.
  all: try (split; [discriminate|]; intros (A & B & [C|[[C1 C2] [C3 C4]]]); try discriminate; exfalso; auto; fail).
  - split; [|reflexivity]. intros _. repeat split; try discriminate. right. split; eexists; reflexivity.
  - destruct s2; (split; [discriminate|]; intros (_ & _ & [C|[_ [? C]]]); discriminate).
  - destruct s2; (split; [discriminate|]; intros (_ & _ & [C|[_ [? C]]]); discriminate).
  - destruct s1; (split; [discriminate|]; intros (_ & _ & [C|[[? C] _]]); discriminate).
  - destruct s1, s2; (split; [try discriminate|]).
    all: try (intros _; repeat split; try discriminate; left; reflexivity).
    all: try reflexivity. all: intros (_ & _ & [C|[[? C] _]]); discriminate.
  - destruct s1; (split; [discriminate|]; intros (_ & _ & [C|[[? C] _]]); discriminate).
  - destruct s1; (split; [discriminate|]; intros (_ & _ & [C|[[? C] _]]); discriminate).
  - destruct s2; (split; [discriminate|]; intros (_ & _ & [C|[[? C] _]]); discriminate).
  - split.
    + intros E. repeat split; try discriminate. left. apply K.
      * destruct s1, s2; try discriminate; reflexivity.
      * destruct s1, s2; try discriminate; destruct (Z.compare_spec e1 e2) as [He|He|He]; try discriminate;
        injection E as E; rewrite ?CompOpp_iff in E; cbn in E; now apply Pos.compare_eq in E.
      * destruct s1, s2; try discriminate; destruct (Z.compare_spec e1 e2) as [He|He|He]; try discriminate; exact He.
    + intros (_ & _ & [C|[[? C] _]]); [|discriminate]. injection C as -> -> ->.
      destruct s2; rewrite Z.compare_refl, Pos.compare_cont_refl; reflexivity.
Qed.
End B.

(* ---------- binary32 and binary64 ---------- *)
Definition downward (md : BinarySingleNaN.mode) : bool :=
  match md with BinarySingleNaN.mode_DN => true | _ => false end.

Lemma of_N_lt (n m : N) : (n < m)%N <-> Z.of_N n < Z.of_N m. Proof. lia. Qed.

(* v + 0 in the rounding mode of the implementation, for every v but NaN *)
Theorem C26_float32_plus_zero i md b : im_down i = downward md -> (b < 2 ^ 32)%N -> ~ flt_nan 8 23 b ->
  Z.of_N (fadd0 i 8 23 b) = bits_of_b32 (b32_plus md (b32_of_bits (Z.of_N b)) (b32_of_bits 0)).
Proof.
  intros HD Hb HN. unfold bits_of_b32, b32_plus, b32_of_bits.
  assert (HX : 0 <= Z.of_N b < 2 ^ (23 + 8 + 1)) by (change (2 ^ (23 + 8 + 1)) with (Z.of_N (2^32)); lia).
  unfold flt_nan in HN. apply N.nlt_ge in HN.
  etransitivity; [|symmetry; apply (add0 23 8 eq_refl eq_refl eq_refl); [exact HX|]].
  - unfold fadd0, is_nan. rewrite (proj2 (N.ltb_ge _ _) HN). change (2 ^ (23 + 8))%Z with (Z.of_N (2 ^ (8 + 23))).
    destruct (N.eqb_spec b (2 ^ (8 + 23))) as [->|NE].
    + rewrite Z.eqb_refl, HD. destruct md; reflexivity.
    + rewrite (proj2 (Z.eqb_neq _ _)) by lia. reflexivity.
  - change (2 ^ (23 + 8)) with (Z.of_N (2 ^ (8 + 23))). rewrite <- N2Z.inj_mod.
    change ((2 ^ 8 - 1) * 2 ^ 23) with (Z.of_N ((2 ^ 8 - 1) * 2 ^ 23)). lia.
Qed.
Theorem C26_float64_plus_zero i md b : im_down i = downward md -> (b < 2 ^ 64)%N -> ~ flt_nan 11 52 b ->
  Z.of_N (fadd0 i 11 52 b) = bits_of_b64 (b64_plus md (b64_of_bits (Z.of_N b)) (b64_of_bits 0)).
Proof.
  intros HD Hb HN. unfold bits_of_b64, b64_plus, b64_of_bits.
  assert (HX : 0 <= Z.of_N b < 2 ^ (52 + 11 + 1)) by (change (2 ^ (52 + 11 + 1)) with (Z.of_N (2^64)); lia).
  unfold flt_nan in HN. apply N.nlt_ge in HN.
  etransitivity; [|symmetry; apply (add0 52 11 eq_refl eq_refl eq_refl); [exact HX|]].
  - unfold fadd0, is_nan. rewrite (proj2 (N.ltb_ge _ _) HN). change (2 ^ (52 + 11))%Z with (Z.of_N (2 ^ (11 + 52))).
    destruct (N.eqb_spec b (2 ^ (11 + 52))) as [->|NE].
    + rewrite Z.eqb_refl, HD. destruct md; reflexivity.
    + rewrite (proj2 (Z.eqb_neq _ _)) by lia. reflexivity.
  - change (2 ^ (52 + 11)) with (Z.of_N (2 ^ (11 + 52))). rewrite <- N2Z.inj_mod.
    change ((2 ^ 11 - 1) * 2 ^ 52) with (Z.of_N ((2 ^ 11 - 1) * 2 ^ 52)). lia.
Qed.

(* NaNs *)
Theorem C27_float32_nan b : (b < 2 ^ 32)%N -> flt_nan 8 23 b <-> Binary.is_nan 24 128 (b32_of_bits (Z.of_N b)) = true.
Proof.
  intros Hb. unfold b32_of_bits. rewrite (nan_fields 23 8 eq_refl eq_refl eq_refl).
  - change (2 ^ (23 + 8)) with (Z.of_N (2 ^ (8 + 23))). rewrite <- N2Z.inj_mod.
    change ((2 ^ 8 - 1) * 2 ^ 23) with (Z.of_N ((2 ^ 8 - 1) * 2 ^ 23)). unfold flt_nan. lia.
  - change (2 ^ (23 + 8 + 1)) with (Z.of_N (2^32)). lia.
Qed.
Theorem C27_float64_nan b : (b < 2 ^ 64)%N -> flt_nan 11 52 b <-> Binary.is_nan 53 1024 (b64_of_bits (Z.of_N b)) = true.
Proof.
  intros Hb. unfold b64_of_bits. rewrite (nan_fields 52 11 eq_refl eq_refl eq_refl).
  - change (2 ^ (52 + 11)) with (Z.of_N (2 ^ (11 + 52))). rewrite <- N2Z.inj_mod.
    change ((2 ^ 11 - 1) * 2 ^ 52) with (Z.of_N ((2 ^ 11 - 1) * 2 ^ 52)). unfold flt_nan. lia.
  - change (2 ^ (52 + 11 + 1)) with (Z.of_N (2^64)). lia.
Qed.

(* == *)
Theorem C27_float32_equal z1 z2 : 0 <= z1 < 2 ^ 32 -> 0 <= z2 < 2 ^ 32 ->
  flt_equal 8 23 z1 z2 <-> b32_compare (b32_of_bits z1) (b32_of_bits z2) = Some Eq.
Proof.
  intros H1 H2. unfold b32_compare, b32_of_bits. rewrite (compare_eq 23 8 eq_refl eq_refl eq_refl) by assumption.
  unfold flt_equal, flt_nan, flt_zero.
  change (2 ^ (23 + 8)) with (Z.of_N (2 ^ (8 + 23))). change ((2 ^ 8 - 1) * 2 ^ 23) with (Z.of_N ((2 ^ 8 - 1) * 2 ^ 23)).
  assert (K : forall z, 0 <= z -> exists n, z = Z.of_N n) by (intros z Hz; exists (Z.to_N z); lia).
  destruct (K z1) as (n1 & ->); [lia|]. destruct (K z2) as (n2 & ->); [lia|].
  rewrite !N2Z.id, <- !N2Z.inj_mod. clear. lia.
Qed.
Theorem C27_float64_equal z1 z2 : 0 <= z1 < 2 ^ 64 -> 0 <= z2 < 2 ^ 64 ->
  flt_equal 11 52 z1 z2 <-> b64_compare (b64_of_bits z1) (b64_of_bits z2) = Some Eq.
Proof.
  intros H1 H2. unfold b64_compare, b64_of_bits. rewrite (compare_eq 52 11 eq_refl eq_refl eq_refl) by assumption.
  unfold flt_equal, flt_nan, flt_zero.
  change (2 ^ (52 + 11)) with (Z.of_N (2 ^ (11 + 52))). change ((2 ^ 11 - 1) * 2 ^ 52) with (Z.of_N ((2 ^ 11 - 1) * 2 ^ 52)).
  assert (K : forall z, 0 <= z -> exists n, z = Z.of_N n) by (intros z Hz; exists (Z.to_N z); lia).
  destruct (K z1) as (n1 & ->); [lia|]. destruct (K z2) as (n2 & ->); [lia|].
  rewrite !N2Z.id, <- !N2Z.inj_mod. clear. lia.
Qed.

(* Bit-level facts: xor, xor-shift and multiplication by an odd constant are invertible. *)
From Verif Require Import Base BaseFacts SpecCommon.
Open Scope N_scope.

Lemma lt_pow2_bits a w : a < 2^w <-> (forall i, w <= i -> N.testbit a i = false).
Proof.
  split.
  - intros H i Hi. destruct (N.eq_dec a 0) as [->|Ha]; [apply N.bits_0|].
    apply N.bits_above_log2. apply N.log2_lt_pow2 in H; lia.
  - intros H. destruct (N.eq_dec a 0) as [->|Ha]; [pose proof (N.pow_nonzero 2 w); lia|].
    apply N.log2_lt_pow2; [lia|]. destruct (N.lt_ge_cases (N.log2 a) w) as [|G]; [assumption|].
    specialize (H _ G). rewrite N.bit_log2 in H by exact Ha. discriminate.
Qed.
Lemma lxor_lt a b w : a < 2^w -> b < 2^w -> N.lxor a b < 2^w.
Proof.
  rewrite !lt_pow2_bits. intros Ha Hb i Hi. rewrite N.lxor_spec, Ha, Hb by assumption. reflexivity.
Qed.
Lemma shiftr_lt a k w : a < 2^w -> N.shiftr a k < 2^w.
Proof. rewrite !lt_pow2_bits. intros Ha i Hi. rewrite N.shiftr_spec by lia. apply Ha. lia. Qed.
Lemma lxor_inj_l a b c : N.lxor a b = N.lxor a c -> b = c.
Proof.
  intros H. apply (f_equal (N.lxor a)) in H.
  rewrite <- !N.lxor_assoc, N.lxor_nilpotent, !N.lxor_0_l in H. exact H.
Qed.
Lemma xorshift_inj s a b : 0 < s -> N.lxor a (SHR s a) = N.lxor b (SHR s b) -> a = b.
Proof.
  intros Hs E. unfold SHR in E.
  set (M := N.max (N.size a) (N.size b)).
  assert (HA : forall i, M <= i -> N.testbit a i = false).
  { apply lt_pow2_bits. pose proof (N.size_gt a) as G.
    pose proof (N.pow_le_mono_r 2 (N.size a) M). unfold M in *. lia. }
  assert (HB : forall i, M <= i -> N.testbit b i = false).
  { apply lt_pow2_bits. pose proof (N.size_gt b) as G.
    pose proof (N.pow_le_mono_r 2 (N.size b) M). unfold M in *. lia. }
  assert (K : forall d i, M <= i + N.of_nat d -> N.testbit a i = N.testbit b i).
  { induction d as [|d IH]; intros i Hi.
    - rewrite HA, HB by lia. reflexivity.
    - specialize (IH (i + s) ltac:(lia)).
      apply (f_equal (fun x => N.testbit x i)) in E.
      rewrite !N.lxor_spec, !N.shiftr_spec in E by lia. rewrite IH in E.
      destruct (N.testbit a i), (N.testbit b i), (N.testbit b (i + s)); cbn in E; congruence. }
  apply N.bits_inj. intros i. apply (K (N.to_nat M)). lia.
Qed.
Lemma mul_inj w m m' a b : (m * m') mod 2^w = 1 mod 2^w -> a < 2^w -> b < 2^w ->
  MUL w a m = MUL w b m -> a = b.
Proof.
  unfold MUL. intros Hm Ha Hb E.
  assert (P : 2^w <> 0) by now apply N.pow_nonzero.
  assert (R : forall x, x < 2^w -> x = ((x * m) mod 2^w * m') mod 2^w).
  { intros x Hx. rewrite N.mul_mod_idemp_l by exact P. rewrite <- N.mul_assoc.
    rewrite <- N.mul_mod_idemp_r by exact P. rewrite Hm. rewrite N.mul_mod_idemp_r by exact P.
    rewrite N.mul_1_r, N.mod_small by exact Hx. reflexivity. }
  rewrite (R a Ha), (R b Hb), E. reflexivity.
Qed.
Lemma add_inj_r w a b c : a < 2^w -> b < 2^w -> ADD w a c = ADD w b c -> a = b.
Proof.
  unfold ADD. intros Ha Hb E.
  assert (P : 2^w <> 0) by now apply N.pow_nonzero.
  assert (R : forall x, x < 2^w -> x = ((x + c) mod 2^w + (2^w - c mod 2^w)) mod 2^w).
  { intros x Hx. rewrite N.add_mod_idemp_l by exact P.
    pose proof (N.mod_lt c (2^w) P) as L.
    rewrite (N.div_mod c (2^w)) at 1 by exact P.
    replace (x + (2^w * (c / 2^w) + c mod 2^w) + (2^w - c mod 2^w)) with (x + (c / 2^w + 1) * 2^w) by lia.
    rewrite N.mod_add by exact P. symmetry. now apply N.mod_small. }
  rewrite (R a Ha), (R b Hb), E. reflexivity.
Qed.
Lemma ADD_comm' w a b : ADD w a b = ADD w b a.
Proof. unfold ADD. now rewrite N.add_comm. Qed.
Lemma ADD_lt' w a b : ADD w a b < 2^w.
Proof. apply N.mod_lt. now apply N.pow_nonzero. Qed.
Lemma MUL_lt' w a b : MUL w a b < 2^w.
Proof. apply N.mod_lt. now apply N.pow_nonzero. Qed.

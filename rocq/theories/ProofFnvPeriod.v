(* Consecutive results of fnv1a_32 / fnv1a_64 are pairwise distinct over the full period. *)
From Coq Require Import ZArith.
From Verif Require Import Base BaseFacts SpecCommon Hasher ModelFnv SpecFnv ProofFnv FnvPeriod.
Open Scope N_scope.

Lemma run_app h ops1 : forall s ops2,
  run h s (ops1 ++ ops2) =
  ('(rs1, s1) <- run h s ops1 ;; '(rs2, s2) <- run h s1 ops2 ;; Ok (rs1 ++ rs2, s2)).
Proof.
  induction ops1 as [|[p n|] t IH]; intros s ops2.
  - cbn. destruct (run h s ops2) as [[? ?]| | |]; reflexivity.
  - cbn [app run]. destruct (h_update h s p n); try reflexivity. cbn [bind]. apply IH.
  - cbn [app run]. destruct (h_result h s) as [[r s1]| | |]; try reflexivity. cbn [bind].
    rewrite IH. destruct (run h s1 t) as [[rs1 s2]| | |]; try reflexivity. cbn [bind].
    destruct (run h s2 ops2) as [[rs2 s3]| | |]; reflexivity.
Qed.

Lemma lxor_ff_byte r : r < 256 -> N.lxor r 255 = 255 - r.
Proof.
  intros H.
  assert (C : forallb (fun i => N.lxor (N.of_nat i) 255 =? 255 - N.of_nat i) (seq 0 256) = true)
    by (vm_compute; reflexivity).
  rewrite forallb_forall in C. specialize (C (N.to_nat r)). rewrite in_seq, N2Nat.id in C.
  apply N.eqb_eq, C. lia.
Qed.
Lemma lxor_ff s : N.lxor s 255 = 256 * (s / 256) + (255 - s mod 256).
Proof.
  rewrite <- lxor_ff_byte by (apply N.mod_lt; discriminate).
  rewrite (N.div_mod (N.lxor s 255) 256) by discriminate. f_equal.
  - f_equal. change 256 with (2^8). rewrite <- !N.shiftr_div_pow2. rewrite N.shiftr_lxor.
    change (N.shiftr 255 8) with 0. apply N.lxor_0_r.
  - change 256 with (2^8). rewrite <- !N.land_ones. apply N.bits_inj. intros i.
    rewrite N.land_spec, !N.lxor_spec, N.land_spec.
    destruct (N.ltb_spec i 8) as [Hi|Hi].
    + rewrite N.ones_spec_low by exact Hi. rewrite !andb_true_r. reflexivity.
    + rewrite (N.ones_spec_high _ i) by exact Hi. rewrite !andb_false_r.
      change 255 with (N.ones 8). rewrite N.ones_spec_high by exact Hi. reflexivity.
Qed.

Section P.
Variable F : FNV.
Variable w : nat.
Hypothesis HF : fnv_w F = N.of_nat w.
Hypothesis Hw : (9 <= w)%nat.
Let P := Z.of_N (fnv_prime F).
Hypothesis Hp : (P mod 2 = 1)%Z.
Hypothesis Hb : fnv_basis F < 2 ^ fnv_w F.
Hypothesis Hlow : low_ok P.
Hypothesis H512 : mid_ok P.
Definition rstep (s : N) : N := FNV1a_octet F s 255.
Definition rstate (k : nat) (s : N) : N := Nat.iter k rstep s.
Let M := (2 ^ Z.of_nat w)%Z.

Lemma rstep_Z s : Z.of_N (rstep s) = (g P (Z.of_N s) mod M)%Z.
Proof.
  unfold rstep, FNV1a_octet, MUL. rewrite lxor_ff, N2Z.inj_mod, HF, N2Z.inj_pow.
  rewrite nat_N_Z. f_equal. unfold g. rewrite N2Z.inj_mul.
  pose proof (N.mod_lt s 256 ltac:(discriminate)) as L. pose proof (N.div_mod s 256 ltac:(discriminate)) as D.
  rewrite Z.mul_comm. unfold P. f_equal.
  rewrite N2Z.inj_add, N2Z.inj_sub by lia. rewrite N2Z.inj_mul.
  assert (E : (Z.of_N s mod 256)%Z = Z.of_N (s mod 256)) by (rewrite N2Z.inj_mod; reflexivity).
  rewrite E. lia.
Qed.
Lemma rstate_Z k s : s < 2 ^ fnv_w F -> Z.of_N (rstate k s) = (iter P k (Z.of_N s) mod M)%Z.
Proof.
  intros H. induction k as [|k IH].
  - cbn. symmetry. apply Z.mod_small. split; [apply N2Z.is_nonneg|].
    unfold M. apply N2Z.inj_lt in H. rewrite HF, N2Z.inj_pow, nat_N_Z in H. exact H.
  - change (rstate (S k) s) with (rstep (rstate k s)). rewrite rstep_Z, IH, iter_S.
    assert (DM : (256 | M)%Z).
    { exists (2 ^ Z.of_nat (w - 8))%Z. unfold M. change 256%Z with (2 ^ 8)%Z. rewrite <- Z.pow_add_r by lia. f_equal. lia. }
    exact (iter_mod P 1 M (iter P k (Z.of_N s)) DM ltac:(apply Z.pow_nonzero; lia)).
Qed.

Lemma rstate_inj s i j : s < 2 ^ fnv_w F -> N.of_nat i < 2 ^ fnv_w F -> N.of_nat j < 2 ^ fnv_w F ->
  rstate i s = rstate j s -> i = j.
Proof.
  assert (X : forall i j, (i < j)%nat -> s < 2 ^ fnv_w F -> N.of_nat j < 2 ^ fnv_w F -> rstate i s <> rstate j s).
  { clear i j. intros i j Hij Hs Hj E. apply (f_equal Z.of_N) in E. rewrite !rstate_Z in E by exact Hs.
    replace j with (i + (j - i))%nat in E by lia. rewrite iter_add in E.
    symmetry in E. apply (period P w Hw Hp Hlow H512 _ eq_refl) in E; [|lia].
    apply Z.divide_pos_le in E; [|lia]. fold M in E.
    apply N2Z.inj_lt in Hj. rewrite HF, N2Z.inj_pow, !nat_N_Z in Hj. unfold M in E. lia. }
  intros Hs Hi Hj E. destruct (Nat.lt_total i j) as [L|[L|L]]; [|exact L|].
  - now apply X in E.
  - symmetry in E. now apply X in E.
Qed.

Variable pf : plat.
Lemma rstate_swap k s : rstate k (rstep s) = rstate (S k) s.
Proof. induction k as [|k IH]; [reflexivity|]. cbn. cbn in IH. rewrite <- IH. reflexivity. Qed.
Lemma run_results k : forall s, run (fnv_class F pf) s (repeat OResult k)
  = Ok (map (fun i => rstate i s) (seq 0 k), rstate k s).
Proof.
  induction k as [|k IH]; intros s; [reflexivity|].
  cbn [repeat run fnv_class h_result]. unfold fnv_result at 1. cbv zeta. cbn [bind].
  change ((N.lxor s 255 * fnv_prime F) mod 2 ^ fnv_w F) with (rstep s).
  rewrite IH. cbn [bind]. do 2 f_equal.
  - cbn [seq map]. f_equal. rewrite <- seq_shift, map_map. apply map_ext. intros i.
    apply rstate_swap.
  - apply rstate_swap.
Qed.

Lemma FNV1a_lt l : FNV1a F l < 2 ^ fnv_w F.
Proof.
  unfold FNV1a, FNV1a_from. assert (G : forall l s, s < 2 ^ fnv_w F -> fold_left (FNV1a_octet F) l s < 2 ^ fnv_w F).
  { clear l. induction l as [|b l IH]; intros s Hs; [exact Hs|]. cbn [fold_left]. apply IH.
    apply N.mod_lt, N.pow_nonzero. discriminate. }
  now apply G.
Qed.

Theorem fnv_results_distinct c ops k : valid_ctor c -> Forall (valid_op true) ops ->
  N.of_nat k <= 2 ^ fnv_w F ->
  exists rs rs' s s', exec (fnv_class F pf) c ops = Ok (rs, s) /\
    exec (fnv_class F pf) c (ops ++ repeat OResult k) = Ok (rs ++ rs', s') /\
    length rs' = k /\ NoDup rs' /\ (N.of_nat k = 2 ^ fnv_w F -> s' = s).
Proof.
  intros HC HO Hk. pose proof (fnv_exec F pf c ops HC HO) as E.
  unfold exec in *. rewrite (fnv_construct F pf c HC) in *. cbn [bind] in *.
  set (st := FNV1a F (vfinal fnv_pad (fnv_start c) (segments [] ops))) in *.
  assert (Hst : st < 2 ^ fnv_w F) by apply FNV1a_lt.
  do 2 eexists. exists st. eexists. split; [exact E|]. rewrite run_app, E. cbn [bind].
  rewrite run_results. cbn [bind]. split; [reflexivity|].
  split; [now rewrite map_length, seq_length|]. split.
  - apply NoDup_nth_error. intros i j Hi Hij. rewrite map_length, seq_length in Hi.
    destruct (Nat.lt_ge_cases j k) as [Hj|Hj].
    + rewrite !nth_error_map in Hij.
      rewrite !(nth_error_nth' (seq 0 k) 0%nat) in Hij by (rewrite seq_length; assumption).
      rewrite !seq_nth in Hij by assumption. cbn [option_map Nat.add] in Hij. injection Hij as Hij.
      apply (rstate_inj st i j Hst); [lia|lia|exact Hij].
    + exfalso. rewrite (proj2 (nth_error_None (map _ _) j)) in Hij by (rewrite map_length, seq_length; lia).
      apply nth_error_None in Hij. rewrite map_length, seq_length in Hij. lia.
  - intros Ek. apply N2Z.inj. rewrite rstate_Z by exact Hst.
    unfold M. rewrite (period_full P w Hw Hp Hlow H512 _ eq_refl (Z.of_N st) k).
    + apply Z.mod_small. split; [apply N2Z.is_nonneg|]. apply N2Z.inj_lt in Hst.
      rewrite HF, N2Z.inj_pow, nat_N_Z in Hst. exact Hst.
    + apply (f_equal Z.of_N) in Ek. rewrite HF, N2Z.inj_pow, !nat_N_Z in Ek. exact Ek.
Qed.
End P.

Lemma low32 : low_ok (Z.of_N (fnv_prime FNV32)).
Proof. vm_compute. reflexivity. Qed.
Lemma mid32 : mid_ok (Z.of_N (fnv_prime FNV32)).
Proof. vm_compute. reflexivity. Qed.
Theorem fnv32_results_distinct pf c ops k : valid_ctor c -> Forall (valid_op true) ops ->
  N.of_nat k <= 2 ^ 32 ->
  exists rs rs' s s', exec (fnv32_class pf) c ops = Ok (rs, s) /\
    exec (fnv32_class pf) c (ops ++ repeat OResult k) = Ok (rs ++ rs', s') /\
    length rs' = k /\ NoDup rs' /\ (N.of_nat k = 2 ^ 32 -> s' = s).
Proof.
  exact (fnv_results_distinct FNV32 32 eq_refl ltac:(lia) eq_refl eq_refl low32 mid32 pf c ops k).
Qed.
Lemma low64 : low_ok (Z.of_N (fnv_prime FNV64)).
Proof. vm_compute. reflexivity. Qed.
Lemma mid64 : mid_ok (Z.of_N (fnv_prime FNV64)).
Proof. vm_compute. reflexivity. Qed.
Theorem fnv64_results_distinct pf c ops k : valid_ctor c -> Forall (valid_op true) ops ->
  N.of_nat k <= 2 ^ 64 ->
  exists rs rs' s s', exec (fnv64_class pf) c ops = Ok (rs, s) /\
    exec (fnv64_class pf) c (ops ++ repeat OResult k) = Ok (rs ++ rs', s') /\
    length rs' = k /\ NoDup rs' /\ (N.of_nat k = 2 ^ 64 -> s' = s).
Proof.
  exact (fnv_results_distinct FNV64 64 eq_refl ltac:(lia) eq_refl eq_refl low64 mid64 pf c ops k).
Qed.

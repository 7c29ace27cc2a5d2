(* C67: runs of one repeated byte, and repeated blocks, in messages hashed with fnv1a. *)
From Coq Require Import ZArith.
From Verif Require Import Base BaseFacts SpecCommon Gen Bits GenMD Hasher GenBlk Types ModelResult ModelAppend SpecAppend
  Behaves Instances ProofRuns Samples PropsHistory PropsAlg PropsAppend PropsSeeds PropsPrims ProofLocal PropsLocal.
From Verif Require Import SpecFnv ProofFnv ProofFnvRuns.
Open Scope N_scope.

(* ---------- one octet step is a bijection ---------- *)
Section F.
Variable F : FNV.
Variable inv : N.
Variable w : nat.
Hypothesis HF : fnv_w F = N.of_nat w.
Hypothesis HI : (fnv_prime F * inv) mod 2 ^ fnv_w F = 1 mod 2 ^ fnv_w F.
Hypothesis HW : (8 <= w)%nat.
Hypothesis HB : fnv_basis F < 2 ^ fnv_w F.
Notation P := (Z.of_N (fnv_prime F)).
Hypothesis HP : (P mod 2 = 1)%Z.

Lemma from_lt l s : s < 2 ^ fnv_w F -> FNV1a_from F s l < 2 ^ fnv_w F.
Proof. revert s. induction l as [|b l IH]; intros s Hs; [exact Hs|]. cbn [FNV1a_from fold_left]. apply IH, MUL_lt'. Qed.
Lemma from_inj l : bytes l -> forall s1 s2, s1 < 2 ^ fnv_w F -> s2 < 2 ^ fnv_w F -> FNV1a_from F s1 l = FNV1a_from F s2 l -> s1 = s2.
Proof.
  induction l as [|b l IH]; intros Hl s1 s2 L1 L2 E; [exact E|]. inversion Hl as [|? ? Hb Hl']; subst. cbn [FNV1a_from fold_left] in E. apply IH in E; [|exact Hl'|apply MUL_lt'|apply MUL_lt'].
  assert (H8 : 8 <= fnv_w F) by lia.
  unfold FNV1a_octet in E. pose proof (byte_lt _ _ H8 Hb). apply (mul_inj _ _ inv) in E; [|exact HI|apply lxor_lt; assumption|apply lxor_lt; assumption].
  now apply lxor_inj_r in E.
Qed.
Lemma from_app s l1 l2 : FNV1a_from F s (l1 ++ l2) = FNV1a_from F (FNV1a_from F s l1) l2.
Proof. apply fold_left_app. Qed.

(* equality of the states after runs of lengths i <= j, from state s *)
Lemma runs_equal b s i j : b < 256 -> s < 2 ^ fnv_w F -> (i <= j)%nat ->
  (FNV1a_from F s (repeat b i) = FNV1a_from F s (repeat b j) <->
   it (oct F b) (j - i) (Z.of_N s) mod 2 ^ Z.of_nat w = Z.of_N s mod 2 ^ Z.of_nat w)%Z.
Proof.
  intros Hb Hs Hij. replace j with (j - i + i)%nat at 1 by lia. rewrite repeat_app, from_app.
  assert (X : FNV1a_from F s (repeat b (j - i)) = s <-> (it (oct F b) (j - i) (Z.of_N s) mod 2 ^ Z.of_nat w = Z.of_N s mod 2 ^ Z.of_nat w)%Z).
  { rewrite <- (run_Z F b Hb w (j - i) HF HW s Hs). rewrite Z.mod_small.
    - split; [intros ->; reflexivity|apply N2Z.inj].
    - split; [apply N2Z.is_nonneg|]. apply N2Z.inj_lt in Hs. rewrite HF, N2Z.inj_pow, nat_N_Z in Hs. exact Hs. }
  rewrite <- X. split; intros E; [|now rewrite E].
  symmetry. apply (from_inj (repeat b i)); [|exact Hs|now apply from_lt|exact E].
  apply Forall_forall. intros y Hy. apply repeat_spec in Hy. now subst y.
Qed.
Lemma runs_period b s n M i j : b < 256 -> s < 2 ^ fnv_w F -> (8 <= n < w)%nat -> (M mod 2 = 0)%nat -> (0 < M)%nat ->
  (it (oct F b) M (Z.of_N s) mod 2 ^ Z.of_nat (S n) = (Z.of_N s + 2 ^ Z.of_nat n) mod 2 ^ Z.of_nat (S n))%Z ->
  (forall r, (0 < r < M)%nat -> it (oct F b) r (Z.of_N s) mod 2 ^ Z.of_nat n <> Z.of_N s mod 2 ^ Z.of_nat n)%Z ->
  (FNV1a_from F s (repeat b i) = FNV1a_from F s (repeat b j) <->
   N.of_nat i mod (N.of_nat M * 2 ^ N.of_nat (w - n)) = N.of_nat j mod (N.of_nat M * 2 ^ N.of_nat (w - n))).
Proof.
  intros Hb Hs Hn HM M0 C1 C2.
  assert (G : forall i j, (i <= j)%nat -> (FNV1a_from F s (repeat b i) = FNV1a_from F s (repeat b j) <->
    N.of_nat i mod (N.of_nat M * 2 ^ N.of_nat (w - n)) = N.of_nat j mod (N.of_nat M * 2 ^ N.of_nat (w - n)))).
  { clear i j. intros i j Hij. rewrite (runs_equal b s i j Hb Hs Hij).
    rewrite (exact_period (oct F b) P (oct_shift F b) HP n w M (Z.of_N s) (proj1 Hn) (proj2 Hn) HM M0 C1 C2 (j - i)).
    assert (EQ : (Z.of_nat M * 2 ^ Z.of_nat (w - n))%Z = Z.of_N (N.of_nat M * 2 ^ N.of_nat (w - n))) by (rewrite N2Z.inj_mul, N2Z.inj_pow, !nat_N_Z; reflexivity).
    rewrite EQ. set (Q := N.of_nat M * 2 ^ N.of_nat (w - n)) in *.
    assert (Q0 : Q <> 0). { unfold Q. apply N.neq_mul_0. split; [lia|]. apply N.pow_nonzero. discriminate. }
    clearbody Q. clear - Hij Q0. split.
    - intros [q Hq]. assert (Ej : N.of_nat j = N.of_nat i + Z.to_N q * Q).
      { apply N2Z.inj. assert (0 <= q)%Z by nia. rewrite N2Z.inj_add, N2Z.inj_mul, Z2N.id, !nat_N_Z by assumption. lia. }
      rewrite Ej, N.mod_add by exact Q0. reflexivity.
    - intros E. exists (Z.of_N (N.of_nat j / Q) - Z.of_N (N.of_nat i / Q))%Z.
      pose proof (N.div_mod (N.of_nat i) Q Q0) as D1. pose proof (N.div_mod (N.of_nat j) Q Q0) as D2. rewrite E in D1.
      rewrite Nat2Z.inj_sub by exact Hij. rewrite <- !nat_N_Z. rewrite D1 at 1. rewrite D2 at 1. rewrite !N2Z.inj_add, !N2Z.inj_mul. ring. }
  destruct (Nat.le_ge_cases i j) as [L|L]; [now apply G|]. split; intros E; symmetry; apply (G j i L); now symmetry.
Qed.

(* ---------- repeated blocks ---------- *)
Lemma octet_tri b n x y : (n <= w)%nat ->
  (x mod 2 ^ N.of_nat n = y mod 2 ^ N.of_nat n <-> FNV1a_octet F x b mod 2 ^ N.of_nat n = FNV1a_octet F y b mod 2 ^ N.of_nat n).
Proof.
  intros Hn. set (m := 2 ^ N.of_nat n). assert (M0 : m <> 0) by (apply N.pow_nonzero; discriminate).
  assert (DV : forall z, (z mod 2 ^ fnv_w F) mod m = z mod m).
  { intros z. rewrite HF. replace (2 ^ N.of_nat w) with (m * 2 ^ N.of_nat (w - n)).
    - rewrite N.mod_mul_r by (exact M0 || (apply N.pow_nonzero; discriminate)). rewrite N.mul_comm, N.mod_add, N.mod_mod by exact M0. reflexivity.
    - unfold m. rewrite <- N.pow_add_r. f_equal. lia. }
  assert (LX : forall z, N.lxor z b mod m = N.lxor (z mod m) (b mod m)).
  { intros z. unfold m. rewrite <- !N.land_ones. apply N.bits_inj. intros i. rewrite !N.lxor_spec, !N.land_spec, N.lxor_spec. now destruct (N.testbit z i), (N.testbit b i), (N.testbit (N.ones _) i). }
  unfold FNV1a_octet, MUL. rewrite !DV. rewrite !(N.mul_mod (N.lxor _ b)), !LX by exact M0.
  split; [intros ->; reflexivity|]. intros E.
  assert (U : forall z, ((N.lxor (z mod m) (b mod m) * (fnv_prime F mod m)) mod m * (inv mod m)) mod m = N.lxor (z mod m) (b mod m) mod m).
  { intros z. set (c := N.lxor (z mod m) (b mod m)). rewrite N.mul_mod_idemp_l by exact M0.
    replace (c * (fnv_prime F mod m) * (inv mod m)) with (c * ((fnv_prime F mod m) * (inv mod m))) by ring.
    rewrite N.mul_mod by exact M0. rewrite <- (N.mul_mod (fnv_prime F) inv) by exact M0.
    rewrite <- (DV (fnv_prime F * inv)), HI, DV. rewrite <- N.mul_mod by exact M0. now rewrite N.mul_1_r. }
  assert (E2 : N.lxor (x mod m) (b mod m) mod m = N.lxor (y mod m) (b mod m) mod m) by (rewrite <- (U x), E; apply U).
  assert (LT : forall z, N.lxor (z mod m) (b mod m) < m) by (intros z; apply lxor_lt; apply N.mod_lt; exact M0).
  rewrite (N.mod_small (N.lxor (x mod m) _)), (N.mod_small (N.lxor (y mod m) _)) in E2 by apply LT. now apply lxor_inj_r in E2.
Qed.
Lemma block_tri u n : (n <= w)%nat -> forall x y,
  (x mod 2 ^ N.of_nat n = y mod 2 ^ N.of_nat n <-> FNV1a_from F x u mod 2 ^ N.of_nat n = FNV1a_from F y u mod 2 ^ N.of_nat n).
Proof. intros Hn. induction u as [|b u IH]; intros x y; [reflexivity|]. cbn [FNV1a_from fold_left]. rewrite (octet_tri b n x y Hn). apply IH. Qed.
Lemma block_iter u k s : FNV1a_from F s (concat (repeat u k)) = Nat.iter k (fun s => FNV1a_from F s u) s.
Proof.
  assert (G : forall k s, Nat.iter (S k) (fun s => FNV1a_from F s u) s = Nat.iter k (fun s => FNV1a_from F s u) (FNV1a_from F s u)).
  { clear. intros k s. replace (S k) with (k + 1)%nat by lia. apply iter_plus. }
  revert s. induction k as [|k IH]; intros s; [reflexivity|]. rewrite G. cbn [repeat concat]. rewrite from_app. apply IH.
Qed.
Lemma block_return u k s : s < 2 ^ fnv_w F -> N.of_nat k = 2 ^ fnv_w F -> FNV1a_from F s (concat (repeat u k)) = s.
Proof.
  intros Hs Hk. assert (Ek : k = (2 ^ w)%nat). { apply Nat2N.inj. rewrite Hk, HF. symmetry. apply Nat2N.inj_pow. }
  pose proof (tri_return (fun s => FNV1a_from F s u) w (fun n x y Hn => block_tri u n Hn x y) w (le_n w) s) as E.
  rewrite <- HF in E. rewrite block_iter, Ek. rewrite !N.mod_small in E; [exact E|exact Hs|].
  assert (G : forall j, Nat.iter j (fun s => FNV1a_from F s u) s < 2 ^ fnv_w F).
  { induction j as [|j IH]; [exact Hs|]. cbn [Nat.iter nat_rect]. now apply from_lt. }
  apply G.
Qed.
End F.

Definition odd_checks (F : FNV) : bool :=
  forallb (fun k => let b := N.of_nat (2 * k + 1) in checked (oct F b) 8 256 0) (seq 0 128).
Lemma odd_checked F b : odd_checks F = true -> b < 256 -> N.odd b = true -> checked (oct F b) 8 256 0 = true.
Proof.
  intros H Hb Ho. unfold odd_checks in H. rewrite forallb_forall in H.
  specialize (H (N.to_nat (b / 2))). cbv beta zeta in H.
  assert (E : N.of_nat (2 * N.to_nat (b / 2) + 1) = b).
  { pose proof (N.div_mod b 2 ltac:(discriminate)) as D. rewrite <- N.bit0_odd, N.bit0_eqb in Ho. apply N.eqb_eq in Ho. lia. }
  rewrite E in H. apply H. apply in_seq. assert (b / 2 < 128) by (apply N.div_lt_upper_bound; [discriminate|exact Hb]). lia.
Qed.
Definition rint (r : Instances.result) : N := match r with RInt _ x => x | _ => 0 end.
(* [levels]: for the even bytes in order, the level n at which doubling starts, and the period below it *)
Definition even_checks (F : FNV) (w g : nat) (levels : list (nat * nat)) : bool :=
  forallb (fun k => let b := N.of_nat (2 * k) in let '(n, M) := nth k levels (0, 0)%nat in
    Nat.leb 8 n && Nat.ltb n w && Nat.eqb (M mod 2) 0 && Nat.ltb 0 M && Nat.leb (2 ^ g) (M * 2 ^ (13 - n))
    && Nat.leb n 13 && checked (oct F b) n M (Z.of_N (fnv_basis F))) (seq 0 128).

Section Runs.
Variable F : FNV.
Variable inv : N.
Variable w : nat.
Hypothesis HF : fnv_w F = N.of_nat w.
Hypothesis HI : (fnv_prime F * inv) mod 2 ^ fnv_w F = 1 mod 2 ^ fnv_w F.
Hypothesis HW : (13 < w)%nat.
Hypothesis HB : fnv_basis F < 2 ^ fnv_w F.
Hypothesis HP : (Z.of_N (fnv_prime F) mod 2 = 1)%Z.
Lemma HW8 : (8 <= w)%nat. Proof. lia. Qed.
Lemma odd_run b i j s : odd_checks F = true -> b < 256 -> N.odd b = true -> s < 2 ^ fnv_w F ->
  (FNV1a_from F s (repeat b i) = FNV1a_from F s (repeat b j) <-> N.of_nat i mod 2 ^ fnv_w F = N.of_nat j mod 2 ^ fnv_w F).
Proof.
  intros HC Hb Ho Hs. destruct (any_start (oct F b) _ (oct_shift F b) HP (odd_checked F b HC Hb Ho) (Z.of_N s)) as [C1 C2].
  assert (EP : N.of_nat 256 * 2 ^ N.of_nat (w - 8) = 2 ^ fnv_w F).
  { change (N.of_nat 256) with (2 ^ 8). rewrite <- N.pow_add_r, HF. f_equal. clear - HW. lia. }
  rewrite <- EP. apply (runs_period F inv w HF HI HW8 HB HP b s 8 256 i j Hb Hs); [lia|reflexivity|lia|exact C1|exact C2].
Qed.
Lemma default_run g levels b i j : odd_checks F = true -> even_checks F w g levels = true -> b < 256 -> (g <= 13)%nat -> i <> j ->
  N.of_nat i < N.of_nat j + 2 ^ N.of_nat (w - 13 + g) -> N.of_nat j < N.of_nat i + 2 ^ N.of_nat (w - 13 + g) ->
  FNV1a_from F (fnv_basis F) (repeat b i) <> FNV1a_from F (fnv_basis F) (repeat b j).
Proof.
  intros HO HV Hb Hg Hij L1 L2 E.
  assert (K : forall Q, 2 ^ N.of_nat (w - 13 + g) <= Q -> N.of_nat i mod Q = N.of_nat j mod Q -> False).
  { clear E. intros Q HQ E. set (T := 2 ^ N.of_nat (w - 13 + g)) in *. assert (T0 : T <> 0) by (apply N.pow_nonzero; discriminate).
    clearbody T. assert (Q0 : Q <> 0) by (clear - HQ T0; lia).
    pose proof (N.div_mod (N.of_nat i) Q Q0) as D1. pose proof (N.div_mod (N.of_nat j) Q Q0) as D2. rewrite E in D1.
    set (qi := N.of_nat i / Q) in *. set (qj := N.of_nat j / Q) in *. set (r := N.of_nat j mod Q) in *. clearbody qi qj r.
    clear - D1 D2 L1 L2 HQ Hij Q0. assert (qi <> qj) by (intros ->; lia). destruct (N.lt_total qi qj) as [L|[L|L]]; nia. }
  destruct (N.odd b) eqn:Ho.
  - apply (odd_run b i j (fnv_basis F) HO Hb Ho HB) in E. apply (K (2 ^ fnv_w F)); [|exact E]. rewrite HF. apply N.pow_le_mono_r; [discriminate|]. clear - HW Hg. lia.
  - unfold even_checks in HV. rewrite forallb_forall in HV. specialize (HV (N.to_nat (b / 2))). cbv beta zeta in HV.
    assert (EB : N.of_nat (2 * N.to_nat (b / 2)) = b).
    { pose proof (N.div_mod b 2 ltac:(discriminate)) as D. rewrite <- N.bit0_odd, N.bit0_eqb in Ho. apply N.eqb_neq in Ho.
      pose proof (N.mod_lt b 2 ltac:(discriminate)) as L3. clear - D Ho L3. lia. }
    rewrite EB in HV. destruct (nth (N.to_nat (b / 2)) levels (0, 0)%nat) as [n M].
    assert (HS : In (N.to_nat (b / 2)) (seq 0 128)).
    { apply in_seq. assert (L3 : b / 2 < 128) by (apply N.div_lt_upper_bound; [discriminate|exact Hb]). clear - L3. lia. }
    specialize (HV HS). rewrite !andb_true_iff in HV. destruct HV as [[[[[[A1 A2] A3] A4] A5] A6] A7].
    apply Nat.leb_le in A1. apply Nat.ltb_lt in A2. apply Nat.eqb_eq in A3. apply Nat.ltb_lt in A4. apply Nat.leb_le in A5. apply Nat.leb_le in A6.
    destruct (checked_ok (oct F b) _ (oct_shift F b) n M _ A1 A4 A7) as [C1 C2].
    apply (runs_period F inv w HF HI HW8 HB HP b (fnv_basis F) n M i j Hb HB (conj A1 A2) A3 A4 C1 C2) in E.
    apply (K _) in E; [exact E|].
    replace (2 ^ N.of_nat (w - 13 + g)) with (2 ^ N.of_nat (w - 13) * N.of_nat (2 ^ g)) by (rewrite Nat2N.inj_pow, <- N.pow_add_r; f_equal; clear - HW Hg A6; lia).
    replace (2 ^ N.of_nat (w - n)) with (2 ^ N.of_nat (w - 13) * N.of_nat (2 ^ (13 - n))) by (rewrite Nat2N.inj_pow, <- N.pow_add_r; f_equal; clear - HW Hg A6; lia).
    assert (A5' : N.of_nat (2 ^ g) <= N.of_nat M * N.of_nat (2 ^ (13 - n))) by (clear - A5; rewrite <- Nat2N.inj_mul; lia).
    generalize dependent (N.of_nat (2 ^ g)). generalize (N.of_nat (2 ^ (13 - n))), (2 ^ N.of_nat (w - 13)), (N.of_nat M). clear. intros. nia.
Qed.
End Runs.

Definition levels32 : list (nat * nat) := [(8, 64); (9, 2); (8, 32); (8, 64); (8, 64); (8, 32); (8, 16); (8, 64); (8, 64); (8, 16); (8, 32); (8, 64); (8, 64); (8, 32); (8, 8); (8, 64); (8, 64); (8, 8); (8, 32); (8, 64); (8, 64); (8, 32); (8, 16); (8, 64); (8, 64); (8, 16); (8, 32); (8, 64); (8, 64); (8, 32); (8, 4); (8, 64); (8, 64); (8, 4); (8, 32); (8, 64); (8, 64); (8, 32); (8, 16); (8, 64); (8, 64); (8, 16); (8, 32); (8, 64); (8, 64); (8, 32); (8, 8); (8, 64); (8, 64); (8, 8); (8, 32); (8, 64); (8, 64); (8, 32); (8, 16); (8, 64); (8, 64); (8, 16); (8, 32); (8, 64); (8, 64); (8, 32); (12, 2); (8, 64); (8, 64); (10, 2); (8, 32); (8, 64); (8, 64); (8, 32); (8, 16); (8, 64); (8, 64); (8, 16); (8, 32); (8, 64); (8, 64); (8, 32); (8, 8); (8, 64); (8, 64); (8, 8); (8, 32); (8, 64); (8, 64); (8, 32); (8, 16); (8, 64); (8, 64); (8, 16); (8, 32); (8, 64); (8, 64); (8, 32); (8, 4); (8, 64); (8, 64); (8, 4); (8, 32); (8, 64); (8, 64); (8, 32); (8, 16); (8, 64); (8, 64); (8, 16); (8, 32); (8, 64); (8, 64); (8, 32); (8, 8); (8, 64); (8, 64); (8, 8); (8, 32); (8, 64); (8, 64); (8, 32); (8, 16); (8, 64); (8, 64); (8, 16); (8, 32); (8, 64); (8, 64); (8, 32); (9, 2); (8, 64)]%nat.
Lemma odd32 : odd_checks FNV32 = true.
Proof. vm_compute. reflexivity. Qed.
Lemma even32 : even_checks FNV32 32 2 levels32 = true.
Proof. vm_compute. reflexivity. Qed.
Definition levels64 : list (nat * nat) := [(8, 64); (8, 4); (8, 32); (8, 64); (8, 64); (8, 32); (8, 16); (8, 64); (8, 64); (8, 16); (8, 32); (8, 64); (8, 64); (8, 32); (9, 2); (8, 64); (8, 64); (8, 2); (8, 32); (8, 64); (8, 64); (8, 32); (8, 16); (8, 64); (8, 64); (8, 16); (8, 32); (8, 64); (8, 64); (8, 32); (8, 4); (8, 64); (8, 64); (8, 4); (8, 32); (8, 64); (8, 64); (8, 32); (8, 16); (8, 64); (8, 64); (8, 16); (8, 32); (8, 64); (8, 64); (8, 32); (8, 2); (8, 64); (8, 64); (9, 2); (8, 32); (8, 64); (8, 64); (8, 32); (8, 16); (8, 64); (8, 64); (8, 16); (8, 32); (8, 64); (8, 64); (8, 32); (8, 4); (8, 64); (8, 64); (8, 4); (8, 32); (8, 64); (8, 64); (8, 32); (8, 16); (8, 64); (8, 64); (8, 16); (8, 32); (8, 64); (8, 64); (8, 32); (11, 2); (8, 64); (8, 64); (8, 2); (8, 32); (8, 64); (8, 64); (8, 32); (8, 16); (8, 64); (8, 64); (8, 16); (8, 32); (8, 64); (8, 64); (8, 32); (8, 4); (8, 64); (8, 64); (8, 4); (8, 32); (8, 64); (8, 64); (8, 32); (8, 16); (8, 64); (8, 64); (8, 16); (8, 32); (8, 64); (8, 64); (8, 32); (8, 2); (8, 64); (8, 64); (13, 2); (8, 32); (8, 64); (8, 64); (8, 32); (8, 16); (8, 64); (8, 64); (8, 16); (8, 32); (8, 64); (8, 64); (8, 32); (8, 4); (8, 64)]%nat.
Lemma odd64 : odd_checks FNV64 = true.
Proof. vm_compute. reflexivity. Qed.
Lemma even64 : even_checks FNV64 64 1 levels64 = true.
Proof. vm_compute. reflexivity. Qed.

(* ---------- fnv1a_32 ---------- *)
(* In any message, with any seed, changing the length of a run of an odd byte changes the hash, unless by a multiple of 2^32 *)
Theorem C67_fnv32_odd e f c cs1 cs2 m t b i j : valid_env e -> valid_ctor c -> valid_pieces Afnv32 cs1 -> valid_pieces Afnv32 cs2 ->
  b < 256 -> N.odd b = true -> fed cs1 = m ++ repeat b i ++ t -> fed cs2 = m ++ repeat b j ++ t ->
  (N.of_nat i mod 2^32 = N.of_nat j mod 2^32 -> runs e Afnv32 f c (hash_pieces cs1) = runs e Afnv32 f c (hash_pieces cs2)) /\
  (N.of_nat i mod 2^32 <> N.of_nat j mod 2^32 -> distinguished e Afnv32 f c (hash_pieces cs1) (hash_pieces cs2)).
Proof.
  intros HE HC V1 V2 Hb Ho F1 F2.
  assert (HS : FNV1a_from FNV32 (FNV1a FNV32 (fnv_start c)) m < 2 ^ fnv_w FNV32) by (apply from_lt; unfold FNV1a; apply from_lt; reflexivity).
  pose proof (odd_run FNV32 0x359c449b 32 eq_refl eq_refl ltac:(lia) eq_refl eq_refl b i j _ odd32 Hb Ho HS) as R. change (2 ^ fnv_w FNV32) with (2^32) in R.
  assert (BT : bytes t). { pose proof (pieces_bytes _ _ V1) as B. rewrite F1 in B. apply bytes_app in B. destruct B as [_ B]. apply bytes_app in B. apply B. }
  split.
  - intros E. apply R in E. rewrite !first_result' by (assumption || discriminate). cbn [machine_of fnv_machine mc_start mc_ar mc_au fst].
    rewrite F1, F2. unfold FNV1a. rewrite !from_app. apply (f_equal (fun x => Ok [RInt I32 (FNV1a_from FNV32 x t)])). exact E.
  - intros NE. apply distinguished_by; try assumption; [discriminate|]. cbn [machine_of fnv_machine mc_start mc_ar mc_au fst].
    intros E. apply NE, R. rewrite F1, F2 in E. unfold FNV1a in E. rewrite !from_app in E.
    apply (f_equal rint) in E. cbn [rint] in E.
    apply (from_inj FNV32 0x359c449b 32 eq_refl eq_refl ltac:(lia) eq_refl t BT) in E; [exact E|apply from_lt, HS|apply from_lt, HS].
Qed.
(* A default constructed object tells apart all messages that start with runs of the same byte of lengths differing by less than 2^21 *)
Theorem C67_fnv32_run e f cs1 cs2 t b i j : valid_env e -> valid_pieces Afnv32 cs1 -> valid_pieces Afnv32 cs2 ->
  b < 256 -> fed cs1 = repeat b i ++ t -> fed cs2 = repeat b j ++ t ->
  i <> j -> N.of_nat i < N.of_nat j + 2^21 -> N.of_nat j < N.of_nat i + 2^21 ->
  distinguished e Afnv32 f CDefault (hash_pieces cs1) (hash_pieces cs2).
Proof.
  intros HE V1 V2 Hb F1 F2 Hij L1 L2. apply distinguished_by; try assumption; [exact I|discriminate|]. cbn [machine_of fnv_machine mc_start mc_ar mc_au fst fnv_start app].
  assert (BT : bytes t). { pose proof (pieces_bytes _ _ V1) as B. rewrite F1 in B. apply bytes_app in B. apply B. }
  assert (HS : fnv_basis FNV32 < 2 ^ fnv_w FNV32) by reflexivity.
  intros E. apply (default_run FNV32 0x359c449b 32 eq_refl eq_refl ltac:(lia) HS eq_refl 2 levels32 b i j odd32 even32 Hb ltac:(lia) Hij L1 L2).
  rewrite F1, F2 in E. unfold FNV1a in E. rewrite !from_app in E.
  apply (f_equal rint) in E. cbn [rint] in E.
  apply (from_inj FNV32 0x359c449b 32 eq_refl eq_refl ltac:(lia) eq_refl t BT) in E; [exact E|apply from_lt, HS|apply from_lt, HS].
Qed.
(* ... and not more: 2^21 bytes of value 124 at the beginning of a message have no effect *)
Theorem C67_fnv32_run_limit e f cs1 cs2 t i j : valid_env e -> valid_pieces Afnv32 cs1 -> valid_pieces Afnv32 cs2 ->
  fed cs1 = repeat 124 i ++ t -> fed cs2 = repeat 124 j ++ t -> N.of_nat j = N.of_nat i + 2^21 ->
  runs e Afnv32 f CDefault (hash_pieces cs1) = runs e Afnv32 f CDefault (hash_pieces cs2).
Proof.
  intros HE V1 V2 F1 F2 Hj. rewrite !first_result' by (assumption || discriminate || exact I). cbn [machine_of fnv_machine mc_start mc_ar mc_au fst fnv_start app].
  rewrite F1, F2. unfold FNV1a. rewrite !from_app. apply (f_equal (fun x => Ok [RInt I32 (FNV1a_from FNV32 x t)])).
  assert (HS : fnv_basis FNV32 < 2 ^ fnv_w FNV32) by reflexivity.
  destruct (checked_ok (oct FNV32 124) _ (oct_shift FNV32 124) 12 2 (Z.of_N (fnv_basis FNV32)) ltac:(lia) ltac:(lia) ltac:(vm_compute; reflexivity)) as [C1 C2].
  apply (runs_period FNV32 0x359c449b 32 eq_refl eq_refl ltac:(lia) eq_refl eq_refl 124 _ 12 2 i j eq_refl HS ltac:(lia) eq_refl ltac:(lia) C1 C2).
  rewrite Hj. change (N.of_nat 2 * 2 ^ N.of_nat (32 - 12)) with (2^21). rewrite <- (N.mul_1_l (2^21)) at 2. now rewrite N.mod_add by discriminate.
Qed.
(* 2^32 copies of any block, anywhere in any message, have no effect, with any seed *)
Theorem C67_fnv32_blocks e f c cs1 cs2 m u t k : valid_env e -> valid_ctor c -> valid_pieces Afnv32 cs1 -> valid_pieces Afnv32 cs2 ->
  fed cs1 = m ++ t -> fed cs2 = m ++ concat (repeat u k) ++ t -> N.of_nat k = 2^32 ->
  runs e Afnv32 f c (hash_pieces cs1) = runs e Afnv32 f c (hash_pieces cs2).
Proof.
  intros HE HC V1 V2 F1 F2 Hk. rewrite !first_result' by (assumption || discriminate). cbn [machine_of fnv_machine mc_start mc_ar mc_au fst].
  rewrite F1, F2. unfold FNV1a. rewrite !from_app. apply (f_equal (fun x => Ok [RInt I32 (FNV1a_from FNV32 x t)])). symmetry.
  apply (block_return FNV32 0x359c449b 32 eq_refl eq_refl ltac:(lia) eq_refl); [|exact Hk]. apply from_lt; unfold FNV1a; apply from_lt; reflexivity.
Qed.

(* ---------- fnv1a_64 ---------- *)
(* In any message, with any seed, changing the length of a run of an odd byte changes the hash, unless by a multiple of 2^64 *)
Theorem C67_fnv64_odd e f c cs1 cs2 m t b i j : valid_env e -> valid_ctor c -> valid_pieces Afnv64 cs1 -> valid_pieces Afnv64 cs2 ->
  b < 256 -> N.odd b = true -> fed cs1 = m ++ repeat b i ++ t -> fed cs2 = m ++ repeat b j ++ t ->
  (N.of_nat i mod 2^64 = N.of_nat j mod 2^64 -> runs e Afnv64 f c (hash_pieces cs1) = runs e Afnv64 f c (hash_pieces cs2)) /\
  (N.of_nat i mod 2^64 <> N.of_nat j mod 2^64 -> distinguished e Afnv64 f c (hash_pieces cs1) (hash_pieces cs2)).
Proof.
  intros HE HC V1 V2 Hb Ho F1 F2.
  assert (HS : FNV1a_from FNV64 (FNV1a FNV64 (fnv_start c)) m < 2 ^ fnv_w FNV64) by (apply from_lt; unfold FNV1a; apply from_lt; reflexivity).
  pose proof (odd_run FNV64 0xce965057aff6957b 64 eq_refl eq_refl ltac:(lia) eq_refl eq_refl b i j _ odd64 Hb Ho HS) as R. change (2 ^ fnv_w FNV64) with (2^64) in R.
  assert (BT : bytes t). { pose proof (pieces_bytes _ _ V1) as B. rewrite F1 in B. apply bytes_app in B. destruct B as [_ B]. apply bytes_app in B. apply B. }
  split.
  - intros E. apply R in E. rewrite !first_result' by (assumption || discriminate). cbn [machine_of fnv_machine mc_start mc_ar mc_au fst].
    rewrite F1, F2. unfold FNV1a. rewrite !from_app. apply (f_equal (fun x => Ok [RInt I64 (FNV1a_from FNV64 x t)])). exact E.
  - intros NE. apply distinguished_by; try assumption; [discriminate|]. cbn [machine_of fnv_machine mc_start mc_ar mc_au fst].
    intros E. apply NE, R. rewrite F1, F2 in E. unfold FNV1a in E. rewrite !from_app in E.
    apply (f_equal rint) in E. cbn [rint] in E.
    apply (from_inj FNV64 0xce965057aff6957b 64 eq_refl eq_refl ltac:(lia) eq_refl t BT) in E; [exact E|apply from_lt, HS|apply from_lt, HS].
Qed.
(* A default constructed object tells apart all messages that start with runs of the same byte of lengths differing by less than 2^52 *)
Theorem C67_fnv64_run e f cs1 cs2 t b i j : valid_env e -> valid_pieces Afnv64 cs1 -> valid_pieces Afnv64 cs2 ->
  b < 256 -> fed cs1 = repeat b i ++ t -> fed cs2 = repeat b j ++ t ->
  i <> j -> N.of_nat i < N.of_nat j + 2^52 -> N.of_nat j < N.of_nat i + 2^52 ->
  distinguished e Afnv64 f CDefault (hash_pieces cs1) (hash_pieces cs2).
Proof.
  intros HE V1 V2 Hb F1 F2 Hij L1 L2. apply distinguished_by; try assumption; [exact I|discriminate|]. cbn [machine_of fnv_machine mc_start mc_ar mc_au fst fnv_start app].
  assert (BT : bytes t). { pose proof (pieces_bytes _ _ V1) as B. rewrite F1 in B. apply bytes_app in B. apply B. }
  assert (HS : fnv_basis FNV64 < 2 ^ fnv_w FNV64) by reflexivity.
  intros E. apply (default_run FNV64 0xce965057aff6957b 64 eq_refl eq_refl ltac:(lia) HS eq_refl 1 levels64 b i j odd64 even64 Hb ltac:(lia) Hij L1 L2).
  rewrite F1, F2 in E. unfold FNV1a in E. rewrite !from_app in E.
  apply (f_equal rint) in E. cbn [rint] in E.
  apply (from_inj FNV64 0xce965057aff6957b 64 eq_refl eq_refl ltac:(lia) eq_refl t BT) in E; [exact E|apply from_lt, HS|apply from_lt, HS].
Qed.
(* ... and not more: 2^52 bytes of value 226 at the beginning of a message have no effect *)
Theorem C67_fnv64_run_limit e f cs1 cs2 t i j : valid_env e -> valid_pieces Afnv64 cs1 -> valid_pieces Afnv64 cs2 ->
  fed cs1 = repeat 226 i ++ t -> fed cs2 = repeat 226 j ++ t -> N.of_nat j = N.of_nat i + 2^52 ->
  runs e Afnv64 f CDefault (hash_pieces cs1) = runs e Afnv64 f CDefault (hash_pieces cs2).
Proof.
  intros HE V1 V2 F1 F2 Hj. rewrite !first_result' by (assumption || discriminate || exact I). cbn [machine_of fnv_machine mc_start mc_ar mc_au fst fnv_start app].
  rewrite F1, F2. unfold FNV1a. rewrite !from_app. apply (f_equal (fun x => Ok [RInt I64 (FNV1a_from FNV64 x t)])).
  assert (HS : fnv_basis FNV64 < 2 ^ fnv_w FNV64) by reflexivity.
  destruct (checked_ok (oct FNV64 226) _ (oct_shift FNV64 226) 13 2 (Z.of_N (fnv_basis FNV64)) ltac:(lia) ltac:(lia) ltac:(vm_compute; reflexivity)) as [C1 C2].
  apply (runs_period FNV64 0xce965057aff6957b 64 eq_refl eq_refl ltac:(lia) eq_refl eq_refl 226 _ 13 2 i j eq_refl HS ltac:(lia) eq_refl ltac:(lia) C1 C2).
  rewrite Hj. change (N.of_nat 2 * 2 ^ N.of_nat (64 - 13)) with (2^52). rewrite <- (N.mul_1_l (2^52)) at 2. now rewrite N.mod_add by discriminate.
Qed.
(* 2^64 copies of any block, anywhere in any message, have no effect, with any seed *)
Theorem C67_fnv64_blocks e f c cs1 cs2 m u t k : valid_env e -> valid_ctor c -> valid_pieces Afnv64 cs1 -> valid_pieces Afnv64 cs2 ->
  fed cs1 = m ++ t -> fed cs2 = m ++ concat (repeat u k) ++ t -> N.of_nat k = 2^64 ->
  runs e Afnv64 f c (hash_pieces cs1) = runs e Afnv64 f c (hash_pieces cs2).
Proof.
  intros HE HC V1 V2 F1 F2 Hk. rewrite !first_result' by (assumption || discriminate). cbn [machine_of fnv_machine mc_start mc_ar mc_au fst].
  rewrite F1, F2. unfold FNV1a. rewrite !from_app. apply (f_equal (fun x => Ok [RInt I64 (FNV1a_from FNV64 x t)])). symmetry.
  apply (block_return FNV64 0xce965057aff6957b 64 eq_refl eq_refl ltac:(lia) eq_refl); [|exact Hk]. apply from_lt; unfold FNV1a; apply from_lt; reflexivity.
Qed.

(* ---------- the hypotheses are satisfiable ---------- *)
Lemma whole_piece a l : bytes l -> valid_pieces a [(Ptr l, length l)].
Proof. intros H. constructor; [|constructor]. exact (conj (le_n (length l)) H). Qed.
Lemma whole_fed l : fed [(Ptr l, length l)] = l.
Proof. unfold fed. cbn [map concat data fst snd]. rewrite app_nil_r. apply firstn_all. Qed.
Lemma repeat_bytes b k : b < 256 -> bytes (repeat b k).
Proof. intros H. apply Forall_forall. intros y Hy. apply repeat_spec in Hy. now subst y. Qed.
Lemma concat_bytes u k : bytes u -> bytes (concat (repeat u k)).
Proof. intros H. induction k as [|k IH]; [constructor|]. cbn [repeat concat]. apply bytes_app. now split. Qed.
Example C67_fnv32_odd_ex : distinguished env_be Afnv32 le_flavor (CSeed 7) (hash_pieces [(Ptr [1; 65; 65; 3], 4%nat)]) (hash_pieces [(Ptr [1; 65], 2%nat); (Ptr [65; 65; 3], 3%nat)]).
Proof. apply (C67_fnv32_odd env_be le_flavor (CSeed 7) _ _ [1] [3] 65 2 3 env_be_valid); try reflexivity; try discriminate; repeat constructor; cbn; lia. Qed.
Example C67_fnv64_odd_ex : distinguished env_pc Afnv64 le_flavor (CSeed 7) (hash_pieces [(Ptr [1; 65; 65; 3], 4%nat)]) (hash_pieces [(Ptr [1; 65], 2%nat); (Ptr [65; 65; 3], 3%nat)]).
Proof. apply (C67_fnv64_odd env_pc le_flavor (CSeed 7) _ _ [1] [3] 65 2 3 env_pc_valid); try reflexivity; try discriminate; repeat constructor; cbn; lia. Qed.
Example C67_fnv32_run_ex : distinguished env_pc Afnv32 le_flavor CDefault (hash_pieces [(Ptr [0; 0; 9], 3%nat)]) (hash_pieces [(Ptr [0; 0; 0; 0; 9], 5%nat)]).
Proof. apply (C67_fnv32_run env_pc le_flavor _ _ [9] 0 2 4 env_pc_valid); try reflexivity; try discriminate; repeat constructor; cbn; lia. Qed.
Example C67_fnv64_run_ex : distinguished env_be Afnv64 le_flavor CDefault (hash_pieces [(Ptr [0; 0; 9], 3%nat)]) (hash_pieces [(Ptr [0; 0; 0; 0; 9], 5%nat)]).
Proof. apply (C67_fnv64_run env_be le_flavor _ _ [9] 0 2 4 env_be_valid); try reflexivity; try discriminate; repeat constructor; cbn; lia. Qed.
Example C67_fnv32_run_limit_ex : let l := repeat 124 (N.to_nat (2^21)) ++ [5] in
  runs env_pc Afnv32 le_flavor CDefault (hash_pieces [(Ptr [5], 1%nat)]) = runs env_pc Afnv32 le_flavor CDefault (hash_pieces [(Ptr l, length l)]).
Proof.
  intros l. apply (C67_fnv32_run_limit env_pc le_flavor _ _ [5] 0 (N.to_nat (2^21)) env_pc_valid).
  - exact (whole_piece Afnv32 [5] ltac:(repeat constructor)).
  - apply whole_piece. apply bytes_app. split; [now apply repeat_bytes|repeat constructor].
  - reflexivity. - apply whole_fed. - now rewrite N2Nat.id.
Qed.
Example C67_fnv32_blocks_ex : let l := [4] ++ concat (repeat [1; 2; 3] (N.to_nat (2^32))) ++ [5] in
  runs env_be Afnv32 le_flavor (CSeed 9) (hash_pieces [(Ptr [4; 5], 2%nat)]) = runs env_be Afnv32 le_flavor (CSeed 9) (hash_pieces [(Ptr l, length l)]).
Proof.
  intros l. apply (C67_fnv32_blocks env_be le_flavor (CSeed 9) _ _ [4] [1; 2; 3] [5] (N.to_nat (2^32)) env_be_valid).
  - reflexivity.
  - exact (whole_piece Afnv32 [4; 5] ltac:(repeat constructor)).
  - apply whole_piece. apply bytes_app. split; [repeat constructor|]. apply bytes_app. split; [apply concat_bytes|]; repeat constructor.
  - reflexivity. - apply whole_fed. - now rewrite N2Nat.id.
Qed.
Example C67_fnv64_run_limit_ex : let l := repeat 226 (N.to_nat (2^52)) ++ [5] in
  runs env_pc Afnv64 le_flavor CDefault (hash_pieces [(Ptr [5], 1%nat)]) = runs env_pc Afnv64 le_flavor CDefault (hash_pieces [(Ptr l, length l)]).
Proof.
  intros l. apply (C67_fnv64_run_limit env_pc le_flavor _ _ [5] 0 (N.to_nat (2^52)) env_pc_valid).
  - exact (whole_piece Afnv64 [5] ltac:(repeat constructor)).
  - apply whole_piece. apply bytes_app. split; [now apply repeat_bytes|repeat constructor].
  - reflexivity. - apply whole_fed. - now rewrite N2Nat.id.
Qed.
Example C67_fnv64_blocks_ex : let l := [4] ++ concat (repeat [1; 2; 3] (N.to_nat (2^64))) ++ [5] in
  runs env_be Afnv64 le_flavor (CSeed 9) (hash_pieces [(Ptr [4; 5], 2%nat)]) = runs env_be Afnv64 le_flavor (CSeed 9) (hash_pieces [(Ptr l, length l)]).
Proof.
  intros l. apply (C67_fnv64_blocks env_be le_flavor (CSeed 9) _ _ [4] [1; 2; 3] [5] (N.to_nat (2^64)) env_be_valid).
  - reflexivity.
  - exact (whole_piece Afnv64 [4; 5] ltac:(repeat constructor)).
  - apply whole_piece. apply bytes_app. split; [repeat constructor|]. apply bytes_app. split; [apply concat_bytes|]; repeat constructor.
  - reflexivity. - apply whole_fed. - now rewrite N2Nat.id.
Qed.

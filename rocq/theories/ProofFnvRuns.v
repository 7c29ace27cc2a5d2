(* Runs of one repeated byte in fnv1a: the exact period of the iteration of one octet step. *)
From Coq Require Import ZArith Znumtheory.
From Verif Require Import Base BaseFacts SpecCommon SpecFnv FnvPeriod.
Open Scope Z_scope.

Lemma pow_split i j : 2 ^ Z.of_nat (i + j) = 2 ^ Z.of_nat i * 2 ^ Z.of_nat j.
Proof. rewrite Nat2Z.inj_add, Z.pow_add_r by lia. reflexivity. Qed.
Lemma pow_pos' i : 0 < 2 ^ Z.of_nat i.
Proof. apply Z.pow_pos_nonneg; lia. Qed.
Lemma odd_rel v y : rel_prime (2 ^ Z.of_nat v) (1 + 2 * y).
Proof.
  apply rel_prime_sym. assert (R2 : rel_prime (1 + 2 * y) 2) by (apply bezout_rel_prime; apply (Bezout_intro _ _ _ 1 (- y)); ring).
  induction v as [|v IHv]; [apply rel_prime_sym, rel_prime_1|].
  rewrite Nat2Z.inj_succ, Z.pow_succ_r by lia. now apply rel_prime_mult.
Qed.

(* ---------- maps that act linearly above the low byte ---------- *)
Section Lin.
Variable f : Z -> Z.
Variable a : Z.
Hypothesis Hshift : forall z h, f (z + 256 * h) = f z + 256 * (a * h).
Hypothesis Ha : a mod 2 = 1.
Fixpoint it (k : nat) (z : Z) : Z := match k with O => z | S k' => it k' (f z) end.
Lemma it_add i j z : it (i + j) z = it j (it i z).
Proof. revert z; induction i as [|i IH]; intros z; [reflexivity|]. apply IH. Qed.
Lemma it_shift k : forall z h, it k (z + 256 * h) = it k z + 256 * (a ^ Z.of_nat k * h).
Proof.
  induction k as [|k IH]; intros z h.
  - change (it 0 (z + 256 * h)) with (z + 256 * h). change (it 0 z) with z. change (a ^ Z.of_nat 0) with 1. ring.
  - cbn [it]. rewrite Hshift, IH. rewrite Nat2Z.inj_succ, Z.pow_succ_r by lia. ring.
Qed.
Lemma it_mod k m z : (256 | m) -> m <> 0 -> it k (z mod m) mod m = it k z mod m.
Proof.
  intros [q Hq] Hm. rewrite (Z.div_mod z m Hm) at 2.
  replace (m * (z / m) + z mod m) with (z mod m + 256 * (q * (z / m))) by (rewrite Hq; ring).
  rewrite it_shift.
  replace (256 * (a ^ Z.of_nat k * (q * (z / m)))) with ((a ^ Z.of_nat k * (z / m)) * m) by (rewrite Hq; ring).
  now rewrite Z.mod_add.
Qed.
Lemma it_mult M x d : it M x = x + 256 * d -> forall t, it (M * t) x = x + 256 * d * S_ (a ^ Z.of_nat M) t.
Proof.
  intros H t. induction t as [|t IH].
  - rewrite Nat.mul_0_r. cbn [it S_]. ring.
  - replace (M * S t)%nat with (M * t + M)%nat by lia. rewrite it_add, IH.
    replace (256 * d * S_ (a ^ Z.of_nat M) t) with (256 * (d * S_ (a ^ Z.of_nat M) t)) by ring.
    rewrite it_shift, H.
    (* S_ (t+1) = 1 + A * S_ t *)
    assert (E : S_ (a ^ Z.of_nat M) (S t) = 1 + a ^ Z.of_nat M * S_ (a ^ Z.of_nat M) t).
    { change (S t) with (1 + t)%nat. rewrite S_add. cbn [S_]. change (Z.of_nat 0) with 0. rewrite Z.pow_0_r.
      change (Z.of_nat 1) with 1. rewrite Z.pow_1_r. ring. }
    rewrite E. ring.
Qed.
Lemma even_pow M : (M mod 2 = 0)%nat -> (a ^ Z.of_nat M) mod 4 = 1.
Proof.
  intros HM. pose proof (Nat.div_mod M 2 ltac:(discriminate)) as D. rewrite HM, Nat.add_0_r in D. rewrite D.
  rewrite Nat2Z.inj_mul, Z.pow_mul_r by lia. apply pow_mod4. change (Z.of_nat 2) with 2.
  rewrite (Z.div_mod a 2) by discriminate. rewrite Ha. set (b := a / 2).
  replace ((2 * b + 1) ^ 2) with (1 + (b * b + b) * 4) by ring. now rewrite Z.mod_add.
Qed.

Variables (n w M : nat) (x : Z).
Hypothesis Hn : (8 <= n)%nat.
Hypothesis Hw : (n < w)%nat.
Hypothesis HM : (M mod 2 = 0)%nat.
Hypothesis HM0 : (0 < M)%nat.
Hypothesis Hstep : it M x mod 2 ^ Z.of_nat (S n) = (x + 2 ^ Z.of_nat n) mod 2 ^ Z.of_nat (S n).


Lemma step_form : exists o, it M x = x + 2 ^ Z.of_nat n * (1 + 2 * o).
Proof.
  assert (D : (2 ^ Z.of_nat (S n) | it M x - (x + 2 ^ Z.of_nat n))).
  { apply Z.mod_divide; [pose proof (pow_pos' (S n)); lia|]. rewrite Zminus_mod, Hstep, Z.sub_diag. apply Z.mod_0_l.
    pose proof (pow_pos' (S n)); lia. }
  destruct D as [o Ho]. exists o. rewrite Nat2Z.inj_succ, Z.pow_succ_r in Ho by lia.
  replace (2 ^ Z.of_nat n * (1 + 2 * o)) with (2 ^ Z.of_nat n + o * (2 * 2 ^ Z.of_nat n)) by ring. rewrite <- Ho. ring.
Qed.
Lemma it_multiple t : exists o, it (M * t) x = x + 2 ^ Z.of_nat n * ((1 + 2 * o) * S_ (a ^ Z.of_nat M) t).
Proof.
  destruct step_form as [o Ho]. exists o.
  assert (E : 2 ^ Z.of_nat n = 256 * 2 ^ Z.of_nat (n - 8)).
  { replace n with (8 + (n - 8))%nat at 1 by lia. rewrite pow_split. reflexivity. }
  rewrite (it_mult M x (2 ^ Z.of_nat (n - 8) * (1 + 2 * o))).
  - rewrite E. ring.
  - rewrite Ho, E. ring.
Qed.
(* multiples of M are returns modulo 2^w exactly when 2^(w-n) divides the multiplier *)
Lemma returns t : it (M * t) x mod 2 ^ Z.of_nat w = x mod 2 ^ Z.of_nat w <-> (2 ^ Z.of_nat (w - n) | Z.of_nat t).
Proof.
  destruct (it_multiple t) as [o Ho]. rewrite Ho. pose proof (even_pow M HM) as HA.
  rewrite <- (S_div (a ^ Z.of_nat M) (w - n) HA t). set (T := S_ _ t).
  replace w with (n + (w - n))%nat at 1 2 by lia. rewrite pow_split. set (N1 := 2 ^ Z.of_nat n). set (N2 := 2 ^ Z.of_nat (w - n)).
  assert (P1 : 0 < N1) by apply pow_pos'. assert (P2 : 0 < N2) by apply pow_pos'. assert (P : N1 * N2 <> 0) by nia.
  split.
  - intros E. assert (D : (N1 * N2 | N1 * ((1 + 2 * o) * T))).
    { apply Z.mod_divide; [exact P|]. replace (N1 * ((1 + 2 * o) * T)) with (x + N1 * ((1 + 2 * o) * T) - x) by ring.
      rewrite Zminus_mod, E, Z.sub_diag. now apply Z.mod_0_l. }
    apply Z.mul_divide_cancel_l in D; [|lia]. apply Gauss in D; [exact D|apply odd_rel].
  - intros [q Hq]. rewrite Hq. replace (x + N1 * ((1 + 2 * o) * (q * N2))) with (x + ((1 + 2 * o) * q) * (N1 * N2)) by ring.
    now apply Z.mod_add.
Qed.
Lemma low_div : (256 | 2 ^ Z.of_nat n).
Proof. exists (2 ^ Z.of_nat (n - 8)). replace n with ((n - 8) + 8)%nat at 1 by lia. rewrite pow_split. reflexivity. Qed.
Lemma low_return t : it (M * t) x mod 2 ^ Z.of_nat n = x mod 2 ^ Z.of_nat n.
Proof.
  destruct (it_multiple t) as [o ->]. rewrite Z.mul_comm, Z.mod_add; [reflexivity|]. pose proof (pow_pos' n); lia.
Qed.
Hypothesis Hmin : forall r, (0 < r < M)%nat -> it r x mod 2 ^ Z.of_nat n <> x mod 2 ^ Z.of_nat n.
Theorem exact_period k : it k x mod 2 ^ Z.of_nat w = x mod 2 ^ Z.of_nat w <-> (Z.of_nat M * 2 ^ Z.of_nat (w - n) | Z.of_nat k).
Proof.
  split.
  - intros E. pose proof (Nat.div_mod k M ltac:(lia)) as D. set (q := (k / M)%nat) in *. set (r := (k mod M)%nat) in *.
    assert (Hr : (r < M)%nat) by (apply Nat.mod_upper_bound; lia).
    assert (E0 : it r x mod 2 ^ Z.of_nat n = x mod 2 ^ Z.of_nat n).
    { assert (F : it k x mod 2 ^ Z.of_nat n = x mod 2 ^ Z.of_nat n).
      { assert (G : forall z, (z mod 2 ^ Z.of_nat w) mod 2 ^ Z.of_nat n = z mod 2 ^ Z.of_nat n).
        { intros z. symmetry. apply Zmod_div_mod; [apply pow_pos'|apply pow_pos'|].
          exists (2 ^ Z.of_nat (w - n)). rewrite <- pow_split. f_equal. f_equal. clear - Hw. lia. }
        rewrite <- (G (it k x)), E. apply G. }
      rewrite D, it_add in F. rewrite <- F at 1.
      rewrite <- (it_mod r (2 ^ Z.of_nat n) (it (M * q) x)) by (apply low_div || (pose proof (pow_pos' n); lia)).
      rewrite low_return, it_mod by (apply low_div || (pose proof (pow_pos' n); lia)). reflexivity. }
    destruct (Nat.eq_dec r 0) as [R|R]; [|exfalso; apply (Hmin r); [lia|exact E0]].
    rewrite D, R, Nat.add_0_r in E |- *. apply returns in E. rewrite Nat2Z.inj_mul. now apply Z.mul_divide_mono_l.
  - intros [q Hq]. assert (Hq0 : 0 <= q). { pose proof (pow_pos' (w - n)). nia. }
    assert (Ek : k = (M * (Z.to_nat q * Z.to_nat (2 ^ Z.of_nat (w - n))))%nat).
    { apply Nat2Z.inj. pose proof (pow_pos' (w - n)). rewrite Hq, !Nat2Z.inj_mul, !Z2Nat.id by lia. ring. }
    rewrite Ek. apply returns. rewrite Nat2Z.inj_mul, !Z2Nat.id by (pose proof (pow_pos' (w - n)); lia). apply Z.divide_factor_r.
Qed.
End Lin.

(* the executable check of the hypotheses of [exact_period], one pass *)
Section Check.
Variable f : Z -> Z.
Fixpoint walk (m lo x : Z) (k : nat) (z : Z) : option Z :=   (* k more steps; None: met x modulo lo on the way *)
  match k with
  | O => Some z
  | S k' => let z := f z mod m in
            match k' with O => Some z | S _ => if z mod lo =? x mod lo then None else walk m lo x k' z end
  end.
Definition checked (n M : nat) (x : Z) : bool :=
  match walk (2 ^ Z.of_nat (S n)) (2 ^ Z.of_nat n) x M (x mod 2 ^ Z.of_nat (S n)) with
  | Some z => z =? (x + 2 ^ Z.of_nat n) mod 2 ^ Z.of_nat (S n)
  | None => false
  end.
Variable a : Z.
Hypothesis Hshift : forall z h, f (z + 256 * h) = f z + 256 * (a * h).
Lemma walk_ok m lo x : (256 | m) -> 0 < m -> (lo | m) -> 0 < lo -> forall k z y, walk m lo x k (z mod m) = Some y -> (0 < k)%nat ->
  y = it f k z mod m /\ forall r, (0 < r < k)%nat -> it f r z mod lo <> x mod lo.
Proof.
  intros Hm M0 Hl L0. induction k as [|k IH]; intros z y H K; [lia|]. cbn [walk] in H.
  assert (E : f (z mod m) mod m = f z mod m) by (exact (it_mod f a Hshift 1 m z Hm ltac:(lia))).
  rewrite E in H. destruct k as [|k].
  - injection H as <-. split; [reflexivity|]. intros r Hr. lia.
  - destruct (Z.eqb_spec ((f z mod m) mod lo) (x mod lo)) as [|NE]; [discriminate|].
    destruct (IH (f z) y H ltac:(lia)) as [Hy Hr]. split; [exact Hy|]. intros r R. destruct r as [|r]; [lia|].
    cbn [it]. destruct r as [|r].
    + cbn [it]. rewrite <- Zmod_div_mod in NE by assumption. exact NE.
    + apply Hr. lia.
Qed.
Lemma checked_ok n M x : (8 <= n)%nat -> (0 < M)%nat -> checked n M x = true ->
  it f M x mod 2 ^ Z.of_nat (S n) = (x + 2 ^ Z.of_nat n) mod 2 ^ Z.of_nat (S n) /\
  forall r, (0 < r < M)%nat -> it f r x mod 2 ^ Z.of_nat n <> x mod 2 ^ Z.of_nat n.
Proof.
  intros Hn HM H. unfold checked in H. destruct (walk _ _ _ _ _) as [y|] eqn:W; [|discriminate].
  apply Z.eqb_eq in H. apply walk_ok in W; [|..|exact HM].
  - destruct W as [-> W]. auto.
  - exists (2 ^ Z.of_nat (S n - 8)). replace (S n) with ((S n - 8) + 8)%nat at 1 by lia. rewrite pow_split. reflexivity.
  - apply pow_pos'.
  - exists 2. rewrite Nat2Z.inj_succ, Z.pow_succ_r by lia. reflexivity.
  - apply pow_pos'.
Qed.
End Check.

(* ---------- one octet ---------- *)
Section Octet.
Variable F : FNV.
Variable b : N.
Hypothesis Hb : (b < 256)%N.
Notation P := (Z.of_N (fnv_prime F)).
Definition xo (z : Z) : Z := 256 * (z / 256) + Z.lxor (z mod 256) (Z.of_N b).
Definition oct (z : Z) : Z := P * xo z.
Lemma oct_shift z h : oct (z + 256 * h) = oct z + 256 * (P * h).
Proof.
  unfold oct, xo. rewrite (Z.mul_comm 256 h), Z.div_add, Z.mod_add by discriminate. ring.
Qed.
Lemma xo_spec s : Z.of_N (N.lxor s b) = xo (Z.of_N s).
Proof.
  unfold xo. change 256 with (Z.of_N 256). rewrite <- (N2Z.inj_mod s 256), <- (N2Z.inj_div s 256).
  replace (Z.lxor (Z.of_N (s mod 256)) (Z.of_N b)) with (Z.of_N (N.lxor (s mod 256) b)) by (destruct (s mod 256)%N, b; reflexivity).
  rewrite <- N2Z.inj_mul, <- N2Z.inj_add. f_equal.
  rewrite (N.div_mod (N.lxor s b) 256) by discriminate. change 256%N with (2^8)%N. f_equal.
  - f_equal. rewrite <- !N.shiftr_div_pow2, N.shiftr_lxor. rewrite (N.shiftr_div_pow2 b). rewrite (N.div_small b) by exact Hb. apply N.lxor_0_r.
  - rewrite <- !N.land_ones. apply N.bits_inj. intros i. rewrite !N.land_spec, !N.lxor_spec, N.land_spec.
    destruct (N.ltb_spec i 8) as [Hi|Hi].
    + rewrite N.ones_spec_low by exact Hi. rewrite !andb_true_r. reflexivity.
    + rewrite N.ones_spec_high by exact Hi. rewrite !andb_false_r.
      assert (Eb : N.testbit b i = false).
      { rewrite <- (N.mod_small b (2^8) Hb). now apply N.mod_pow2_bits_high. }
      rewrite Eb. reflexivity.
Qed.
Lemma octet_Z w s : fnv_w F = N.of_nat w -> Z.of_N (FNV1a_octet F s b) = oct (Z.of_N s) mod 2 ^ Z.of_nat w.
Proof.
  intros HF. unfold FNV1a_octet, MUL. rewrite N2Z.inj_mod, HF, N2Z.inj_pow, nat_N_Z. f_equal.
  rewrite N2Z.inj_mul, xo_spec. unfold oct. ring.
Qed.
Lemma run_Z w k : fnv_w F = N.of_nat w -> (8 <= w)%nat -> forall s, (s < 2 ^ fnv_w F)%N ->
  Z.of_N (FNV1a_from F s (repeat b k)) = it oct k (Z.of_N s) mod 2 ^ Z.of_nat w.
Proof.
  intros HF Hw. induction k as [|k IH]; intros s Hs.
  - cbn [repeat FNV1a_from fold_left it]. symmetry. apply Z.mod_small. split; [apply N2Z.is_nonneg|].
    apply N2Z.inj_lt in Hs. rewrite HF, N2Z.inj_pow, nat_N_Z in Hs. exact Hs.
  - cbn [repeat FNV1a_from fold_left it]. change (fold_left (FNV1a_octet F) (repeat b k) (FNV1a_octet F s b)) with (FNV1a_from F (FNV1a_octet F s b) (repeat b k)).
    rewrite IH.
    + rewrite (octet_Z w s HF). apply (it_mod oct P oct_shift).
      * exists (2 ^ Z.of_nat (w - 8)). replace w with ((w - 8) + 8)%nat at 1 by lia. rewrite pow_split. reflexivity.
      * pose proof (pow_pos' w); lia.
    + unfold FNV1a_octet, MUL. apply N.mod_lt, N.pow_nonzero. discriminate.
Qed.
End Octet.

(* ---------- an odd byte: one cycle through all residues modulo 256 ---------- *)
Section Odd.
Variable f : Z -> Z.
Variable a : Z.
Hypothesis Hshift : forall z h, f (z + 256 * h) = f z + 256 * (a * h).
Hypothesis Ha : a mod 2 = 1.
Hypothesis Hone : checked f 8 256 0 = true.
Lemma one_cycle : it f 256 0 mod 512 = 256 /\ it f 256 0 mod 256 = 0 /\ forall r, (0 < r < 256)%nat -> it f r 0 mod 256 <> 0.
Proof.
  pose proof (checked_ok f a Hshift 8 256 0 ltac:(lia) ltac:(lia) Hone) as [C1 C2].
  change (2 ^ Z.of_nat 9) with 512 in *. change (2 ^ Z.of_nat 8) with 256 in *. split; [exact C1|]. split; [|exact C2].
  assert (T : it f 256 0 mod 256 = (it f 256 0 mod 512) mod 256) by (apply Zmod_div_mod; [lia|lia|exists 2; reflexivity]).
  rewrite T, C1. reflexivity.
Qed.
Lemma visits_all x : exists s, (s < 256)%nat /\ it f s 0 mod 256 = x mod 256.
Proof.
  destruct one_cycle as (_ & C & C2).
  set (l := map (fun s => it f s 0 mod 256) (seq 0 256)).
  assert (ND : NoDup l).
  { apply NoDup_nth_error. intros i j Hi E. unfold l in *. rewrite map_length, seq_length in Hi.
    assert (Hj : (j < 256)%nat).
    { destruct (Nat.lt_ge_cases j 256) as [|G]; [assumption|exfalso]. rewrite (proj2 (nth_error_None _ j)) in E by (rewrite map_length, seq_length; exact G).
      apply nth_error_None in E. rewrite map_length, seq_length in E. lia. }
    rewrite !nth_error_map in E. rewrite !(nth_error_nth' (seq 0 256) 0%nat) in E by (rewrite seq_length; assumption).
    rewrite !seq_nth in E by assumption. cbn [option_map Nat.add] in E. injection E as E.
    assert (G : forall i j, (i < j)%nat -> (j < 256)%nat -> it f i 0 mod 256 <> it f j 0 mod 256).
    { clear i j Hi Hj E. intros i j L Hj E. apply (C2 (i + (256 - j))%nat); [lia|]. rewrite it_add.
      rewrite <- (it_mod f a Hshift (256 - j) 256 (it f i 0) (Z.divide_refl _)) by discriminate. rewrite E.
      rewrite (it_mod f a Hshift (256 - j) 256 (it f j 0) (Z.divide_refl _)) by discriminate. rewrite <- it_add.
      replace (j + (256 - j))%nat with 256%nat by lia. exact C. }
    destruct (Nat.lt_total i j) as [L|[L|L]]; [|exact L|].
    - exfalso. exact (G i j L Hj E).
    - exfalso. exact (G j i L Hi (eq_sym E)). }
  assert (IN : incl (map Z.of_nat (seq 0 256)) l).
  { apply NoDup_length_incl; [exact ND|unfold l; rewrite !map_length; lia|]. intros z Hz. unfold l in Hz. apply in_map_iff in Hz.
    destruct Hz as (s & <- & _). exact (in_residues (it f s 0) 256 ltac:(lia)). }
  specialize (IN _ (in_residues x 256 ltac:(lia))). unfold l in IN. apply in_map_iff in IN. destruct IN as (s & E & Hs). apply in_seq in Hs.
  exists s. split; [lia|exact E].
Qed.
Lemma any_start x : it f 256 x mod 2 ^ Z.of_nat 9 = (x + 2 ^ Z.of_nat 8) mod 2 ^ Z.of_nat 9 /\
  forall r, (0 < r < 256)%nat -> it f r x mod 2 ^ Z.of_nat 8 <> x mod 2 ^ Z.of_nat 8.
Proof.
  destruct one_cycle as (C1 & C0 & C2).
  change (2 ^ Z.of_nat 9) with 512. change (2 ^ Z.of_nat 8) with 256.
  (* x = it s 0 + 256 v *)
  assert (V : exists s v, (s < 256)%nat /\ x = it f s 0 + 256 * v).
  { destruct (visits_all x) as (s & Hs & E). exists s. exists (x / 256 - it f s 0 / 256). split; [exact Hs|].
    pose proof (Z.div_mod x 256 ltac:(discriminate)) as D1. pose proof (Z.div_mod (it f s 0) 256 ltac:(discriminate)) as D2.
    clear - E D1 D2. lia. }
  destruct V as (s & v & Hs & Hx). rewrite !Hx. split.
  - (* it 256 0 = 256 * d, d odd *)
    assert (D : exists o, it f 256 0 = 256 * (1 + 2 * o)).
    { exists (it f 256 0 / 512). rewrite (Z.div_mod (it f 256 0) 512) at 1 by discriminate. rewrite C1. ring. }
    destruct D as [o Ho]. rewrite (it_shift f a Hshift). rewrite <- (it_add f s 256), Nat.add_comm, (it_add f 256 s), Ho.
    change (256 * (1 + 2 * o)) with (0 + 256 * (1 + 2 * o)). rewrite (it_shift f a Hshift).
    assert (O : forall k, exists q, a ^ Z.of_nat k = 1 + 2 * q).
    { intros k. exists (a ^ Z.of_nat k / 2). rewrite (Z.div_mod (a ^ Z.of_nat k) 2) at 1 by discriminate.
      assert (E : a ^ Z.of_nat k mod 2 = 1).
      { clear - Ha. induction k as [|k IH]; [reflexivity|]. rewrite Nat2Z.inj_succ, Z.pow_succ_r, Z.mul_mod, Ha, IH by lia. reflexivity. }
      rewrite E. ring. }
    destruct (O s) as [q1 ->]. destruct (O 256%nat) as [q2 ->].
    replace (it f s 0 + 256 * ((1 + 2 * q1) * (1 + 2 * o)) + 256 * ((1 + 2 * q2) * v)) with
      (it f s 0 + 256 * v + 256 + (q1 + o + 2 * q1 * o + q2 * v) * 512) by ring.
    apply Z.mod_add. discriminate.
  - intros r Hr E. apply (C2 r Hr).
    assert (E' : forall k, it f (256 - s + k) (it f s 0 + 256 * v) mod 256 = it f k 0 mod 256).
    { intros k. rewrite (it_shift f a Hshift), <- it_add, Z.mul_comm, Z.mod_add by discriminate.
      replace (s + (256 - s + k))%nat with (256 + k)%nat by lia. rewrite it_add.
      rewrite <- (it_mod f a Hshift k 256 (it f 256 0) (Z.divide_refl _)) by discriminate.
      rewrite C0. reflexivity. }
    pose proof (E' O) as E0. pose proof (E' r) as E1.
    rewrite Nat.add_0_r in E0. rewrite <- E1. change (it f 0 0 mod 256) with 0 in E0. etransitivity; [|exact E0].
    replace (256 - s + r)%nat with (r + (256 - s))%nat by lia. rewrite (it_add f r).
    rewrite <- (it_mod f a Hshift (256 - s) 256 (it f r _) (Z.divide_refl _)) by discriminate.
    rewrite E. now rewrite (it_mod f a Hshift) by (apply Z.divide_refl || discriminate).
Qed.
End Odd.

(* ---------- any map that respects the low bits returns after 2^w steps ---------- *)
Section Tri.
Open Scope N_scope.
Variable f : N -> N.
Variable w : nat.
Hypothesis HT : forall n x y, (n <= w)%nat -> (x mod 2 ^ N.of_nat n = y mod 2 ^ N.of_nat n <-> f x mod 2 ^ N.of_nat n = f y mod 2 ^ N.of_nat n).
Lemma iter_tri k n x y : (n <= w)%nat ->
  (x mod 2 ^ N.of_nat n = y mod 2 ^ N.of_nat n <-> Nat.iter k f x mod 2 ^ N.of_nat n = Nat.iter k f y mod 2 ^ N.of_nat n).
Proof. intros Hn. induction k as [|k IH]; [reflexivity|]. cbn [Nat.iter nat_rect]. rewrite IH. now apply HT. Qed.
Lemma iter_plus (i j : nat) x : Nat.iter (i + j) f x = Nat.iter i f (Nat.iter j f x).
Proof. induction i as [|i IH]; [reflexivity|]. exact (f_equal f IH). Qed.
Lemma two_cases n x y : x mod 2 ^ N.of_nat n = y mod 2 ^ N.of_nat n ->
  x mod 2 ^ N.of_nat (S n) = y mod 2 ^ N.of_nat (S n) \/ x mod 2 ^ N.of_nat (S n) = (y + 2 ^ N.of_nat n) mod 2 ^ N.of_nat (S n).
Proof.
  intros E. rewrite Nat2N.inj_succ, N.pow_succ_r', (N.mul_comm 2). set (m := 2 ^ N.of_nat n) in *.
  assert (M0 : m <> 0) by (apply N.pow_nonzero; discriminate).
  assert (A : forall z, z mod (m * 2) = z mod m + m * ((z / m) mod 2)) by (intros z; apply N.mod_mul_r; [exact M0|discriminate]).
  rewrite !A. rewrite E.
  replace (y + m) with (y + 1 * m) by lia. rewrite N.mod_add, N.div_add by exact M0.
  rewrite (N.add_mod (y / m) 1 2) by discriminate.
  assert (B : forall z, z mod 2 = 0 \/ z mod 2 = 1).
  { clear. intros z. pose proof (N.mod_lt z 2 ltac:(discriminate)) as L. revert L. generalize (z mod 2). clear. lia. }
  destruct (B (x / m)) as [X|X]; destruct (B (y / m)) as [Y|Y]; rewrite X, Y; auto.
Qed.
Lemma tri_return n : (n <= w)%nat -> forall x, Nat.iter (2 ^ n) f x mod 2 ^ N.of_nat n = x mod 2 ^ N.of_nat n.
Proof.
  induction n as [|n IH]; intros Hn x; [now rewrite !N.mod_1_r|].
  change (2 ^ S n)%nat with (2 ^ n + (2 ^ n + 0))%nat. rewrite Nat.add_0_r, iter_plus.
  set (g := Nat.iter (2 ^ n) f). assert (IH' : forall x, g x mod 2 ^ N.of_nat n = x mod 2 ^ N.of_nat n) by (apply IH; lia).
  pose proof (fun x y => iter_tri (2 ^ n) (S n) x y Hn) as T. fold g in T. change (nat_rect _ _ _ _) with (g (g x)).
  destruct (two_cases n _ _ (IH' x)) as [E|E].
  - apply (proj1 (T _ _)) in E as E2. now rewrite E2.
  - destruct (two_cases n _ _ (IH' (g x))) as [E2|E2].
    + pose proof (proj2 (T _ _) E2) as E3. now rewrite E2.
    + rewrite E2. rewrite N.add_mod, E by (apply N.pow_nonzero; discriminate).
      rewrite <- N.add_mod by (apply N.pow_nonzero; discriminate).
      replace (x + 2 ^ N.of_nat n + 2 ^ N.of_nat n) with (x + 1 * 2 ^ N.of_nat (S n)) by (rewrite Nat2N.inj_succ, N.pow_succ_r'; lia).
      apply N.mod_add, N.pow_nonzero. discriminate.
Qed.
End Tri.

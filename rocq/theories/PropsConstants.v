(* The tables of constants of the specifications, from their mathematical definitions. *)
From Coq Require Import List Arith NArith ZArith Lia Znumtheory Sorting.Sorted.
From Coq Require Import Reals Lra.
From Verif Require Import Base SpecCommon SpecMd5 SpecFnv SpecSha2 ModelMd5 ModelSha2 ModelFnv ProofSha2.
Import ListNotations.

(* ---------- cube roots and primes, as used by SpecSha2.v and SpecRipemd.v ---------- *)
Section Roots.
Open Scope N_scope.
Lemma icbrt_bits_ok k n r : r * r * r <= n -> n < (r + 2 ^ N.of_nat k) * (r + 2 ^ N.of_nat k) * (r + 2 ^ N.of_nat k) ->
  let x := icbrt_bits k n r in x * x * x <= n < (x + 1) * (x + 1) * (x + 1).
Proof.
  revert r. induction k as [|k IH]; intros r H1 H2.
  - cbn [icbrt_bits]. split; assumption.
  - cbn [icbrt_bits]. rewrite Nat2N.inj_succ, N.pow_succ_r in H2 by lia.
    set (p := 2 ^ N.of_nat k) in *. replace (r + 2 * p) with (r + p + p) in H2 by lia.
    destruct (N.leb_spec ((r + p) * (r + p) * (r + p)) n) as [H|H]; apply IH; try assumption; exact H2.
Qed.
Theorem C43_cube_roots n : icbrt n ^ 3 <= n < (icbrt n + 1) ^ 3.
Proof.
  assert (E : forall x, x ^ 3 = x * x * x) by (intros; change 3 with (N.succ (N.succ (N.succ 0)));
    rewrite !N.pow_succ_r, N.pow_0_r by lia; lia).
  rewrite !E. apply icbrt_bits_ok; [lia|]. rewrite N2Nat.id.
  pose proof (N.size_gt n) as H. set (p := 2 ^ N.size n) in *. rewrite N.add_0_l.
  assert (1 <= p) by (pose proof (N.pow_nonzero 2 (N.size n)); lia). nia.
Qed.

Lemma is_prime_ok p : is_prime p = true <-> prime (Z.of_nat p).
Proof.
  unfold is_prime. rewrite Bool.andb_true_iff, Nat.ltb_lt, forallb_forall. rewrite <- prime_alt. unfold prime'. split.
  - intros [H1 H2]. split; [lia|]. intros n Hn [q E].
    specialize (H2 (Z.to_nat n)). rewrite in_seq in H2. specialize (H2 ltac:(lia)).
    rewrite Bool.negb_true_iff, Nat.eqb_neq in H2. apply H2.
    apply Nat.mod_divide; [lia|]. exists (Z.to_nat q). apply Nat2Z.inj. rewrite Nat2Z.inj_mul, !Z2Nat.id by nia. exact E.
  - intros [H1 H2]. split; [lia|]. intros d. rewrite in_seq. intros Hd.
    rewrite Bool.negb_true_iff, Nat.eqb_neq. intros E. apply Nat.mod_divide in E; [|lia].
    destruct E as [q E]. apply (H2 (Z.of_nat d)); [lia|]. exists (Z.of_nat q). lia.
Qed.
(* [primes_below n] lists the primes less than n, in increasing order *)
Theorem C43_primes n : StronglySorted N.lt (primes_below n) /\
  forall q, In q (primes_below n) <-> prime (Z.of_N q) /\ q < N.of_nat n.
Proof.
  split.
  - unfold primes_below. generalize 0%nat. induction n as [|n IH]; intros s; [constructor|]. cbn [seq filter].
    destruct (is_prime s); [|apply IH]. cbn [map]. constructor; [apply IH|]. apply Forall_forall. intros x Hx.
    apply in_map_iff in Hx. destruct Hx as (y & <- & Hy). apply filter_In in Hy. destruct Hy as [Hy _].
    apply in_seq in Hy. lia.
  - intros q. unfold primes_below. rewrite in_map_iff. split.
    + intros (p & <- & Hp). apply filter_In in Hp. destruct Hp as [Hp HP]. apply in_seq in Hp.
      apply is_prime_ok in HP. split; [rewrite nat_N_Z; exact HP|lia].
    + intros [HP Hq]. exists (N.to_nat q). split; [apply N2Nat.id|]. apply filter_In. split; [apply in_seq; lia|].
      apply is_prime_ok. rewrite N_nat_Z. exact HP.
Qed.
(* there are enough of them for the tables: 80 (and 64, 8, 16) primes *)
Lemma primes_410 : primes_below 410 =
  [2; 3; 5; 7; 11; 13; 17; 19; 23; 29; 31; 37; 41; 43; 47; 53; 59; 61; 67; 71; 73; 79; 83; 89; 97; 101; 103; 107; 109; 113; 127; 131; 137; 139; 149; 151; 157; 163; 167; 173; 179; 181; 191; 193; 197; 199; 211; 223; 227; 229; 233; 239; 241; 251; 257; 263; 269; 271; 277; 281; 283; 293; 307; 311; 313; 317; 331; 337; 347; 349; 353; 359; 367; 373; 379; 383; 389; 397; 401; 409].
Proof. vm_compute. reflexivity. Qed.
Lemma primes_enough : length (primes_below 410) = 80%nat. Proof. rewrite primes_410. reflexivity. Qed.

(* q is the i-th prime, counting from 0: exactly i primes are smaller *)
Definition nth_prime (i : nat) (q : N) : Prop :=
  prime (Z.of_N q) /\
  exists l, NoDup l /\ length l = i /\ forall x, In x l <-> prime (Z.of_N x) /\ x < q.
Lemma sorted_split (l1 l2 : list N) q : StronglySorted N.lt (l1 ++ q :: l2) ->
  NoDup l1 /\ (forall x, In x l1 -> x < q) /\ (forall x, In x l2 -> q < x).
Proof.
  induction l1 as [|y l1 IH]; cbn [app]; intros H; apply StronglySorted_inv in H; destruct H as [H1 H2].
  - split; [constructor|]. split; [easy|]. rewrite Forall_forall in H2. exact H2.
  - destruct (IH H1) as (A & B & C). rewrite Forall_forall in H2. split; [|split; [|exact C]].
    + constructor; [|exact A]. intros K. specialize (H2 y (in_or_app _ _ _ (or_introl K))). lia.
    + intros x [<- | K]; [|now apply B]. apply H2. apply in_or_app. right. now left.
Qed.
Lemma primes_nth n i : (i < length (primes_below n))%nat -> nth_prime i (nth i (primes_below n) 0).
Proof.
  intros Hi. destruct (C43_primes n) as [HS HI].
  destruct (nth_split (primes_below n) 0 Hi) as (l1 & l2 & E & L).
  set (q := nth i (primes_below n) 0) in *. rewrite E in HS. destruct (sorted_split _ _ _ HS) as (A & B & C).
  assert (Q : In q (primes_below n)) by (now apply nth_In). apply HI in Q. destruct Q as [Q1 Q2].
  split; [exact Q1|]. exists l1. split; [exact A|]. split; [exact L|]. intros x. split.
  - intros K. split; [|now apply B]. apply HI. rewrite E. apply in_or_app. now left.
  - intros [X1 X2]. assert (K : In x (primes_below n)) by (apply HI; split; [exact X1|lia]).
    rewrite E in K. apply in_app_or in K. destruct K as [K|[<-|K]]; [exact K|lia|]. apply C in K. lia.
Qed.

(* The round constants of the code: the first 32 (64) bits of the fractional parts of the cube
   roots of the first 64 (80) primes *)
Theorem C43_sha256_K i : (i < 64)%nat ->
  exists p r, nth_prime i p /\ r ^ 3 <= p * 2 ^ 96 < (r + 1) ^ 3 /\ nth i sha256_K 0 = r mod 2 ^ 32.
Proof.
  intros Hi. exists (nth i (primes_below 410) 0), (icbrt (nth i (primes_below 410) 0 * 2 ^ 96)).
  split; [apply primes_nth; rewrite primes_enough; lia|]. split; [apply C43_cube_roots|].
  rewrite <- K256_eq. unfold K. change (rounds F256) with 64%nat. change (2 ^ (3 * w F256)) with (2 ^ 96).
  change (2 ^ w F256) with (2 ^ 32). set (f := fun p => icbrt (p * 2 ^ 96) mod 2 ^ 32). change 0 with (f 0) at 1.
  rewrite map_nth. unfold f. rewrite <- (firstn_skipn 64 (primes_below 410)) at 2. rewrite app_nth1; [reflexivity|].
  rewrite firstn_length. rewrite primes_enough. lia.
Qed.
Theorem C43_sha512_K i : (i < 80)%nat ->
  exists p r, nth_prime i p /\ r ^ 3 <= p * 2 ^ 192 < (r + 1) ^ 3 /\ nth i sha512_K 0 = r mod 2 ^ 64.
Proof.
  intros Hi. exists (nth i (primes_below 410) 0), (icbrt (nth i (primes_below 410) 0 * 2 ^ 192)).
  split; [apply primes_nth; rewrite primes_enough; lia|]. split; [apply C43_cube_roots|].
  rewrite <- K512_eq. unfold K. change (rounds F512) with 80%nat. change (2 ^ (3 * w F512)) with (2 ^ 192).
  change (2 ^ w F512) with (2 ^ 64). set (f := fun p => icbrt (p * 2 ^ 192) mod 2 ^ 64). change 0 with (f 0) at 1.
  rewrite map_nth. unfold f. rewrite <- (firstn_skipn 80 (primes_below 410)) at 2. rewrite app_nth1; [reflexivity|].
  rewrite firstn_length. rewrite primes_enough. lia.
Qed.
Example sha256_K_ex : (63 < 64)%nat /\ nth 63 sha256_K 0 = 0xc67178f2. Proof. split; [lia|reflexivity]. Qed.
(* The initial states: bits of the fractional parts of the square roots of the first 8 primes
   (SHA-256: 32 bits; SHA-512: 64 bits) and of the next 8 (SHA-224: the second 32 bits; SHA-384: 64 bits) *)
Definition words (s : N * N * N * N * N * N * N * N) : list N :=
  let '(a, b, c, d, e, f, g, h) := s in [a; b; c; d; e; f; g; h].
Lemma sqrt_nth k j : (j < 16)%nat -> nth_prime j (nth j (primes_below 410) 0) /\
  let r := sqrt_bits k (nth j (primes_below 410) 0) in
  r ^ 2 <= nth j (primes_below 410) 0 * 2 ^ (2 * k) < (r + 1) ^ 2.
Proof.
  intros Hj. split; [apply primes_nth; rewrite primes_enough; lia|].
  cbv zeta. unfold sqrt_bits. pose proof (N.sqrt_spec' (nth j (primes_below 410) 0 * 2 ^ (2 * k))) as [H1 H2].
  rewrite !N.pow_2_r. rewrite <- N.add_1_r in H2. split; assumption.
Qed.
Theorem C43_sha2_IV i : (i < 8)%nat ->
  (exists p r, nth_prime i p /\ r ^ 2 <= p * 2 ^ 64 < (r + 1) ^ 2 /\ nth i (words (b_st sha2_256_init)) 0 = r mod 2 ^ 32) /\
  (exists p r, nth_prime (8 + i) p /\ r ^ 2 <= p * 2 ^ 128 < (r + 1) ^ 2 /\ nth i (words (b_st sha2_224_init)) 0 = r mod 2 ^ 32) /\
  (exists p r, nth_prime i p /\ r ^ 2 <= p * 2 ^ 128 < (r + 1) ^ 2 /\ nth i (words (b_st sha2_512_init)) 0 = r mod 2 ^ 64) /\
  (exists p r, nth_prime (8 + i) p /\ r ^ 2 <= p * 2 ^ 128 < (r + 1) ^ 2 /\ nth i (words (b_st sha2_384_init)) 0 = r mod 2 ^ 64).
Proof.
  intros Hi. repeat split.
  - destruct (sqrt_nth 32 i ltac:(lia)) as [A B]. eexists _, _. split; [exact A|]. split; [exact B|].
    rewrite primes_410. do 8 (destruct i as [|i]; [vm_compute; reflexivity|]). lia.
  - destruct (sqrt_nth 64 (8 + i) ltac:(lia)) as [A B]. eexists _, _. split; [exact A|]. split; [exact B|].
    rewrite primes_410. do 8 (destruct i as [|i]; [vm_compute; reflexivity|]). lia.
  - destruct (sqrt_nth 64 i ltac:(lia)) as [A B]. eexists _, _. split; [exact A|]. split; [exact B|].
    rewrite primes_410. do 8 (destruct i as [|i]; [vm_compute; reflexivity|]). lia.
  - destruct (sqrt_nth 64 (8 + i) ltac:(lia)) as [A B]. eexists _, _. split; [exact A|]. split; [exact B|].
    rewrite primes_410. do 8 (destruct i as [|i]; [vm_compute; reflexivity|]). lia.
Qed.

(* ---------- FNV: the offset basis is the FNV-0 hash of this string ---------- *)
Definition FNV0 (F : FNV) (l : list N) : N :=
  fold_left (fun h b => N.lxor (MUL (fnv_w F) h (fnv_prime F)) b) l 0.
(* chongo <Landon Curt Noll> /\../\ *)
Definition chongo : list N :=
  [99;104;111;110;103;111;32;60;76;97;110;100;111;110;32;67;117;114;116;32;78;111;108;108;62;32;47;92;46;46;47;92].
Theorem C43_fnv_basis : FNV0 FNV32 chongo = fnv32_basis /\ FNV0 FNV64 chongo = fnv64_basis.
Proof. split; reflexivity. Qed.
End Roots.

(* ---------- MD5: T[i] = floor( 2^32 * |sin i| ), i in radians ---------- *)
Section Sines.
Open Scope Z_scope.
Fixpoint zfact (n : nat) : Z := match n with O => 1 | S n' => Z.of_nat (S n') * zfact n' end.
Lemma zfact_ok n : IZR (zfact n) = INR (fact n).
Proof.
  induction n as [|n IH]; [reflexivity|]. change (fact (S n)) with (S n * fact n)%nat.
  rewrite mult_INR, <- IH. cbn [zfact]. rewrite mult_IZR. now rewrite INR_IZR_INZ.
Qed.
Lemma zfact_pos n : 0 < zfact n.
Proof. induction n; cbn [zfact]; lia. Qed.
(* numerators over (2n+1)! and (2n)! *)
Fixpoint snum (n : nat) : Z :=
  match n with O => 1 | S n' => snum n' * Z.of_nat (2 * n' + 2) * Z.of_nat (2 * n' + 3) + (if Nat.odd n then -1 else 1) end.
Fixpoint cnum (n : nat) : Z :=
  match n with O => 1 | S n' => cnum n' * Z.of_nat (2 * n' + 1) * Z.of_nat (2 * n' + 2) + (if Nat.odd n then -1 else 1) end.
Lemma sgn_ok n : ((-1) ^ n = IZR (if Nat.odd n then -1 else 1))%R.
Proof.
  induction n as [|n IH]; [reflexivity|]. rewrite <- tech_pow_Rmult, IH, Nat.odd_succ, <- Nat.negb_odd.
  destruct (Nat.odd n); cbn; lra.
Qed.
Lemma sapprox n : (sin_approx 1 n = IZR (snum n) / IZR (zfact (2 * n + 1)))%R.
Proof.
  induction n as [|n IH].
  - unfold sin_approx, sum_f_R0, sin_term. cbn [snum zfact Nat.mul Nat.add fact INR pow]. cbn. lra.
  - unfold sin_approx in *. cbn [sum_f_R0]. rewrite IH. unfold sin_term. rewrite pow1, sgn_ok, <- zfact_ok.
    replace (2 * S n + 1)%nat with (S (S (2 * n + 1))) by lia. cbn [zfact snum].
    pose proof (zfact_pos (2 * n + 1)) as HP. apply IZR_lt in HP.
    replace (S (S (2 * n + 1))) with (2 * n + 3)%nat by lia. replace (S (2 * n + 1)) with (2 * n + 2)%nat by lia.
    set (sg := if Nat.odd (S n) then -1 else 1). rewrite plus_IZR, !mult_IZR.
    assert (0 < IZR (Z.of_nat (2 * n + 3)))%R by (apply IZR_lt; lia).
    assert (0 < IZR (Z.of_nat (2 * n + 2)))%R by (apply IZR_lt; lia).
    field. repeat split; lra.
Qed.
Lemma capprox n : (cos_approx 1 n = IZR (cnum n) / IZR (zfact (2 * n)))%R.
Proof.
  induction n as [|n IH].
  - unfold cos_approx, sum_f_R0, cos_term. cbn. lra.
  - unfold cos_approx in *. cbn [sum_f_R0]. rewrite IH. unfold cos_term. rewrite pow1, sgn_ok, <- zfact_ok.
    replace (2 * S n)%nat with (S (S (2 * n))) by lia. cbn [zfact cnum].
    pose proof (zfact_pos (2 * n)) as HP. apply IZR_lt in HP.
    replace (S (S (2 * n))) with (2 * n + 2)%nat by lia. replace (S (2 * n)) with (2 * n + 1)%nat by lia.
    set (sg := if Nat.odd (S n) then -1 else 1). rewrite plus_IZR, !mult_IZR.
    assert (0 < IZR (Z.of_nat (2 * n + 2)))%R by (apply IZR_lt; lia).
    assert (0 < IZR (Z.of_nat (2 * n + 1)))%R by (apply IZR_lt; lia).
    field. repeat split; lra.
Qed.

Definition P : Z := 2 ^ 128.
Definition sn1 : Z := Eval vm_compute in snum 17 * P / zfact 35.
Definition cs1 : Z := Eval vm_compute in cnum 17 * P / zfact 34.
Lemma frac_lo n d s : 0 < d -> s * d <= n * P -> (IZR s / IZR P <= IZR n / IZR d)%R.
Proof.
  intros Hd H. assert (0 < IZR P)%R by (now apply IZR_lt). apply IZR_lt in Hd. apply IZR_le in H. rewrite !mult_IZR in H.
  apply Rmult_le_reg_r with (IZR P); [assumption|]. apply Rmult_le_reg_r with (IZR d); [assumption|].
  field_simplify; lra.
Qed.
Lemma frac_hi n d s : 0 < d -> n * P <= s * d -> (IZR n / IZR d <= IZR s / IZR P)%R.
Proof.
  intros Hd H. assert (0 < IZR P)%R by (now apply IZR_lt). apply IZR_lt in Hd. apply IZR_le in H. rewrite !mult_IZR in H.
  apply Rmult_le_reg_r with (IZR P); [assumption|]. apply Rmult_le_reg_r with (IZR d); [assumption|].
  field_simplify; lra.
Qed.
Open Scope R_scope.
Lemma sin1_ok : Rabs (sin 1 - IZR sn1 / IZR P) <= 1 / IZR P.
Proof.
  destruct (pre_sin_bound 1 8 ltac:(lra) ltac:(lra)) as [H1 H2]. rewrite sapprox in H1, H2.
  change (2 * 8 + 1)%nat with 17%nat in H1. change (2 * (8 + 1))%nat with 18%nat in H2.
  assert (L : IZR sn1 / IZR P <= IZR (snum 17) / IZR (zfact (2 * 17 + 1))).
  { apply frac_lo; [apply zfact_pos|]. apply Z.leb_le. vm_compute. reflexivity. }
  assert (U : IZR (snum 18) / IZR (zfact (2 * 18 + 1)) <= IZR (sn1 + 1) / IZR P).
  { apply frac_hi; [apply zfact_pos|]. apply Z.leb_le. vm_compute. reflexivity. }
  rewrite plus_IZR in U. assert (0 < IZR P) by (now apply IZR_lt).
  apply Rabs_le. unfold Rdiv in *. rewrite Rmult_plus_distr_r in U.
  assert (0 < / IZR P) by (now apply Rinv_0_lt_compat). lra.
Qed.
Lemma cos1_ok : Rabs (cos 1 - IZR cs1 / IZR P) <= 1 / IZR P.
Proof.
  destruct (pre_cos_bound 1 8 ltac:(lra) ltac:(lra)) as [H1 H2]. rewrite capprox in H1, H2.
  change (2 * 8 + 1)%nat with 17%nat in H1. change (2 * (8 + 1))%nat with 18%nat in H2.
  assert (L : IZR cs1 / IZR P <= IZR (cnum 17) / IZR (zfact (2 * 17))).
  { apply frac_lo; [apply zfact_pos|]. apply Z.leb_le. vm_compute. reflexivity. }
  assert (U : IZR (cnum 18) / IZR (zfact (2 * 18)) <= IZR (cs1 + 1) / IZR P).
  { apply frac_hi; [apply zfact_pos|]. apply Z.leb_le. vm_compute. reflexivity. }
  rewrite plus_IZR in U. assert (0 < IZR P) by (now apply IZR_lt).
  apply Rabs_le. unfold Rdiv in *. rewrite Rmult_plus_distr_r in U.
  assert (0 < / IZR P) by (now apply Rinv_0_lt_compat). lra.
Qed.

(* sin i and cos i, times P, by the addition formulas *)
Fixpoint sc (i : nat) : Z * Z :=
  match i with
  | O => (0, P)
  | S i' => let '(s, c) := sc i' in ((s * cs1 + c * sn1) / P, (c * cs1 - s * sn1) / P)
  end%Z.
Lemma div_err a : Rabs (IZR a / IZR P - IZR (a / P)%Z) <= 1.
Proof.
  assert (HP : 0 < IZR P) by (now apply IZR_lt).
  pose proof (Z.div_mod a P ltac:(discriminate)) as E. pose proof (Z.mod_pos_bound a P ltac:(reflexivity)) as [L U].
  apply IZR_le in L. apply IZR_lt in U. apply (f_equal IZR) in E. rewrite plus_IZR, mult_IZR in E.
  set (q := (a / P)%Z) in *. set (r := (a mod P)%Z) in *.
  replace (IZR a / IZR P - IZR q) with (IZR r / IZR P) by (rewrite E; field; lra).
  rewrite Rabs_pos_eq; [|apply Rmult_le_pos; [lra|left; now apply Rinv_0_lt_compat]].
  apply Rmult_le_reg_r with (IZR P); [exact HP|]. unfold Rdiv. rewrite Rmult_assoc, Rinv_l by lra. lra.
Qed.
Lemma mul_err x x' y y' e u : Rabs x <= 1 -> Rabs y' <= 1 -> Rabs (x - x') <= e -> Rabs (y - y') <= u ->
  Rabs (x * y - x' * y') <= e + u.
Proof.
  intros Hx Hy He Hu. replace (x * y - x' * y') with (x * (y - y') + (x - x') * y') by ring.
  eapply Rle_trans; [apply Rabs_triang|]. rewrite !Rabs_mult.
  pose proof (Rabs_pos (x - x')). pose proof (Rabs_pos (y - y')). pose proof (Rabs_pos x). pose proof (Rabs_pos y'). nra.
Qed.
Lemma sc_ok i : Rabs (sin (INR i) - IZR (fst (sc i)) / IZR P) <= 3 * (2 ^ i - 1) / IZR P /\
                Rabs (cos (INR i) - IZR (snd (sc i)) / IZR P) <= 3 * (2 ^ i - 1) / IZR P.
Proof.
  assert (HP : 0 < IZR P) by (now apply IZR_lt). assert (HQ : 0 < / IZR P) by (now apply Rinv_0_lt_compat).
  induction i as [|i [IH1 IH2]].
  - cbn [sc fst snd INR]. rewrite sin_0, cos_0. split.
    + replace (0 - 0 / IZR P) with 0 by (field; lra). rewrite Rabs_R0. cbn [pow]. unfold Rdiv. lra.
    + replace (1 - IZR P / IZR P) with 0 by (field; lra). rewrite Rabs_R0. cbn [pow]. unfold Rdiv. lra.
  - rewrite S_INR, sin_plus, cos_plus. cbn [sc]. destruct (sc i) as [s c]. cbn [fst snd] in *.
    assert (HS : Rabs (sin (INR i)) <= 1) by (apply Rabs_le; apply SIN_bound).
    assert (HC : Rabs (cos (INR i)) <= 1) by (apply Rabs_le; apply COS_bound).
    assert (BS : Rabs (IZR sn1 / IZR P) <= 1).
    { rewrite Rabs_pos_eq; [|apply Rmult_le_pos; [apply IZR_le; discriminate|lra]].
      apply Rmult_le_reg_r with (IZR P); [exact HP|]. unfold Rdiv. rewrite Rmult_assoc, Rinv_l, Rmult_1_r, Rmult_1_l by lra.
      apply IZR_le. discriminate. }
    assert (BC : Rabs (IZR cs1 / IZR P) <= 1).
    { rewrite Rabs_pos_eq; [|apply Rmult_le_pos; [apply IZR_le; discriminate|lra]].
      apply Rmult_le_reg_r with (IZR P); [exact HP|]. unfold Rdiv. rewrite Rmult_assoc, Rinv_l, Rmult_1_r, Rmult_1_l by lra.
      apply IZR_le. discriminate. }
    set (E := 3 * (2 ^ i - 1) / IZR P) in *. set (u := 1 / IZR P) in *.
    assert (HE : 3 * (2 ^ S i - 1) / IZR P = 2 * E + 3 * u).
    { unfold E, u. cbn [pow]. field. lra. }
    rewrite HE.
    pose proof (mul_err _ _ _ _ _ _ HS BC IH1 cos1_ok) as M1. pose proof (mul_err _ _ _ _ _ _ HC BS IH2 sin1_ok) as M2.
    pose proof (mul_err _ _ _ _ _ _ HC BC IH2 cos1_ok) as M3. pose proof (mul_err _ _ _ _ _ _ HS BS IH1 sin1_ok) as M4.
    fold u in M1, M2, M3, M4.
    assert (D : forall a, Rabs (IZR a / IZR P / IZR P - IZR (a / P)%Z / IZR P) <= u).
    { intros a. replace (IZR a / IZR P / IZR P - IZR (a / P)%Z / IZR P) with ((IZR a / IZR P - IZR (a / P)%Z) * / IZR P)
        by (field; lra).
      rewrite Rabs_mult, (Rabs_pos_eq (/ IZR P)) by lra. unfold u, Rdiv. apply Rmult_le_compat_r; [lra|]. apply div_err. }
    split.
    + pose proof (D (s * cs1 + c * sn1)%Z) as D1.
      replace (IZR (s * cs1 + c * sn1) / IZR P / IZR P) with
        (IZR s / IZR P * (IZR cs1 / IZR P) + IZR c / IZR P * (IZR sn1 / IZR P)) in D1
        by (rewrite plus_IZR, !mult_IZR; field; lra).
      revert M1 M2 D1. unfold Rabs. repeat destruct Rcase_abs; lra.
    + pose proof (D (c * cs1 - s * sn1)%Z) as D1.
      replace (IZR (c * cs1 - s * sn1) / IZR P / IZR P) with
        (IZR c / IZR P * (IZR cs1 / IZR P) - IZR s / IZR P * (IZR sn1 / IZR P)) in D1
        by (rewrite minus_IZR, !mult_IZR; field; lra).
      revert M3 M4 D1. unfold Rabs. repeat destruct Rcase_abs; lra.
Qed.

Definition err : Z := (2 ^ 32 * (3 * 2 ^ 64))%Z.
Definition check1 (T : N) (s : Z) : bool :=
  let v := (2 ^ 32 * Z.abs s)%Z in
  andb (Z.of_N T * P + err <=? v)%Z (v + err <? (Z.of_N T + 1) * P)%Z.
Definition check (T : N) (i : nat) : bool := check1 T (fst (sc i)).
Fixpoint checks (Ts : list N) (s c : Z) : bool :=
  match Ts with
  | [] => true
  | T :: Ts => let s' := ((s * cs1 + c * sn1) / P)%Z in let c' := ((c * cs1 - s * sn1) / P)%Z in
               andb (check1 T s') (checks Ts s' c')
  end.
Lemma checks_ok Ts : forall i j, checks Ts (fst (sc j)) (snd (sc j)) = true -> (i < length Ts)%nat ->
  check (nth i Ts 0%N) (S (j + i)) = true.
Proof.
  induction Ts as [|T Ts IH]; intros i j H Hi; [cbn in Hi; lia|].
  cbn [checks] in H. apply Bool.andb_true_iff in H. destruct H as [H1 H2].
  assert (E : sc (S j) = (((fst (sc j) * cs1 + snd (sc j) * sn1) / P)%Z, ((snd (sc j) * cs1 - fst (sc j) * sn1) / P)%Z)).
  { cbn [sc]. destruct (sc j). reflexivity. }
  destruct i as [|i].
  - cbn [nth]. rewrite Nat.add_0_r. unfold check. rewrite E. exact H1.
  - cbn [nth]. replace (S (j + S i)) with (S (S j + i)) by lia. apply IH; [|cbn in Hi; lia].
    rewrite E. exact H2.
Qed.
Lemma check_all : checks MD5_T 0 P = true.
Proof. vm_compute. reflexivity. Qed.
Lemma check_ok T i : (i <= 64)%nat -> check T i = true ->
  IZR (Z.of_N T) <= 2 ^ 32 * Rabs (sin (INR i)) < IZR (Z.of_N T) + 1.
Proof.
  intros Hi H. unfold check, check1 in H. apply Bool.andb_true_iff in H. destruct H as [H1 H2].
  apply Z.leb_le in H1. apply Z.ltb_lt in H2.
  assert (HP : 0 < IZR P) by (now apply IZR_lt). assert (HQ : 0 < / IZR P) by (now apply Rinv_0_lt_compat).
  destruct (sc_ok i) as [HS _]. set (z := fst (sc i)) in *. set (x := sin (INR i)) in *.
  assert (HB : Rabs (x - IZR z / IZR P) <= 3 * 2 ^ 64 / IZR P).
  { eapply Rle_trans; [exact HS|]. unfold Rdiv. apply Rmult_le_compat_r; [lra|].
    apply Rmult_le_compat_l; [lra|]. pose proof (Rle_pow 2 i 64 ltac:(lra) Hi). lra. }
  assert (HA : Rabs x * IZR P - 3 * 2 ^ 64 <= IZR (Z.abs z) <= Rabs x * IZR P + 3 * 2 ^ 64).
  { rewrite abs_IZR. apply (Rmult_le_compat_r (IZR P)) in HB; [|lra].
    replace (3 * 2 ^ 64 / IZR P * IZR P) with (3 * 2 ^ 64) in HB by (field; lra).
    rewrite <- (Rabs_pos_eq (IZR P)) in HB at 2 by lra. rewrite <- Rabs_mult in HB.
    replace ((x - IZR z / IZR P) * IZR P) with (x * IZR P - IZR z) in HB by (field; lra).
    rewrite <- (Rabs_pos_eq (IZR P)) by lra. rewrite <- Rabs_mult.
    pose proof (Rabs_triang_inv (x * IZR P) (IZR z)). pose proof (Rabs_triang_inv (IZR z) (x * IZR P)).
    rewrite (Rabs_minus_sym (IZR z)) in H0. lra. }
  apply IZR_le in H1. apply IZR_lt in H2. rewrite !plus_IZR, !mult_IZR in H1. rewrite !plus_IZR, !mult_IZR, plus_IZR in H2.
  assert (EE : IZR err = 2 ^ 32 * (3 * 2 ^ 64)).
  { change err with (2 ^ Z.of_nat 32 * (3 * 2 ^ Z.of_nat 64))%Z. rewrite !mult_IZR, <- !pow_IZR. reflexivity. }
  assert (E32 : IZR (2 ^ 32) = 2 ^ 32).
  { change (2 ^ 32)%Z with (2 ^ Z.of_nat 32)%Z. rewrite <- pow_IZR. reflexivity. }
  rewrite EE, E32 in H1, H2.
  assert (K32 : 0 < 2 ^ 32) by (apply pow_lt; lra).
  set (k := 2 ^ 32) in *. set (r := 3 * 2 ^ 64) in *. split.
  - apply Rmult_le_reg_r with (IZR P); [exact HP|]. nra.
  - apply Rmult_lt_reg_r with (IZR P); [exact HP|]. nra.
Qed.
(* MD5_T[ i - 1 ] = floor( 2^32 * |sin i| ) for i = 1 .. 64 *)
Theorem C43_md5_sines i : (1 <= i <= 64)%nat ->
  IZR (Z.of_N (nth (i - 1) MD5_T 0%N)) <= 2 ^ 32 * Rabs (sin (INR i)) < IZR (Z.of_N (nth (i - 1) MD5_T 0%N)) + 1.
Proof.
  intros Hi. apply check_ok; [lia|]. replace i with (S (0 + (i - 1))) at 2 by lia.
  apply checks_ok; [exact check_all|]. change (length MD5_T) with 64%nat. lia.
Qed.
(* the constants in the code of transform(), in the order of its lines *)
Definition ins_const (i : md5_ins) : N :=
  match i with FF _ _ _ _ _ _ ac | GG _ _ _ _ _ _ ac | HH _ _ _ _ _ _ ac | II _ _ _ _ _ _ ac => ac end.
Theorem C43_md5_constants i : (1 <= i <= 64)%nat ->
  exists T, nth_error (map ins_const md5_program) (i - 1) = Some T /\
            IZR (Z.of_N T) <= 2 ^ 32 * Rabs (sin (INR i)) < IZR (Z.of_N T) + 1.
Proof.
  intros Hi. exists (nth (i - 1) MD5_T 0%N). split; [|now apply C43_md5_sines].
  change (map ins_const md5_program) with MD5_T. apply nth_error_nth'. change (length MD5_T) with 64%nat. lia.
Qed.
(* e.g. 2^32 |sin 1| = 3614090360.28... *)
Example md5_sines_ex : (1 <= 1 <= 64)%nat /\ nth (1 - 1) MD5_T 0%N = 3614090360%N.
Proof. split; [lia|reflexivity]. Qed.
End Sines.

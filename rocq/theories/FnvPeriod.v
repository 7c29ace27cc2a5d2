(* result() of fnv1a cycles through all 2^w states: the map s -> (s xor 0xFF) * prime has full
   period.  (An argument in the style of Hull and Dobell, on the low byte and on the rest.) *)
From Coq Require Import ZArith Znumtheory FinFun.
From Verif Require Import Base BaseFacts SpecCommon SpecFnv.
Open Scope Z_scope.

Section Iter.
Variable p : Z.
Definition g (z : Z) : Z := p * (z + 255 - 2 * (z mod 256)).
Fixpoint iter (k : nat) (z : Z) : Z := match k with O => z | S k' => iter k' (g z) end.
Lemma iter_add a b z : iter (a + b) z = iter b (iter a z).
Proof. revert z; induction a as [|a IH]; intros z; [reflexivity|]. apply IH. Qed.
Lemma iter_S k z : iter (S k) z = g (iter k z).
Proof. replace (S k) with (k + 1)%nat by lia. now rewrite iter_add. Qed.

Lemma g_shift z h : g (z + 256 * h) = g z + 256 * (p * h).
Proof.
  unfold g. replace ((z + 256 * h) mod 256) with (z mod 256); [ring|].
  rewrite (Z.mul_comm 256), Z.mod_add by discriminate. reflexivity.
Qed.
Lemma iter_shift k : forall z h, iter k (z + 256 * h) = iter k z + 256 * (p ^ Z.of_nat k * h).
Proof.
  induction k as [|k IH]; intros z h.
  - change (iter 0 (z + 256 * h)) with (z + 256 * h). change (iter 0 z) with z. change (p ^ Z.of_nat 0) with 1. ring.
  - cbn [iter]. rewrite g_shift, IH. rewrite Nat2Z.inj_succ, Z.pow_succ_r by lia. ring.
Qed.
(* congruence modulo a multiple of 256 *)
Lemma iter_mod k m z : (256 | m) -> m <> 0 -> iter k (z mod m) mod m = iter k z mod m.
Proof.
  intros [q Hq] Hm. rewrite (Z.div_mod z m Hm) at 2.
  replace (m * (z / m) + z mod m) with (z mod m + 256 * (q * (z / m))) by (rewrite Hq; ring).
  rewrite iter_shift.
  replace (256 * (p ^ Z.of_nat k * (q * (z / m)))) with ((p ^ Z.of_nat k * (z / m)) * m) by (rewrite Hq; ring).
  now rewrite Z.mod_add.
Qed.

(* executable iteration modulo m *)
Fixpoint iterm (m : Z) (k : nat) (z : Z) : Z := match k with O => z mod m | S k' => iterm m k' (g z mod m) end.
Lemma iterm_ok m k : forall z, (256 | m) -> m <> 0 -> iterm m k z = iter k z mod m.
Proof.
  induction k as [|k IH]; intros z H Hm; [reflexivity|]. cbn [iterm iter].
  rewrite IH by assumption. now apply iter_mod.
Qed.

(* geometric sums *)
Fixpoint S_ (a : Z) (m : nat) : Z := match m with O => 0 | S m' => S_ a m' + a ^ Z.of_nat m' end.
Lemma S_add a m n : S_ a (m + n) = S_ a m + a ^ Z.of_nat m * S_ a n.
Proof.
  induction n as [|n IH].
  - rewrite Nat.add_0_r. cbn [S_]. ring.
  - rewrite Nat.add_succ_r. cbn [S_]. rewrite IH, Nat2Z.inj_add, Z.pow_add_r by lia. ring.
Qed.
Lemma pow_mod4 a n : a mod 4 = 1 -> (a ^ Z.of_nat n) mod 4 = 1.
Proof.
  intros H. induction n as [|n IH]; [reflexivity|].
  rewrite Nat2Z.inj_succ, Z.pow_succ_r, Z.mul_mod, H, IH by lia. reflexivity.
Qed.
Lemma S_parity a m : a mod 4 = 1 -> (S_ a m) mod 2 = Z.of_nat m mod 2.
Proof.
  intros H. induction m as [|m IH]; [reflexivity|]. cbn [S_].
  rewrite Z.add_mod, IH by discriminate.
  assert (E : a ^ Z.of_nat m mod 2 = 1).
  { pose proof (pow_mod4 a m H) as P. set (x := a ^ Z.of_nat m) in *. clearbody x.
    rewrite (Z.div_mod x 4) by discriminate. rewrite P.
    replace (4 * (x / 4) + 1) with (1 + (2 * (x / 4)) * 2) by ring. now rewrite Z.mod_add. }
  rewrite E, Nat2Z.inj_succ. unfold Z.succ. rewrite (Z.add_mod (Z.of_nat m) 1) by discriminate. reflexivity.
Qed.
Lemma S_double a k : S_ a (2 * k) = S_ a k * (1 + a ^ Z.of_nat k).
Proof. replace (2 * k)%nat with (k + k)%nat by lia. rewrite S_add. ring. Qed.

(* 2^v divides S_m exactly when it divides m *)
Lemma S_div a v : a mod 4 = 1 -> forall m, (2 ^ Z.of_nat v | S_ a m) <-> (2 ^ Z.of_nat v | Z.of_nat m).
Proof.
  intros Ha. induction v as [|v IH]; intros m.
  - change (2 ^ Z.of_nat 0) with 1. split; intros _; apply Z.divide_1_l.
  - rewrite Nat2Z.inj_succ, Z.pow_succ_r by lia.
    assert (Heven : forall k, (2 * 2 ^ Z.of_nat v | k) -> k mod 2 = 0).
    { intros k [q Hq]. rewrite Hq. replace (q * (2 * 2 ^ Z.of_nat v)) with ((q * 2 ^ Z.of_nat v) * 2) by ring.
      apply Z.mod_mul. discriminate. }
    destruct (Z.eq_dec (Z.of_nat m mod 2) 0) as [E|E].
    2:{ split; intros H; apply Heven in H; [rewrite S_parity in H by exact Ha|]; contradiction. }
    assert (Em : exists k, m = (2 * k)%nat).
    { exists (m / 2)%nat. pose proof (Nat.div_mod m 2). 
      assert ((m mod 2)%nat = 0%nat). { apply Nat2Z.inj. rewrite Nat2Z.inj_mod. exact E. } lia. }
    destruct Em as [k ->]. rewrite S_double.
    pose proof (pow_mod4 a k Ha) as P. set (x := a ^ Z.of_nat k) in *. clearbody x.
    assert (Ex : 1 + x = 2 * (1 + 2 * (x / 4))).
    { rewrite (Z.div_mod x 4) at 1 by discriminate. rewrite P. ring. }
    rewrite Ex. set (o := 1 + 2 * (x / 4)).
    replace (S_ a k * (2 * o)) with (2 * (S_ a k * o)) by ring.
    rewrite Nat2Z.inj_mul. change (Z.of_nat 2) with 2.
    rewrite !Z.mul_divide_cancel_l by discriminate. rewrite <- IH. split.
    + intros H. rewrite Z.mul_comm in H. apply Gauss in H; [exact H|].
      apply rel_prime_sym. unfold o. clear. set (y := x / 4).
      assert (R2 : rel_prime (1 + 2 * y) 2).
      { apply bezout_rel_prime. apply (Bezout_intro _ _ _ 1 (- y)). ring. }
      induction v as [|v IHv]; [apply rel_prime_1_r || (apply rel_prime_sym, rel_prime_1)|].
      rewrite Nat2Z.inj_succ, Z.pow_succ_r by lia. now apply rel_prime_mult.
    + intros H. now apply Z.divide_mul_l.
Qed.

Lemma in_residues z m : 0 < m -> In (z mod m) (map Z.of_nat (seq 0 (Z.to_nat m))).
Proof.
  intros H. pose proof (Z.mod_pos_bound z m H) as B. apply in_map_iff. exists (Z.to_nat (z mod m)).
  split; [lia|]. apply in_seq. lia.
Qed.

Definition isA (a : Z) : Prop := a = p ^ Z.of_nat 256.
(* the first [k] values of the iteration modulo 256, from [x] *)
Fixpoint orbit (x : Z) (k : nat) : list Z :=
  match k with
  | O => []
  | S k' => x :: orbit (g x mod 256) k'
  end.
Lemma orbit_length k : forall x, length (orbit x k) = k.
Proof. induction k as [|k IH]; intros x; [reflexivity|]. cbn [orbit length]. now rewrite IH. Qed.
Lemma orbit_nth k : forall x j d, (j < k)%nat -> nth j (orbit (x mod 256) k) d = iter j x mod 256.
Proof.
  induction k as [|k IH]; intros x j d H; [lia|]. destruct j as [|j]; [reflexivity|].
  cbn [orbit nth]. rewrite IH by lia. change (iter (S j) x) with (iter j (g x)).
  rewrite <- (iter_mod j 256 (g (x mod 256))), <- (iter_mod j 256 (g x)) by (apply Z.divide_refl || discriminate).
  do 2 f_equal. pose proof (iter_mod 1 256 x ltac:(apply Z.divide_refl) ltac:(discriminate)) as E. exact E.
Qed.
(* every residue modulo 256 occurs in the orbit of 0 *)
Definition low_ok : Prop :=
  (let o := orbit 0 256 in forallb (fun z => existsb (Z.eqb z) o) (map Z.of_nat (seq 0 256))) = true.
Definition mid_ok : Prop := iterm 512 256 0 = 256.

Section Period.
Variable w : nat.
Hypothesis Hw : (9 <= w)%nat.
Let M := 2 ^ Z.of_nat w.
Hypothesis Hp : p mod 2 = 1.
(* checked by computation: the low byte has period 256, and 256 steps change bit 8 *)
Hypothesis Hlow : low_ok.
Hypothesis H512 : mid_ok.
Lemma residue_orbit z : exists j, (j < 256)%nat /\ z mod 256 = iter j 0 mod 256.
Proof.
  pose proof Hlow as HL. unfold low_ok in HL. cbv zeta in HL. rewrite forallb_forall in HL.
  specialize (HL (z mod 256) (in_residues z 256 ltac:(lia))).
  apply existsb_exists in HL. destruct HL as (y & HI & E). apply Z.eqb_eq in E. subst y.
  destruct (In_nth _ _ 0 HI) as (j & Hj & E). rewrite orbit_length in Hj. exists j. split; [exact Hj|].
  rewrite <- E. exact (orbit_nth 256 0 j 0 Hj).
Qed.
Lemma orbit_inj i j : (i < 256)%nat -> (j < 256)%nat -> iter i 0 mod 256 = iter j 0 mod 256 -> i = j.
Proof.
  intros Hi Hj E.
  assert (ND : NoDup (orbit (0 mod 256) 256)).
  { apply (NoDup_incl_NoDup (l := map Z.of_nat (seq 0 256))).
    - apply FinFun.Injective_map_NoDup; [intros x y; apply Nat2Z.inj|apply seq_NoDup].
    - rewrite orbit_length, map_length, seq_length. apply le_n.
    - intros z Hz. pose proof Hlow as HL. unfold low_ok in HL. cbv zeta in HL. rewrite forallb_forall in HL.
      specialize (HL z Hz). apply existsb_exists in HL. destruct HL as (y & HI & E'). apply Z.eqb_eq in E'. now subst y. }
  rewrite (NoDup_nth _ 0) in ND. apply ND; rewrite ?orbit_length; try assumption.
  rewrite !orbit_nth by assumption. exact E.
Qed.
Lemma iter256_0 : iter 256 0 mod 512 = 256.
Proof.
  assert (D : (256 | 512)) by (exists 2; reflexivity).
  rewrite <- iterm_ok by (assumption || discriminate). exact H512.
Qed.
Lemma iter256_0' : iter 256 0 mod 256 = 0.
Proof. rewrite (Zmod_div_mod 256 512); [|lia|lia|exists 2; reflexivity]. rewrite iter256_0. reflexivity. Qed.
Lemma period_low z r : (1 <= r < 256)%nat -> iter r z mod 256 <> z mod 256.
Proof.
  intros Hr E. rewrite <- iter_mod in E by (apply Z.divide_refl || discriminate).
  destruct (residue_orbit z) as (j & Hj & Ej). rewrite Ej in E.
  rewrite iter_mod in E by (apply Z.divide_refl || discriminate). rewrite <- iter_add in E.
  destruct (Nat.lt_ge_cases (j + r) 256) as [H|H].
  - apply orbit_inj in E; lia.
  - replace (j + r)%nat with (256 + (j + r - 256))%nat in E by lia. rewrite iter_add in E.
    rewrite <- iter_mod, iter256_0' in E by (apply Z.divide_refl || discriminate).
    apply orbit_inj in E; lia.
Qed.
Lemma p_odd_pow' k : exists q, p ^ Z.of_nat k = 1 + 2 * q.
Proof.
  exists ((p ^ Z.of_nat k) / 2). rewrite (Z.div_mod (p ^ Z.of_nat k) 2) at 1 by discriminate.
  assert (E : (p ^ Z.of_nat k) mod 2 = 1).
  { induction k as [|k IH]; [reflexivity|].
    rewrite Nat2Z.inj_succ, Z.pow_succ_r, Z.mul_mod, IH, Hp by lia. reflexivity. }
  rewrite E. ring.
Qed.
Lemma step256 z : iter 256 z mod 512 = (z + 256) mod 512.
Proof.
  destruct (residue_orbit z) as (j & _ & Ej).
  assert (Ez : z = iter j 0 + 256 * (z / 256 - iter j 0 / 256)).
  { pose proof (Z.div_mod z 256 ltac:(discriminate)). pose proof (Z.div_mod (iter j 0) 256 ltac:(discriminate)). lia. }
  set (h := z / 256 - iter j 0 / 256) in *. clearbody h. rewrite Ez.
  rewrite iter_shift, <- iter_add, Nat.add_comm, iter_add.
  assert (E0 : iter 256 0 = 0 + 256 * (1 + 2 * (iter 256 0 / 512))).
  { pose proof (Z.div_mod (iter 256 0) 512 ltac:(discriminate)) as E. rewrite iter256_0 in E.
    set (y := iter 256 0) in *. clearbody y. lia. }
  rewrite E0, iter_shift. set (t := iter 256 0 / 512). clearbody t.
  destruct (p_odd_pow' j) as (q & ->). destruct (p_odd_pow' 256) as (q' & ->).
  set (x := iter j 0). clearbody x.
  replace (x + 256 * ((1 + 2 * q) * (1 + 2 * t)) + 256 * ((1 + 2 * q') * h))
    with (x + 256 * h + 256 + (q + t + 2 * q * t + q' * h) * 512) by ring.
  now rewrite Z.mod_add by discriminate.
Qed.
Lemma C_odd z : exists c, iter 256 z = z + 256 * c /\ c mod 2 = 1.
Proof.
  pose proof (step256 z) as E. set (y := iter 256 z) in *. clearbody y.
  exists (1 + 2 * (y / 512 - (z + 256) / 512)). split.
  - pose proof (Z.div_mod y 512 ltac:(discriminate)). pose proof (Z.div_mod (z + 256) 512 ltac:(discriminate)). lia.
  - rewrite Z.add_mod, Z.mul_comm, Z.mod_mul by discriminate. reflexivity.
Qed.
Lemma p_odd_pow k : (p ^ Z.of_nat k) mod 2 = 1.
Proof.
  induction k as [|k IH]; [reflexivity|].
  rewrite Nat2Z.inj_succ, Z.pow_succ_r, Z.mul_mod, Hp, IH by lia. reflexivity.
Qed.
Variable a : Z.
Hypothesis Ea : isA a.
Lemma a_mod4 : a mod 4 = 1.
Proof.
  unfold isA in Ea. rewrite Ea. clear Ea. replace 256%nat with (128 + 128)%nat by reflexivity. rewrite Nat2Z.inj_add, Z.pow_add_r by lia.
  pose proof (p_odd_pow 128) as O. generalize dependent (p ^ Z.of_nat 128). intros x O.
  rewrite (Z.div_mod x 2) by discriminate. rewrite O. generalize (x / 2). intros y.
  replace ((2 * y + 1) * (2 * y + 1)) with (1 + (y * y + y) * 4) by ring. rewrite Z.mod_add by discriminate. reflexivity.
Qed.
Lemma iter256 z c : iter 256 z = z + 256 * c -> forall m, iter (256 * m) z = z + 256 * (c * S_ a m).
Proof.
  intros E. induction m as [|m IH].
  - rewrite Nat.mul_0_r. cbn [iter S_]. ring.
  - replace (256 * S m)%nat with (256 + 256 * m)%nat by lia. rewrite iter_add, E, iter_shift, IH.
    cbn [S_]. unfold isA in Ea. rewrite Ea. clear Ea. rewrite <- Z.pow_mul_r by lia. rewrite <- Nat2Z.inj_mul.
    generalize (p ^ Z.of_nat (256 * m)). intros y. ring.
Qed.

Theorem period z d : (0 < d)%nat -> iter d z mod M = z mod M -> (M | Z.of_nat d).
Proof.
  intros Hd E.
  assert (DM : (256 | M)).
  { exists (2 ^ Z.of_nat (w - 8)). unfold M. change 256 with (2 ^ 8). rewrite <- Z.pow_add_r by lia. f_equal. lia. }
  assert (HM : M <> 0) by (apply Z.pow_nonzero; lia).
  set (q := (d / 256)%nat). set (r := (d mod 256)%nat).
  assert (Hdm : d = (256 * q + r)%nat) by (apply Nat.div_mod; discriminate).
  assert (Hr : (r < 256)%nat) by (apply Nat.mod_upper_bound; discriminate).
  destruct (C_odd z) as (c & Ec & Oc).
  pose proof (iter256 z c Ec) as I.
  assert (Er : r = 0%nat).
  { destruct (Nat.eq_dec r 0) as [|Hne]; [assumption|exfalso].
    apply (period_low z r ltac:(lia)).
    assert (E2 : iter d z mod 256 = z mod 256).
    { destruct DM as [u Hu]. rewrite (Zmod_div_mod 256 M), E, <- (Zmod_div_mod 256 M) by (lia || (exists u; exact Hu)). reflexivity. }
    rewrite <- E2, Hdm, iter_add, I, iter_shift, Z.mul_comm, Z.mod_add by discriminate. reflexivity. }
  rewrite Er, Nat.add_0_r in Hdm. rewrite Hdm, I in E.
  assert (D : (M | 256 * (c * S_ a q))).
  { apply Z.mod_divide; [exact HM|]. apply (f_equal (fun x => (x - z mod M) mod M)) in E.
    rewrite Z.sub_diag, Z.mod_0_l in E by exact HM. rewrite <- Zminus_mod in E.
    rewrite <- E. f_equal. ring. }
  assert (EM : M = 256 * 2 ^ Z.of_nat (w - 8)).
  { unfold M. change 256 with (2 ^ 8). rewrite <- Z.pow_add_r by lia. f_equal. lia. }
  rewrite EM in D. rewrite Z.mul_divide_cancel_l in D by discriminate.
  apply Gauss in D.
  - apply (S_div a (w - 8) a_mod4) in D. rewrite EM, Hdm, Nat2Z.inj_mul.
    change (Z.of_nat 256) with 256. now apply Z.mul_divide_mono_l.
  - apply rel_prime_sym. assert (R2 : rel_prime c 2).
    { apply bezout_rel_prime. apply (Bezout_intro _ _ _ 1 (- (c / 2))).
      pose proof (Z.div_mod c 2 ltac:(discriminate)). lia. }
    clear -R2. induction (w - 8)%nat as [|v IHv]; [apply rel_prime_sym, rel_prime_1|].
    rewrite Nat2Z.inj_succ, Z.pow_succ_r by lia. now apply rel_prime_mult.
Qed.

Theorem period_full z : forall d, Z.of_nat d = M -> iter d z mod M = z mod M.
Proof.
  intros d Hd. destruct (C_odd z) as (c & Ec & _).
  assert (EM : M = 256 * 2 ^ Z.of_nat (w - 8)).
  { unfold M. change 256 with (2 ^ 8). rewrite <- Z.pow_add_r by lia. f_equal. lia. }
  set (q := (d / 256)%nat).
  assert (Ed : d = (256 * q)%nat).
  { pose proof (Nat.div_mod d 256 ltac:(discriminate)) as D. fold q in D.
    assert ((d mod 256)%nat = 0%nat); [|lia]. apply Nat2Z.inj. rewrite Nat2Z.inj_mod, Hd, EM.
    change (Z.of_nat 256) with 256. rewrite Z.mul_comm. apply Z.mod_mul. discriminate. }
  rewrite Ed, (iter256 z c Ec).
  assert (DS : (2 ^ Z.of_nat (w - 8) | S_ a q)).
  { apply (S_div a (w - 8) a_mod4). exists 1. rewrite Z.mul_1_l.
    apply (Z.mul_cancel_l _ _ 256); [discriminate|]. rewrite <- EM, <- Hd, Ed. lia. }
  destruct DS as [u Hu]. rewrite Hu.
  replace (256 * (c * (u * 2 ^ Z.of_nat (w - 8)))) with (c * u * M) by (rewrite EM; ring).
  apply Z.mod_add. apply Z.pow_nonzero; lia.
Qed.
End Period.
End Iter.

(* C62: integer keys are hashed perfectly: for the algorithms that take in an integer of the width of
   the result in one step, every hash value is the hash of exactly one integer, whatever the seed; so
   the buckets of a hash table are hit evenly. *)
From Verif Require Import Base BaseFacts SpecCommon Gen Bits GenMD Hasher GenBlk Types ModelResult ModelAppend SpecAppend ProofMsg ProofMsgEq
  Behaves Instances ProofRuns Samples PropsHistory PropsAlg PropsAppend PropsSeeds PropsPrims PropsIntegral ProofRange ProofLocal PropsLocal PropsLocal64 PropsLocalKeys.
From Verif Require Import ProofSpooky.
From Coq Require Import FinFun.
Open Scope N_scope.

(* the algorithm, and the width of its result *)
Definition takes_in (a : alg) (s : isz) : Prop :=
  match a, s with Axx32, I32 | Amur32, I32 | Axx64, I64 => True | _, _ => False end.
(* the hash of the integer z, of the (signed or unsigned) integer type of width s, is r *)
Definition hashes_to (e : env) (a : alg) (f : flavor) (c : ctor) (s : isz) (sg : bool) (z : Z) (r : N) : Prop :=
  runs e a f c [SAppend (TInt s sg) (VInt z); SResult] = Ok [RInt s r].
(* there are exactly n integers in P *)
Definition exactlyZ (n : N) (P : Z -> Prop) : Prop :=
  exists f : N -> Z, (forall k, k < n -> P (f k)) /\ (forall j k, j < n -> k < n -> f j = f k -> j = k) /\ (forall z, P z -> exists k, k < n /\ f k = z).

(* ---------- counting ---------- *)
Lemma onto_of_inj (B : N) (h : N -> N) : (forall x, x < B -> h x < B) -> (forall x y, x < B -> y < B -> h x = h y -> x = y) ->
  forall r, r < B -> exists x, x < B /\ h x = r.
Proof.
  intros HB HI r Hr.
  assert (BF : bFun (N.to_nat B) (fun n => N.to_nat (h (N.of_nat n)))).
  { intros n Hn. specialize (HB (N.of_nat n)). lia. }
  assert (BI : bInjective (N.to_nat B) (fun n => N.to_nat (h (N.of_nat n)))).
  { intros n m Hn Hm E. apply N2Nat.inj in E. apply HI in E; lia. }
  apply (bInjective_bSurjective BF) in BI. destruct (BI (N.to_nat r)) as (n & Hn & E); [lia|].
  exists (N.of_nat n). split; [lia|]. now apply N2Nat.inj.
Qed.
Lemma in_int_type s sg z : in_int s sg z <-> in_type s sg z.
Proof. unfold in_int, in_type. destruct s, sg; cbn; lia. Qed.
Lemma word_bits s : 2 ^ (8 * N.of_nat (ibytes s)) = 2 ^ ibits s.
Proof. reflexivity. Qed.
(* exactly n words, exactly n keys: along a bijection *)
Lemma exactly_keys s sg n (P : N -> Prop) (Q : Z -> Prop) (R : Z -> N -> Prop) :
  (forall z, Q z <-> in_int s sg z /\ exists r, R z r /\ P r) ->
  (forall r, P r -> is_word s r) ->
  (forall z, in_int s sg z -> exists r, R z r) -> (forall z r r', R z r -> R z r' -> r = r') ->
  (forall r, is_word s r -> exists z, in_int s sg z /\ R z r) ->
  (forall z z' r, in_int s sg z -> in_int s sg z' -> R z r -> R z' r -> z = z') ->
  exactly n P -> exactlyZ n Q.
Proof.
  intros HQ HP HT HF HS HI (g & G1 & G2 & G3).
  (* the key of a word, by the decidable search below is not needed: choice over the finite set *)
  assert (C : forall m, m <= n -> exists k : N -> Z, forall j, j < m -> in_int s sg (k j) /\ R (k j) (g j)).
  { intros m. induction m as [|m IH] using N.peano_ind; intros Hm.
    - exists (fun _ => 0%Z). intros j Hj. lia.
    - destruct IH as (k & Hk); [lia|]. destruct (HS (g m)) as (z & Hz & Rz); [apply HP, G1; lia|].
      exists (fun j => if j =? m then z else k j). intros j Hj. destruct (N.eqb_spec j m) as [->|HN]; [now split|]. apply Hk. lia. }
  destruct (C n (N.le_refl n)) as (k & Hk). exists k. split; [|split].
  - intros j Hj. apply HQ. split; [now apply Hk|]. exists (g j). split; [now apply Hk|now apply G1].
  - intros i j Hi Hj E. apply G2; try assumption. apply (HF (k i)); [now apply Hk|]. rewrite E. now apply Hk.
  - intros z Hz. apply HQ in Hz. destruct Hz as (Hz & r & Hr & Pr). destruct (G3 r Pr) as (j & Hj & <-). exists j. split; [exact Hj|].
    apply (HI (k j) z (g j)); try assumption; now apply Hk.
Qed.

(* ---------- one key, one hash ---------- *)
Lemma int_valid e a c s sg z : takes_in a s -> valid_ctor c -> in_int s sg z -> valid_program e a c [SAppend (TInt s sg) (VInt z); SResult].
Proof.
  intros HA HC HZ. split; [exact HC|]. constructor; [|constructor; [exact I|constructor]].
  split; [exact HZ|]. intros _. left. destruct a; try contradiction; reflexivity.
Qed.
Lemma machine_int cw a s st : takes_in a s -> exists r, fst (mc_ar (machine_of cw a) st) = RInt s r.
Proof.
  intros HA. destruct a; try contradiction; destruct s; try contradiction; cbn [machine_of blk_machine mc_ar fst]; eexists; reflexivity.
Qed.
Lemma hash_total e a f c s sg z : valid_env e -> valid_ctor c -> takes_in a s -> in_int s sg z ->
  exists r, is_word s r /\ hashes_to e a f c s sg z r.
Proof.
  intros HE HC HA HZ. pose proof (int_valid e a c s sg z HA HC HZ) as HV.
  assert (HR : room e a c [SAppend (TInt s sg) (VInt z); SResult]) by (apply room_any; destruct a; try contradiction; discriminate).
  pose proof (results_words e a f c _ HV) as HW. unfold hashes_to. rewrite runs_expected by assumption. revert HW.
  unfold expected. cbn [aprun]. set (st := mc_au _ _ _). destruct (machine_int (e_cw e) a s st HA) as (r & ->). intros HW.
  exists r. split; [|reflexivity]. inversion HW as [|? ? X _]. exact X.
Qed.
Lemma hash_fun e a f c s sg z r r' : hashes_to e a f c s sg z r -> hashes_to e a f c s sg z r' -> r = r'.
Proof. unfold hashes_to. intros -> E. now injection E. Qed.
Lemma unit_of a s i f sg z : takes_in a s -> one_unit a (length (scalar_bytes i f (TInt s sg) z)).
Proof.
  intros HA. unfold scalar_bytes, int_bytes. destruct a; try contradiction; destruct s; try contradiction; destruct (fl_order f); rewrite ?enc_length; cbn [one_unit ibytes].
  all: lia.
Qed.
Lemma hash_inj e a f c s sg z z' r : valid_env e -> valid_ctor c -> ctor_weight c + 4 < e_cw e -> takes_in a s -> in_int s sg z -> in_int s sg z' ->
  hashes_to e a f c s sg z r -> hashes_to e a f c s sg z' r -> z = z'.
Proof.
  intros HE HC HW HA HZ HZ' H H'. destruct (Z.eq_dec z z') as [E|HN]; [exact E|exfalso].
  destruct (C53_integers e a f c (TInt s sg) z z' HE I (int_valid e a c s sg z HA HC HZ) (int_valid e a c s sg z' HA HC HZ') HW (unit_of a s _ f sg z HA) HN)
    as (r1 & r2 & E1 & E2 & X). unfold hashes_to in *. rewrite H in E1. rewrite H' in E2. injection E1 as <-. injection E2 as <-. now apply X.
Qed.

(* ---------- C62 ---------- *)
(* Every value of the result type is the hash of exactly one integer. *)
Theorem C62_perfect e a f c s sg r : valid_env e -> valid_ctor c -> ctor_weight c + 4 < e_cw e -> takes_in a s -> is_word s r ->
  exists! z, in_int s sg z /\ hashes_to e a f c s sg z r.
Proof.
  intros HE HC HW HA HR.
  (* the hash as a function of the word that represents the integer *)
  assert (C : forall m, exists h : N -> N, forall x, x < m -> x < 2 ^ ibits s -> is_word s (h x) /\ hashes_to e a f c s sg (to_int s sg x) (h x)).
  { intros m. induction m as [|m (h & Hh)] using N.peano_ind.
    - exists (fun _ => 0). intros x Hx. lia.
    - destruct (N.ltb_spec m (2 ^ ibits s)) as [Hm|Hm].
      + destruct (hash_total e a f c s sg (to_int s sg m) HE HC HA) as (v & Hv & Rv); [now apply in_int_type, to_int_in|].
        exists (fun x => if x =? m then v else h x). intros x Hx Hx'. destruct (N.eqb_spec x m) as [->|HN]; [now split|]. apply Hh; lia.
      + exists h. intros x Hx Hx'. apply Hh; lia. }
  destruct (C (2 ^ ibits s)) as (h & Hh).
  destruct (onto_of_inj (2 ^ ibits s) h) with (r := r) as (x & Hx & E).
  - intros x Hx. now apply (Hh x Hx Hx).
  - intros x y Hx Hy E. apply (to_int_inj s sg); try assumption.
    apply (hash_inj e a f c s sg _ _ (h x)); try assumption; try (now apply in_int_type, to_int_in); [now apply Hh|]. rewrite E. now apply Hh.
  - exact HR.
  - assert (HZ : in_int s sg (to_int s sg x)) by now apply in_int_type, to_int_in.
    assert (HH : hashes_to e a f c s sg (to_int s sg x) r) by (rewrite <- E; now apply Hh).
    exists (to_int s sg x). split; [now split|]. intros z (Hz & Rz). now apply (hash_inj e a f c s sg _ _ r).
Qed.
Lemma keys_of e a f c s sg n (P : N -> Prop) : valid_env e -> valid_ctor c -> ctor_weight c + 4 < e_cw e -> takes_in a s ->
  (forall r, P r -> is_word s r) -> exactly n P -> exactlyZ n (fun z => in_int s sg z /\ exists r, hashes_to e a f c s sg z r /\ P r).
Proof.
  intros HE HC HW HA HP. apply (exactly_keys s sg n P _ (hashes_to e a f c s sg)).
  - reflexivity.
  - exact HP.
  - intros z Hz. destruct (hash_total e a f c s sg z HE HC HA Hz) as (r & _ & Hr). now exists r.
  - intros z r r'. apply hash_fun.
  - intros r Hr. destruct (C62_perfect e a f c s sg r HE HC HW HA Hr) as (z & Hz & _). now exists z.
  - intros z z' r. now apply hash_inj.
Qed.
(* Reduced by get_integral_result<T> to a narrower integer type T, each value of T is obtained for exactly
   2^(difference of the widths) integers. *)
Theorem C62_integral e a f c s sg t sgt y : valid_env e -> valid_ctor c -> ctor_weight c + 4 < e_cw e -> takes_in a s ->
  (ibytes t < ibytes s)%nat -> in_int t sgt y ->
  exactlyZ (2 ^ (8 * N.of_nat (ibytes s - ibytes t)))
    (fun z => in_int s sg z /\ exists r, hashes_to e a f c s sg z r /\ get_integral_result t sgt s r = Ok y).
Proof.
  intros HE HC HW HA HT HY. destruct (C33_balanced t sgt s y HT) as (_ & HB); [destruct a, s; try contradiction; discriminate|now apply in_int_type|].
  destruct (keys_of e a f c s sg _ _ HE HC HW HA (fun r H => proj1 H) HB) as (g & G1 & G2 & G3). exists g. split; [|split; [exact G2|]].
  - intros k Hk. destruct (G1 k Hk) as (H1 & r & H2 & _ & H3). split; [exact H1|]. now exists r.
  - intros z (Hz & r & Hr & E). apply G3. split; [exact Hz|]. exists r. split; [exact Hr|]. split; [|exact E].
    destruct (hash_total e a f c s sg z HE HC HA Hz) as (r' & W & Hr'). now rewrite (hash_fun e a f c s sg z r r' Hr Hr').
Qed.
(* A table of 2^k buckets, chosen by the low bits of the hash: exactly 2^(w-k) of the 2^w integers for each bucket. *)
Theorem C62_low_bits e a f c s sg k b : valid_env e -> valid_ctor c -> ctor_weight c + 4 < e_cw e -> takes_in a s ->
  k <= 8 * N.of_nat (ibytes s) -> b < 2 ^ k ->
  exactlyZ (2 ^ (8 * N.of_nat (ibytes s) - k)) (fun z => in_int s sg z /\ exists r, hashes_to e a f c s sg z r /\ r mod 2 ^ k = b).
Proof.
  intros HE HC HW HA HK HB.
  assert (NZ : 2 ^ k <> 0) by now apply N.pow_nonzero.
  assert (SP : 2 ^ (8 * N.of_nat (ibytes s)) = 2 ^ k * 2 ^ (8 * N.of_nat (ibytes s) - k)) by (rewrite <- N.pow_add_r; f_equal; lia).
  assert (X : exactly (2 ^ (8 * N.of_nat (ibytes s) - k)) (fun r => is_word s r /\ r mod 2 ^ k = b)).
  { unfold is_word. rewrite SP. generalize (2 ^ (8 * N.of_nat (ibytes s) - k)). revert HB NZ. generalize (2 ^ k). clear. intros K HB NZ n.
    exists (fun j => b + K * j). split; [|split].
    - intros j Hj. split; [nia|]. rewrite N.add_comm, N.mul_comm, N.add_comm, N.mod_add by exact NZ. now apply N.mod_small.
    - intros i j _ _ E. nia.
    - intros r (Hr & E). exists (r / K). split; [now apply N.div_lt_upper_bound|]. rewrite <- E, N.add_comm. symmetry. now apply N.div_mod. }
  destruct (keys_of e a f c s sg _ _ HE HC HW HA (fun r H => proj1 H) X) as (g & G1 & G2 & G3). exists g. split; [|split; [exact G2|]].
  - intros j Hj. destruct (G1 j Hj) as (H1 & r & H2 & _ & H3). split; [exact H1|]. now exists r.
  - intros z (Hz & r & Hr & E). apply G3. split; [exact Hz|]. exists r. split; [exact Hr|]. split; [|exact E].
    destruct (hash_total e a f c s sg z HE HC HA Hz) as (r' & W & Hr'). now rewrite (hash_fun e a f c s sg z r r' Hr Hr').
Qed.
(* the seed 7: exactly one long long hashes to 0 with xxhash_64, exactly 2^24 ints fall into bucket 5 of 256 with murmur3_32 *)
Example C62_perfect_ex : exists! z, in_int I64 true z /\ hashes_to env_pc Axx64 le_flavor (CSeed 7) I64 true z 0.
Proof. apply C62_perfect; [exact env_pc_valid|reflexivity|reflexivity|exact I|reflexivity]. Qed.
Example C62_low_bits_ex : exactlyZ (2^24) (fun z => in_int I32 true z /\ exists r, hashes_to env_be Amur32 le_flavor (CSeed 7) I32 true z r /\ r mod 2^8 = 5).
Proof. apply (C62_low_bits env_be Amur32 le_flavor (CSeed 7) I32 true 8 5); [exact env_be_valid|reflexivity|reflexivity|exact I|cbn; lia|reflexivity]. Qed.
Example C62_integral_ex : exactlyZ (2^16) (fun z => in_int I32 false z /\ exists r, hashes_to env_pc Axx32 le_flavor CDefault I32 false z r /\ get_integral_result I16 true I32 r = Ok (-3)%Z).
Proof. apply (C62_integral env_pc Axx32 le_flavor CDefault I32 false I16 true (-3)); [exact env_pc_valid|exact I|reflexivity|exact I|cbn; lia|cbn; lia]. Qed.

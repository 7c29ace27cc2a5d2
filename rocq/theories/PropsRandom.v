(* C72: a random seed makes the hash of any one key uniformly distributed: for the fast hashes, every hash value of a given
   message comes from exactly one seed. *)
From Verif Require Import Base BaseFacts SpecCommon Gen Bits GenMD Hasher GenBlk Types ModelResult ModelAppend SpecAppend ProofMsg ProofMsgEq
  Behaves Instances ProofRuns Samples PropsHistory PropsAlg PropsAppend PropsSeeds PropsPrims PropsIntegral ProofRange.
From Verif Require Import ProofMurmur SpecMurmur ProofMurmurDistinct PropsEven PropsBalance PropsLocal.
From Verif Require PropsReveal.
Open Scope N_scope.

(* the messages, by their length: any for murmur3_32, less than one stripe for xxHash *)
Definition covers (a : alg) (n : nat) : Prop :=
  match a with Axx32 => (n < 16)%nat | Axx64 => (n < 32)%nat | Amur32 => True | _ => False end.
(* with the integer seed n, the program xs (some updates or values, and a result) returns r *)
Definition seed_gives (e : env) (a : alg) (f : flavor) (s : isz) (xs : list ustep) (n r : N) : Prop :=
  runs e a f (CSeed n) xs = Ok [RInt s r].

(* ---------- counting ---------- *)
Section Counting.
  Context (B : N) (R : N -> N -> Prop).
  Definition permutes : Prop :=
    (forall x, x < B -> exists r, r < B /\ R x r) /\ (forall x r r', R x r -> R x r' -> r = r') /\
    (forall x y r, x < B -> y < B -> R x r -> R y r -> x = y).
  Lemma permutes_onto : permutes -> forall r, r < B -> exists! x, x < B /\ R x r.
  Proof.
    intros (HT & HF & HI) r Hr.
    assert (C : forall m, exists h : N -> N, forall x, x < m -> x < B -> h x < B /\ R x (h x)).
    { intros m. induction m as [|m (h & Hh)] using N.peano_ind.
      - exists (fun _ => 0). intros x Hx. lia.
      - destruct (N.ltb_spec m B) as [Hm|Hm].
        + destruct (HT m Hm) as (v & Hv & Rv).
          exists (fun x => if x =? m then v else h x). intros x Hx Hx'. destruct (N.eqb_spec x m) as [->|HN]; [now split|]. apply Hh; lia.
        + exists h. intros x Hx Hx'. apply Hh; lia. }
    destruct (C B) as (h & Hh). destruct (onto_of_inj B h) with (r := r) as (x & Hx & E).
    - intros x Hx. now apply (Hh x Hx Hx).
    - intros x y Hx Hy E. apply (HI x y (h x)); try assumption; [now apply Hh|]. rewrite E. now apply Hh.
    - exact Hr.
    - assert (HH : R x r) by (rewrite <- E; now apply Hh). exists x. split; [now split|]. intros y (Hy & Ry). now apply (HI x y r).
  Qed.
  Lemma permutes_exactly n (P : N -> Prop) : permutes -> exactly n (fun r => r < B /\ P r) -> exactly n (fun x => x < B /\ exists r, R x r /\ P r).
  Proof.
    intros HP (g & G1 & G2 & G3). pose proof HP as (HT & HF & HI).
    assert (C : forall m, m <= n -> exists k : N -> N, forall j, j < m -> k j < B /\ R (k j) (g j)).
    { intros m. induction m as [|m IH] using N.peano_ind; intros Hm.
      - exists (fun _ => 0). intros j Hj. lia.
      - destruct IH as (k & Hk); [lia|]. destruct (permutes_onto HP (g m)) as (x & (Hx & Rx) & _); [apply G1; lia|].
        exists (fun j => if j =? m then x else k j). intros j Hj. destruct (N.eqb_spec j m) as [->|HN]; [now split|]. apply Hk. lia. }
    destruct (C n (N.le_refl n)) as (k & Hk). exists k. split; [|split].
    - intros j Hj. split; [now apply Hk|]. exists (g j). split; [now apply Hk|now apply G1].
    - intros i j Hi Hj E. apply G2; try assumption. apply (HF (k i)); [now apply Hk|]. rewrite E. now apply Hk.
    - intros x (Hx & r & Hr & Pr). destruct (HT x Hx) as (r' & Lr & Hr'). rewrite <- (HF x r r' Hr Hr') in Lr.
      destruct (G3 r (conj Lr Pr)) as (j & Hj & <-). exists j. split; [exact Hj|].
      apply (HI (k j) x (g j)); try assumption; now apply Hk.
  Qed.
End Counting.

(* ---------- one message: the seeds ---------- *)
Lemma pieces_total e a f c s cs : valid_env e -> valid_ctor c -> takes_in a s -> valid_pieces a cs ->
  exists r, is_word s r /\ runs e a f c (hash_pieces cs) = Ok [RInt s r].
Proof.
  intros HE HC HA HP. pose proof (pieces_valid e a c cs HC HP) as HV.
  pose proof (results_words e a f c _ HV) as HW. revert HW.
  assert (HS : a <> Aspooky) by (destruct a; try contradiction; discriminate).
  assert (HR : room e a c (hash_pieces cs)) by now apply room_any.
  assert (Q : forall x y : list result, Ok x = Ok y -> x = y) by (intros x y X; now injection X).
  rewrite (Q _ _ (eq_trans (eq_sym (runs_expected e a f c (hash_pieces cs) HE HV HR)) (first_result' e a f c cs HE HC HP HS))).
  rewrite first_result' by assumption.
  set (st := mc_au _ _ _). destruct (machine_int (e_cw e) a s st HA) as (r & ->). intros HW.
  exists r. split; [|reflexivity]. inversion HW as [|? ? X _]. exact X.
Qed.
Lemma seed_small s n : is_word s n -> n < 2 ^ 64.
Proof.
  unfold is_word. intros H. eapply N.lt_le_trans; [exact H|]. apply N.pow_le_mono_r; [discriminate|]. destruct s; cbn; lia.
Qed.
Lemma pieces_seeds e a f s cs x y r : valid_env e -> takes_in a s -> valid_pieces a cs -> covers a (length (fed cs)) -> is_word s x -> is_word s y ->
  seed_gives e a f s (hash_pieces cs) x r -> seed_gives e a f s (hash_pieces cs) y r -> x = y.
Proof.
  intros HE HA HP HL Hx Hy H1 H2. pose proof (seed_small s x Hx) as Vx. pose proof (seed_small s y Hy) as Vy.
  assert (E : runs e a f (CSeed x) (hash_pieces cs) = runs e a f (CSeed y) (hash_pieces cs)) by (unfold seed_gives in *; now rewrite H1, H2).
  clear H1 H2. destruct a; try contradiction; destruct s; try contradiction; cbn [covers] in HL.
  - now apply (proj1 (PropsReveal.C60_xxh32_seeds e f x y cs HE Vx Vy HP HL E)).
  - exact (PropsReveal.C60_xxh64 e f (CSeed x) (CSeed y) cs HE Vx Vy I I HP HL E).
  - apply (C16_murmur32_observable e f x y HE Hx Hy).
    apply (PropsReveal.C60_murmur32 e f (CSeed x) (CSeed y) cs HE Vx Vy I HP E).
    apply (pieces_valid e Amur32 (CSeed x) []); [exact Vx|constructor].
Qed.
Lemma seeds_permute e a f s cs : valid_env e -> takes_in a s -> valid_pieces a cs -> covers a (length (fed cs)) ->
  permutes (2 ^ (8 * N.of_nat (ibytes s))) (seed_gives e a f s (hash_pieces cs)).
Proof.
  intros HE HA HP HL. split; [|split].
  - intros x Hx. apply (pieces_total e a f (CSeed x) s cs HE); try assumption. now apply (seed_small s).
  - unfold seed_gives. intros x r r' -> E. now injection E.
  - intros x y r Hx Hy. now apply pieces_seeds.
Qed.

(* ---------- C72 ---------- *)
(* For every message, every value of the result type is its hash for exactly one seed of the width of the result. *)
Theorem C72_uniform e a f s cs r : valid_env e -> takes_in a s -> valid_pieces a cs -> covers a (length (fed cs)) -> is_word s r ->
  exists! n, is_word s n /\ runs e a f (CSeed n) (hash_pieces cs) = Ok [RInt s r].
Proof. intros HE HA HP HL HR. exact (permutes_onto _ _ (seeds_permute e a f s cs HE HA HP HL) r HR). Qed.
(* Reduced by get_integral_result<T> to a narrower T: each value of T for exactly 2^(difference of the widths) seeds. *)
Theorem C72_integral e a f s cs t sgt y : valid_env e -> takes_in a s -> valid_pieces a cs -> covers a (length (fed cs)) ->
  (ibytes t < ibytes s)%nat -> in_type t sgt y ->
  exactly (2 ^ (8 * N.of_nat (ibytes s - ibytes t)))
    (fun n => is_word s n /\ exists r, runs e a f (CSeed n) (hash_pieces cs) = Ok [RInt s r] /\ get_integral_result t sgt s r = Ok y).
Proof.
  intros HE HA HP HL HT HY. destruct (C33_balanced t sgt s y HT) as (_ & HB); [destruct a, s; try contradiction; discriminate|exact HY|].
  exact (permutes_exactly _ _ _ (fun r => get_integral_result t sgt s r = Ok y) (seeds_permute e a f s cs HE HA HP HL) HB).
Qed.
(* In a table of 2^k buckets: each bucket for exactly 2^(w-k) of the 2^w seeds. *)
Lemma low_bits_exactly w k b : k <= w -> b < 2 ^ k -> exactly (2 ^ (w - k)) (fun r => r < 2 ^ w /\ r mod 2 ^ k = b).
Proof.
  intros HK HB. assert (NZ : 2 ^ k <> 0) by now apply N.pow_nonzero.
  assert (SP : 2 ^ w = 2 ^ k * 2 ^ (w - k)) by (rewrite <- N.pow_add_r; f_equal; lia).
  rewrite SP. generalize (2 ^ (w - k)). revert HB NZ. generalize (2 ^ k). clear. intros K HB NZ n.
  exists (fun j => b + K * j). split; [|split].
  - intros j Hj. split; [nia|]. rewrite N.add_comm, N.mul_comm, N.add_comm, N.mod_add by exact NZ. now apply N.mod_small.
  - intros i j _ _ E. nia.
  - intros r (Hr & E). exists (r / K). split; [now apply N.div_lt_upper_bound|]. rewrite <- E, N.add_comm. symmetry. now apply N.div_mod.
Qed.
Theorem C72_low_bits e a f s cs k b : valid_env e -> takes_in a s -> valid_pieces a cs -> covers a (length (fed cs)) ->
  k <= 8 * N.of_nat (ibytes s) -> b < 2 ^ k ->
  exactly (2 ^ (8 * N.of_nat (ibytes s) - k))
    (fun n => is_word s n /\ exists r, runs e a f (CSeed n) (hash_pieces cs) = Ok [RInt s r] /\ r mod 2 ^ k = b).
Proof.
  intros HE HA HP HL HK HB.
  exact (permutes_exactly _ _ _ (fun r => r mod 2 ^ k = b) (seeds_permute e a f s cs HE HA HP HL) (low_bits_exactly _ k b HK HB)).
Qed.
(* The same for hash_append of any value v of a type without unordered containers. *)
Theorem C72_keys e a f s t v q r : valid_env e -> takes_in a s -> ordered t -> valid_program e a CDefault [SAppend t v; SResult] ->
  covers a (length (message (e_impl e) f t v q)) -> is_word s r ->
  exists! n, is_word s n /\ runs e a f (CSeed n) [SAppend t v; SResult] = Ok [RInt s r].
Proof.
  intros HE HA HO HV HL HR. set (m := message (e_impl e) f t v q) in *.
  assert (HB : bytes m) by (unfold m, message; apply msg_bytes).
  assert (HS : a <> Aspooky) by (destruct a; try contradiction; discriminate).
  assert (SAME : forall n, is_word s n -> runs e a f (CSeed n) [SAppend t v; SResult] = runs e a f (CSeed n) (hash_pieces [(Ptr m, length m)])).
  { intros n Hn. destruct (append_feeds_ordered e a f (CSeed n) [] t v [SResult] q HE HO) as (rs & E1 & E2).
    - apply (PropsReveal.valid_other e a CDefault); [now apply (seed_small s)|exact HV].
    - now apply room_any.
    - cbn [app] in E1, E2. rewrite E1. symmetry. exact E2. }
  destruct (C72_uniform e a f s [(Ptr m, length m)] r HE HA (one_piece_valid a m HB)) as (n & (Hn & En) & U); [now rewrite one_piece|exact HR|].
  exists n. split; [split; [exact Hn|now rewrite SAME]|]. intros n' (Hn' & En'). apply U. split; [exact Hn'|]. now rewrite <- SAME.
Qed.
(* murmur3_128: for every message, every 16-byte digest is its hash for exactly one seed of 16 bytes *)
Definition is_block (k : list N) : Prop := length k = 16%nat /\ bytes k.
Lemma mur128_key cw k : is_block k -> mur128_start cw (CBytes (Ptr k) 16) = ((LE (firstn 8 k), LE (skipn 8 k)), 0, []).
Proof. intros [HL _]. cbn [mur128_start]. cbv zeta. cbn [Nat.leb]. unfold data. now rewrite <- HL, firstn_all. Qed.
Lemma block_valid k : is_block k -> valid_ctor (CBytes (Ptr k) 16).
Proof. intros [HL HB]. cbn [valid_ctor valid_arg]. split; [now rewrite HL|exact HB]. Qed.
Lemma half_lt l : bytes l -> length l = 8%nat -> LE l < 2 ^ 64.
Proof. intros HB HL. change LE with le_val. pose proof (le_val_bound l HB) as H. rewrite HL in H. exact H. Qed.
Lemma block_halves k : is_block k -> l2 (LE (firstn 8 k), LE (skipn 8 k)).
Proof.
  intros [HL HB]. split; cbn [fst snd]; apply half_lt; try (now apply bytes_firstn); try (now apply bytes_skipn); rewrite ?firstn_length, ?skipn_length, HL; reflexivity.
Qed.
Lemma block_inj k1 k2 : is_block k1 -> is_block k2 -> (LE (firstn 8 k1), LE (skipn 8 k1)) = (LE (firstn 8 k2), LE (skipn 8 k2)) -> k1 = k2.
Proof.
  intros [L1 B1] [L2 B2] E. assert (E1 : LE (firstn 8 k1) = LE (firstn 8 k2)) by exact (f_equal fst E). assert (E2 : LE (skipn 8 k1) = LE (skipn 8 k2)) by exact (f_equal snd E).
  apply le_inj in E1; [|rewrite !firstn_length, L1, L2; reflexivity|now apply bytes_firstn|now apply bytes_firstn].
  apply le_inj in E2; [|rewrite !skipn_length, L1, L2; reflexivity|now apply bytes_skipn|now apply bytes_skipn].
  rewrite <- (firstn_skipn 8 k1), <- (firstn_skipn 8 k2). now rewrite E1, E2.
Qed.
Lemma mur128_result e f cs k : valid_env e -> valid_pieces Amur128 cs -> is_block k ->
  runs e Amur128 f (CBytes (Ptr k) 16) (hash_pieces cs) =
    Ok [RDigest (Mur128_final (fold_left Mur128_block (chunks 16 (fed cs)) (LE (firstn 8 k), LE (skipn 8 k))) (N.of_nat (length (fed cs)) mod e_cw e) (rest 16 (fed cs)))].
Proof.
  intros HE HP HK. rewrite first_result' by (try assumption; try discriminate; now apply block_valid).
  cbn [machine_of blk_machine mc_start mc_ar mc_au]. rewrite mur128_key by exact HK. unfold ab_au, mur128_ar. cbn [fst app]. reflexivity.
Qed.
Lemma mur128_block_digest h n t : is_block (Mur128_final h n t).
Proof.
  destruct h as [h1 h2]. unfold Mur128_final. cbv zeta. change toLE with le_bytes. split; [rewrite app_length, !le_bytes_length; reflexivity|].
  apply bytes_app. split; apply le_bytes_bytes.
Qed.
(* numbers and blocks of 16 bytes *)
Lemma block_number k : is_block k -> le_val k < 2 ^ 128 /\ le_bytes 16 (le_val k) = k.
Proof.
  intros [HL HB]. split; [pose proof (le_val_bound k HB) as H; rewrite HL in H; exact H|]. rewrite <- (le_bytes_val k HB) at 2. now rewrite HL.
Qed.
Lemma number_block x : is_block (le_bytes 16 x).
Proof. split; [apply le_bytes_length|apply le_bytes_bytes]. Qed.
Lemma number_inj x y : x < 2 ^ 128 -> y < 2 ^ 128 -> le_bytes 16 x = le_bytes 16 y -> x = y.
Proof. apply (le_bytes_inj 16). Qed.
Lemma Digest1 (x y : list N) : Ok [RDigest x] = Ok [RDigest y] -> x = y.
Proof. intros E. now injection E. Qed.
Theorem C72_murmur128 e f cs d : valid_env e -> valid_pieces Amur128 cs -> is_block d ->
  exists! k, is_block k /\ runs e Amur128 f (CBytes (Ptr k) 16) (hash_pieces cs) = Ok [RDigest d].
Proof.
  intros HE HP HD.
  set (h := fun k => Mur128_final (fold_left Mur128_block (chunks 16 (fed cs)) (LE (firstn 8 k), LE (skipn 8 k))) (N.of_nat (length (fed cs)) mod e_cw e) (rest 16 (fed cs))).
  assert (HR : forall k, is_block k -> runs e Amur128 f (CBytes (Ptr k) 16) (hash_pieces cs) = Ok [RDigest (h k)]) by (intros k; now apply mur128_result).
  assert (HB : forall k, is_block (h k)) by (intros k; apply mur128_block_digest).
  assert (HI : forall k1 k2, is_block k1 -> is_block k2 -> h k1 = h k2 -> k1 = k2).
  { intros k1 k2 K1 K2 E. apply block_inj; try assumption. unfold h in E.
    apply PropsReveal.mur128_states in E; [exact E|now apply block_halves|now apply block_halves| |now apply (pieces_bytes Amur128)].
    destruct HE as [[-> | ->] _]; (eapply N.lt_le_trans; [apply N.mod_lt; discriminate|]); now apply N.leb_le. }
  clearbody h.
  destruct (permutes_onto (2 ^ 128) (fun x r => h (le_bytes 16 x) = le_bytes 16 r /\ r < 2 ^ 128)) with (r := le_val d) as (x & (Hx & Rx & _) & _).
  - split; [|split].
    + intros x _. destruct (block_number _ (HB (le_bytes 16 x))) as [L E]. exists (le_val (h (le_bytes 16 x))). now rewrite E.
    + intros x r r' (E1 & L1) (E2 & L2). apply number_inj; try assumption. congruence.
    + intros x y r Hx Hy (E1 & _) (E2 & _). apply number_inj; try assumption. apply HI; try apply number_block. congruence.
  - now apply block_number.
  - rewrite (proj2 (block_number d HD)) in Rx. exists (le_bytes 16 x). split.
    + split; [apply number_block|]. rewrite HR by apply number_block. now rewrite Rx.
    + intros k (Hk & Ek). rewrite HR in Ek by exact Hk. apply Digest1 in Ek. apply HI; [apply number_block|exact Hk|congruence].
Qed.
(* The message "abc": exactly one seed of xxhash_64 gives the hash 0, exactly 2^24 seeds of murmur3_32 put it into bucket 5 of 256,
   exactly one 16-byte seed of murmur3_128 gives the all-zero digest; and the value -7 of type long long. *)
Example C72_uniform_ex : exists! n, is_word I64 n /\ runs env_pc Axx64 le_flavor (CSeed n) (hash_pieces abc) = Ok [RInt I64 0].
Proof. apply (C72_uniform env_pc Axx64 le_flavor I64 abc 0 env_pc_valid I (abc_valid _)); [cbn; lia|reflexivity]. Qed.
Example C72_integral_ex : exactly (2^16) (fun n => is_word I32 n /\ exists r,
  runs env_be Axx32 le_flavor (CSeed n) (hash_pieces abc) = Ok [RInt I32 r] /\ get_integral_result I16 true I32 r = Ok (-3)%Z).
Proof. apply (C72_integral env_be Axx32 le_flavor I32 abc I16 true (-3) env_be_valid I (abc_valid _)); cbn; lia. Qed.
Example C72_low_bits_ex : exactly (2^24) (fun n => is_word I32 n /\ exists r,
  runs env_be Amur32 le_flavor (CSeed n) (hash_pieces abc) = Ok [RInt I32 r] /\ r mod 2^8 = 5).
Proof. apply (C72_low_bits env_be Amur32 le_flavor I32 abc 8 5 env_be_valid I (abc_valid _)); [exact I|cbn; lia|reflexivity]. Qed.
Example C72_keys_ex : exists! n, is_word I64 n /\ runs env_be Axx64 le_flavor (CSeed n) [SAppend (TTuple [TInt I64 true; TVec (TInt I8 false)]) (VList [VInt (-7); VList [VInt 3; VInt 4]]); SResult] = Ok [RInt I64 1].
Proof.
  apply (C72_keys env_be Axx64 le_flavor I64 _ _ (fun _ => 0)); [exact env_be_valid|exact I|repeat split| | |reflexivity].
  - split; [exact I|]. constructor; [|constructor; [exact I|constructor]]. cbn. ok; try (intros _; left; reflexivity).
  - cbn. lia.
Qed.
Example C72_murmur128_ex : exists! k, is_block k /\ runs env_pc Amur128 le_flavor (CBytes (Ptr k) 16) (hash_pieces abc) = Ok [RDigest (repeat 0 16)].
Proof.
  apply (C72_murmur128 env_pc le_flavor abc (repeat 0 16) env_pc_valid (abc_valid _)). split; [reflexivity|]. repeat constructor.
Qed.

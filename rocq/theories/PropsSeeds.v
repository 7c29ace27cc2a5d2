(* Seeds: integer seeds, byte-sequence seeds, and which of them coincide (C15, C16, C17). *)
From Verif Require Import Base BaseFacts SpecCommon Gen Hasher GenBlk Types ModelResult ModelAppend SpecAppend
  Behaves Instances ProofRuns Samples PropsHistory PropsAlg.
From Verif Require Import SpecSip SpecXxh SpecFnv SpecMurmur SpecSpooky SpecHmac.
From Verif Require Import ModelSip ModelXxh ModelFnv ModelMurmur ModelSpooky ProofSpookyMix.
From Verif Require Import Bits ProofSip ProofXxh ProofFnv ProofMurmur ProofMurmurDistinct ProofSpooky ProofHmac ProofHmacInst.
Open Scope N_scope.

(* Two constructor calls that no program can tell apart *)
Definition same_hasher (e : env) (a : alg) (c1 c2 : ctor) : Prop :=
  forall f xs, valid_program e a c1 xs -> valid_program e a c2 xs -> room e a c1 xs -> room e a c2 xs ->
  exists rs, runs e a f c1 xs = Ok rs /\ runs e a f c2 xs = Ok rs.
Lemma same_start e a c1 c2 : valid_env e ->
  mc_start (machine_of (e_cw e) a) c1 = mc_start (machine_of (e_cw e) a) c2 -> same_hasher e a c1 c2.
Proof.
  intros HE H f xs V1 V2 R1 R2. exists (expected e a f c1 xs). split; [now apply runs_expected|].
  rewrite runs_expected by assumption. unfold expected. now rewrite H.
Qed.

(* two constructor calls on the sample program: the hypotheses of same_hasher are met *)
Lemma same_on_sample e a f c1 c2 : im_psz (e_impl e) = I64 -> valid_ctor c1 -> valid_ctor c2 ->
  room e a c1 sample -> room e a c2 sample -> same_hasher e a c1 c2 ->
  exists rs, runs e a f c1 sample = Ok rs /\ runs e a f c2 sample = Ok rs.
Proof. intros HP V1 V2 R1 R2 H. apply H; trivial; apply steps_valid; trivial; exact sample_ok. Qed.
Lemma toLE_ctor k n : valid_ctor (CBytes (Ptr (toLE k n)) k).
Proof. split; [rewrite toLE_length; lia|apply toLE_bytes]. Qed.

(* ---------- C15: an integer seed is a byte sequence ---------- *)
Definition le8 (n : N) : ptr := Ptr (toLE 8 n).
Lemma le8_data n : data (le8 n) 8 = toLE 8 n.
Proof. reflexivity. Qed.
Lemma LE_toLE k n : n < 256 ^ N.of_nat k -> LE (toLE k n) = n.
Proof. intros H. change LE with le_val. change toLE with le_bytes. rewrite le_val_bytes. now apply N.mod_small. Qed.
Lemma LE_toLE8 n : n < 2^64 -> LE (toLE 8 n) = n.
Proof. exact (LE_toLE 8 n). Qed.

(* md5, sha1, ripemd, sha2, hmac, fnv1a: non-zero seeds *)
Theorem C15_le_seed e a n : valid_env e -> 0 < n < 2^64 ->
  match a with Amd _ | Ahmac _ | Afnv32 | Afnv64 => True | _ => False end ->
  same_hasher e a (CSeed n) (CBytes (le8 n) 8).
Proof.
  intros HE Hn HA. apply same_start; [exact HE|].
  assert (H0 : (n =? 0) = false) by (apply N.eqb_neq; lia).
  destruct a; try contradiction; cbn [machine_of mc_start md_machine hmac_machine fnv_machine vstart hkey fnv_start];
    rewrite H0, le8_data; reflexivity.
Qed.
Example C15_le_seed_ex : exists rs, runs env_pc (Amd Asha256) le_flavor (CSeed 258) sample = Ok rs /\
  runs env_pc (Amd Asha256) le_flavor (CBytes (Ptr [2; 1; 0; 0; 0; 0; 0; 0]) 8) sample = Ok rs.
Proof.
  apply same_on_sample; try exact I; [reflexivity|reflexivity|exact (toLE_ctor 8 258)|].
  apply (C15_le_seed env_pc (Amd Asha256) 258); [exact env_pc_valid|split; reflexivity|exact I].
Qed.
(* murmur3_128 and spooky2_128: all seeds *)
Theorem C15_le_seed_murmur128 e n : valid_env e -> n < 2^64 -> same_hasher e Amur128 (CSeed n) (CBytes (le8 n) 8).
Proof.
  intros HE Hn. apply same_start; [exact HE|].
  cbn [machine_of mc_start blk_machine mur128_start Nat.leb]. rewrite le8_data, LE_toLE8 by exact Hn. reflexivity.
Qed.
Example C15_le_seed_murmur128_ex : exists rs, runs env_be Amur128 le_flavor (CSeed 258) sample = Ok rs /\
  runs env_be Amur128 le_flavor (CBytes (Ptr (toLE 8 258)) 8) sample = Ok rs.
Proof.
  apply same_on_sample; [reflexivity|reflexivity|apply toLE_ctor|exact I..|].
  apply (C15_le_seed_murmur128 env_be 258); [exact env_be_valid|reflexivity].
Qed.
Theorem C15_le_seed_spooky e n : valid_env e -> n < 2^64 -> same_hasher e Aspooky (CSeed n) (CBytes (le8 n) 8).
Proof.
  intros HE Hn. apply same_start; [exact HE|].
  cbn [machine_of mc_start blk_machine sp_start Nat.leb]. rewrite le8_data.
  change (firstn 8 (toLE 8 n)) with (toLE 8 n). change (skipn 8 (toLE 8 n)) with (@nil N).
  rewrite LE_toLE8 by exact Hn. reflexivity.
Qed.
Example C15_le_seed_spooky_ex : exists rs, runs env_be Aspooky le_flavor (CSeed 258) sample = Ok rs /\
  runs env_be Aspooky le_flavor (CBytes (Ptr (toLE 8 258)) 8) sample = Ok rs.
Proof.
  apply same_on_sample; [reflexivity|reflexivity|apply toLE_ctor|vm_compute; reflexivity..|].
  apply (C15_le_seed_spooky env_be 258); [exact env_be_valid|reflexivity].
Qed.
(* murmur3_32: seeds of 32 bits, as 4 bytes *)
Theorem C15_le_seed_murmur32 e n : valid_env e -> n < 2^32 -> same_hasher e Amur32 (CSeed n) (CBytes (Ptr (toLE 4 n)) 4).
Proof.
  intros HE Hn. apply same_start; [exact HE|].
  cbn [machine_of mc_start blk_machine mur32_start Nat.leb]. rewrite (N.div_small n) by exact Hn. cbn [N.eqb].
  change (data (Ptr (toLE 4 n)) 4) with (toLE 4 n). rewrite LE_toLE by exact Hn. reflexivity.
Qed.
Example C15_le_seed_murmur32_ex : exists rs, runs env_be Amur32 le_flavor (CSeed 258) sample = Ok rs /\
  runs env_be Amur32 le_flavor (CBytes (Ptr (toLE 4 258)) 4) sample = Ok rs.
Proof.
  apply same_on_sample; [reflexivity|reflexivity|apply toLE_ctor|exact I..|].
  apply (C15_le_seed_murmur32 env_be 258); [exact env_be_valid|reflexivity].
Qed.
(* siphash_64: the key is the seed and 8 zero bytes; siphash_32: the key is the seed *)
Theorem C15_siphash64 e n : valid_env e -> n < 2^64 ->
  same_hasher e Asip64 (CSeed n) (CBytes (Ptr (toLE 8 n ++ repeat 0 8)) 16).
Proof.
  intros HE Hn. apply same_start; [exact HE|].
  cbn [machine_of mc_start blk_machine sip64_start Nat.eqb].
  change (data (Ptr (toLE 8 n ++ repeat 0 8)) 16) with (toLE 8 n ++ repeat 0 8).
  change (firstn 8 (toLE 8 n ++ repeat 0 8)) with (toLE 8 n). rewrite LE_toLE8 by exact Hn. reflexivity.
Qed.
Lemma toLE_split k j n : toLE (k + j) n = toLE k n ++ toLE j (n / 256 ^ N.of_nat k).
Proof.
  revert n. induction k as [|k IH]; intros n; cbn [Nat.add toLE app].
  - now rewrite N.div_1_r.
  - rewrite IH. do 3 f_equal. rewrite N.div_div by (try apply N.pow_nonzero; discriminate).
    rewrite Nat2N.inj_succ, N.pow_succ_r'. reflexivity.
Qed.
Theorem C15_siphash32 e n : valid_env e -> n < 2^64 -> same_hasher e Asip32 (CSeed n) (CBytes (le8 n) 8).
Proof.
  intros HE Hn. apply same_start; [exact HE|].
  cbn [machine_of mc_start blk_machine sip32_start Nat.eqb]. rewrite le8_data, (toLE_split 4 4).
  change (firstn 4 (toLE 4 n ++ toLE 4 (n / 256 ^ N.of_nat 4))) with (toLE 4 n).
  change (skipn 4 (toLE 4 n ++ toLE 4 (n / 256 ^ N.of_nat 4))) with (toLE 4 (n / 2^32)).
  rewrite (LE_toLE 4 (n / 2^32)) by (apply N.div_lt_upper_bound; [discriminate|exact Hn]).
  change LE with le_val. change toLE with le_bytes. rewrite le_val_bytes. reflexivity.
Qed.
Example C15_siphash32_ex : exists rs, runs env_be Asip32 le_flavor (CSeed 258) sample = Ok rs /\
  runs env_be Asip32 le_flavor (CBytes (Ptr (toLE 8 258)) 8) sample = Ok rs.
Proof.
  apply same_on_sample; [reflexivity|reflexivity|apply toLE_ctor|exact I..|].
  apply (C15_siphash32 env_be 258); [exact env_be_valid|reflexivity].
Qed.

(* ---------- C16: distinct integer seeds ---------- *)
(* the object a constructor call makes *)
Definition makes (e : env) (a : alg) (c : ctor) (s : h_S (pk_h (pack e a))) : Prop := construct (pk_h (pack e a)) c = Ok s.
Definition seeds_distinct (e : env) (a : alg) : Prop :=
  forall n1 n2 s, n1 < 2^64 -> n2 < 2^64 -> makes e a (CSeed n1) s -> makes e a (CSeed n2) s -> n1 = n2.


Lemma lxor_inj_r a b c : N.lxor b a = N.lxor c a -> b = c.
Proof. rewrite (N.lxor_comm b), (N.lxor_comm c). apply lxor_inj_l. Qed.

Lemma sip64_seed_inj n1 n2 : sip64_seed n1 = sip64_seed n2 -> n1 = n2.
Proof.
  intros H. apply (f_equal (fun r => match r with Ok s => fst (fst (fst (b_st s))) | _ => 0 end)) in H.
  exact (lxor_inj_l 0x736f6d6570736575 n1 n2 H).
Qed.
Theorem C16_siphash64 e : seeds_distinct e Asip64.
Proof. intros n1 n2 s _ _ M1 M2. exact (sip64_seed_inj n1 n2 (eq_trans M1 (eq_sym M2))). Qed.

Lemma split32 n1 n2 : n1 mod 2^32 = n2 mod 2^32 -> n1 / 2^32 = n2 / 2^32 -> n1 = n2.
Proof. intros H1 H2. rewrite (N.div_mod n1 (2^32)), (N.div_mod n2 (2^32)) by discriminate. now rewrite H1, H2. Qed.
Lemma shr32 n : n < 2^64 -> shr n 32 mod 2^32 = n / 2^32.
Proof.
  intros H. unfold shr. rewrite N.shiftr_div_pow2. apply N.mod_small. apply N.div_lt_upper_bound; [discriminate|exact H].
Qed.
Lemma sip32_seed_inj n1 n2 : n1 < 2^64 -> n2 < 2^64 -> sip32_seed n1 = sip32_seed n2 -> n1 = n2.
Proof.
  intros L1 L2 H.
  assert (H1 := f_equal (fun r => match r with Ok s => fst (fst (fst (b_st s))) | _ => 0 end) H).
  assert (H2 := f_equal (fun r => match r with Ok s => snd (fst (fst (b_st s))) | _ => 0 end) H).
  unfold sip32_seed, sip32_key, sip32_init in H1, H2. cbn [b_st fst snd] in H1, H2.
  rewrite !N.lxor_0_l in H1, H2. rewrite !shr32 in H2 by assumption. now apply split32.
Qed.
Theorem C16_siphash32 e : seeds_distinct e Asip32.
Proof. intros n1 n2 s L1 L2 M1 M2. exact (sip32_seed_inj n1 n2 L1 L2 (eq_trans M1 (eq_sym M2))). Qed.

Lemma xx64_seed_inj n1 n2 : xx64_seed n1 = xx64_seed n2 -> n1 = n2.
Proof.
  intros H. apply (f_equal (fun r => match r with Ok s => snd (fst (b_st s)) | _ => 0 end)) in H. exact H.
Qed.
Theorem C16_xxhash64 e : seeds_distinct e Axx64.
Proof. intros n1 n2 s _ _ M1 M2. exact (xx64_seed_inj n1 n2 (eq_trans M1 (eq_sym M2))). Qed.
Theorem C16_murmur128 e : seeds_distinct e Amur128.
Proof.
  intros n1 n2 s _ _ M1 M2. assert (H := eq_trans M1 (eq_sym M2)).
  apply (f_equal (fun r => match r with Ok s => fst (b_st s) | _ => 0 end)) in H. exact H.
Qed.
Lemma sp_seed_inj j n1 n2 : Ok (sp_seed j n1) = Ok (sp_seed j n2) -> n1 = n2.
Proof.
  intros H. apply (f_equal (fun r => match r with Ok s => nth 0 (sp_list (b_st s)) 0 | _ => 0 end)) in H. exact H.
Qed.
Theorem C16_spooky e : seeds_distinct e Aspooky.
Proof. intros n1 n2 s _ _ M1 M2. exact (sp_seed_inj _ n1 n2 (eq_trans M1 (eq_sym M2))). Qed.

(* For xxhash_64, murmur3_128 and murmur3_32 (32-bit seeds) the seed shows in the first result
   already. *)
Lemma XXH64_avalanche_inj a b : a < 2^64 -> b < 2^64 -> XXH64_avalanche a = XXH64_avalanche b -> a = b.
Proof.
  intros Ha Hb E. unfold XXH64_avalanche in E. cbv zeta in E.
  apply xorshift_inj in E; [|reflexivity].
  apply (mul_inj 64 _ 0xe9e9f4c41d6df849) in E; [|reflexivity| |]; try (apply lxor_lt; [|apply shiftr_lt]; apply MUL_lt').
  apply xorshift_inj in E; [|reflexivity].
  apply (mul_inj 64 _ 0xba79078168d4baf) in E; [|reflexivity| |]; try (apply lxor_lt; [|apply shiftr_lt]; assumption).
  apply xorshift_inj in E; [exact E|reflexivity].
Qed.
Theorem C16_xxhash64_observable e f n1 n2 : valid_env e -> n1 < 2^64 -> n2 < 2^64 ->
  runs e Axx64 f (CSeed n1) [SResult] = runs e Axx64 f (CSeed n2) [SResult] -> n1 = n2.
Proof.
  intros HE L1 L2 H. assert (E := fun n L => C09_xxh64 e f n [] HE (Forall_nil _) L eq_refl).
  change (hash_pieces []) with [SResult] in E. change (fed []) with (@nil N) in E.
  rewrite !E in H by assumption. injection H as H.
  unfold XXH64 in H. cbn [length Nat.ltb Nat.leb] in H. apply XXH64_avalanche_inj in H; [|apply ADD_lt'..].
  change (ADD 64 (ADD 64 n1 PRIME64_5) (N.of_nat 0) = ADD 64 (ADD 64 n2 PRIME64_5) (N.of_nat 0)) in H.
  apply add_inj_r in H; [|apply ADD_lt'..]. now apply add_inj_r in H.
Qed.
Theorem C16_murmur32_observable e f n1 n2 : valid_env e -> n1 < 2^32 -> n2 < 2^32 ->
  runs e Amur32 f (CSeed n1) [SResult] = runs e Amur32 f (CSeed n2) [SResult] -> n1 = n2.
Proof.
  intros HE L1 L2 H. assert (HW : N.of_nat 0 < e_cw e) by (destruct HE as [[-> | ->] _]; reflexivity).
  assert (E := fun n L => C11_murmur32 e f n [] HE (Forall_nil _) L HW).
  change (hash_pieces []) with [SResult] in E. change (fed []) with (@nil N) in E.
  rewrite !E in H by assumption. injection H as H.
  unfold MurmurHash3_x86_32, Mur32_final in H. cbn [length chunks chunks_f fold_left] in H.
  change (Mur32_k (LE (rest 4 []))) with 0 in H. change (N.of_nat 0 mod 2^32) with 0 in H. rewrite !N.lxor_0_r in H.
  now apply fmix32_inj in H.
Qed.
Theorem C16_murmur128_observable e f n1 n2 : valid_env e -> n1 < 2^64 -> n2 < 2^64 ->
  runs e Amur128 f (CSeed n1) [SResult] = runs e Amur128 f (CSeed n2) [SResult] -> n1 = n2.
Proof.
  intros HE L1 L2 H. assert (HW : N.of_nat 0 < e_cw e) by (destruct HE as [[-> | ->] _]; reflexivity).
  assert (E := fun n L => C11_murmur128 e f n [] HE (Forall_nil _) L HW).
  change (hash_pieces []) with [SResult] in E. change (fed []) with (@nil N) in E.
  rewrite !E in H by assumption.
  apply (f_equal (fun r => match r with Ok [RDigest d] => d | _ => [] end)) in H. cbv beta iota in H.
  unfold MurmurHash3_x64_128, Mur128_final in H. cbn [length chunks chunks_f fold_left] in H.
  change (LE (skipn 8 (rest 16 []))) with 0 in H. change (LE (firstn 8 (rest 16 []))) with 0 in H.
  change (Mur128_k2 0) with 0 in H. change (Mur128_k1 0) with 0 in H. change (N.of_nat 0) with 0 in H.
  rewrite !N.lxor_0_r in H. cbv zeta in H.
  set (x1 := fmix64 (ADD 64 n1 n1)) in *. set (x2 := fmix64 (ADD 64 n2 n2)) in *.
  set (y1 := fmix64 (ADD 64 n1 (ADD 64 n1 n1))) in *. set (y2 := fmix64 (ADD 64 n2 (ADD 64 n2 n2))) in *.
  assert (Y1 : y1 < 2^64) by apply fmix64_lt, ADD_lt'. assert (Y2 : y2 < 2^64) by apply fmix64_lt, ADD_lt'.
  apply app_inj_len in H; [|now rewrite !toLE_length]. destruct H as [HA HB].
  apply (f_equal LE) in HA. apply (f_equal LE) in HB. rewrite !LE_toLE8 in HA, HB by apply ADD_lt'.
  rewrite HA in HB. apply add_inj_r in HB; [|assumption..].
  apply fmix64_inj in HB; [|apply ADD_lt'..].
  (* 3 n1 = 3 n2 modulo 2^64 *)
  assert (T : forall n, ADD 64 n (ADD 64 n n) = MUL 64 n 3).
  { intros n. unfold ADD, MUL. rewrite N.add_mod_idemp_r by discriminate. f_equal. lia. }
  rewrite !T in HB. now apply (mul_inj 64 3 0xAAAAAAAAAAAAAAAB) in HB.
Qed.

(* xxhash_32, fnv1a_32, fnv1a_64 and murmur3_32 identify distinct seeds *)
Theorem C16_xxhash32_refuted e : valid_env e ->
  same_hasher e Axx32 (CSeed (2^32 + 2246822519)) (CSeed (2 * 2^32)).
Proof.
  intros HE. apply same_start; [exact HE|]. cbn [machine_of mc_start blk_machine]. unfold xx32_start. f_equal.
Qed.
(* exactly: for upper halves s1, t1 both non-zero *)
Theorem C16_xxhash32_collisions e s0 s1 t0 t1 : valid_env e -> s0 < 2^32 -> t0 < 2^32 -> 0 < s1 < 2^32 -> 0 < t1 < 2^32 ->
  (s0 + s1 * PRIME32_2) mod 2^32 = (t0 + t1 * PRIME32_2) mod 2^32 ->
  same_hasher e Axx32 (CSeed (s1 * 2^32 + s0)) (CSeed (t1 * 2^32 + t0)).
Proof.
  intros HE S0 T0 S1 T1 H. apply same_start; [exact HE|].
  cbn [machine_of mc_start blk_machine xx32_start].
  assert (D : forall a b, b < 2^32 -> (a * 2^32 + b) / 2^32 = a /\ (a * 2^32 + b) mod 2^32 = b).
  { intros a b Hb. rewrite N.add_comm, N.div_add, N.div_small, N.mod_add, N.mod_small by (assumption || discriminate). split; [apply N.add_0_l|reflexivity]. }
  destruct (D s1 s0 S0) as [-> ->]. destruct (D t1 t0 T0) as [-> ->].
  replace (s1 =? 0) with false by (symmetry; apply N.eqb_neq; lia).
  replace (t1 =? 0) with false by (symmetry; apply N.eqb_neq; lia).
  unfold XXH32_init. cbv zeta.
  assert (R : forall k a b, (s0 + a) mod 2^32 = k -> (t0 + a) mod 2^32 = b ->
             XXH32_round k s1 = XXH32_round b t1).
  { intros k a b <- <-. unfold XXH32_round. f_equal. f_equal. unfold ADD, MUL.
    rewrite <- !N.add_mod by discriminate.
    replace (s0 + a + s1 * PRIME32_2) with (a + (s0 + s1 * PRIME32_2)) by lia.
    replace (t0 + a + t1 * PRIME32_2) with (a + (t0 + t1 * PRIME32_2)) by lia.
    rewrite <- (N.add_mod_idemp_r a), H, N.add_mod_idemp_r by discriminate. reflexivity. }
  f_equal. f_equal. f_equal; [f_equal; [f_equal|]|].
  - apply (R _ (PRIME32_1 + PRIME32_2)); f_equal; lia.
  - now apply (R _ PRIME32_2).
  - apply (R _ 0); f_equal; lia.
  - now apply (R _ (2^32 - PRIME32_1)).
Qed.
Example C16_xxhash32_collisions_ex : exists rs, runs env_pc Axx32 le_flavor (CSeed (3 * 2^32 + 2246822519)) sample = Ok rs /\
  runs env_pc Axx32 le_flavor (CSeed (4 * 2^32 + 0)) sample = Ok rs.
Proof.
  apply same_on_sample; try exact I; try reflexivity.
  apply C16_xxhash32_collisions; try reflexivity; [exact env_pc_valid|split; reflexivity..].
Qed.
(* Constructor calls that make equal objects *)
Lemma same_object e a c1 c2 : valid_env e -> construct (pk_h (pack e a)) c1 = construct (pk_h (pack e a)) c2 -> same_hasher e a c1 c2.
Proof.
  intros HE H f xs V1 V2 R1 R2. exists (expected e a f c1 xs). split; [now apply runs_expected|].
  rewrite <- (runs_expected e a f c1 xs HE V1 R1). unfold runs, program. now rewrite H.
Qed.
Theorem C16_fnv32_refuted e : valid_env e -> same_hasher e Afnv32 (CSeed 473173985494) (CSeed 491840477661).
Proof.
  intros HE. apply same_object; [exact HE|].
  assert (E : FNV1a FNV32 (fnv_start (CSeed 473173985494)) = FNV1a FNV32 (fnv_start (CSeed 491840477661))) by (vm_compute; reflexivity).
  refine (eq_trans (fnv_construct FNV32 (e_pf e) (CSeed 473173985494) eq_refl) _). rewrite E.
  exact (eq_sym (fnv_construct FNV32 (e_pf e) (CSeed 491840477661) eq_refl)).
Qed.
Theorem C16_fnv64_refuted e : valid_env e -> same_hasher e Afnv64 (CSeed 7785969496509767828) (CSeed 2033175513144770059).
Proof.
  intros HE. apply same_object; [exact HE|].
  assert (E : FNV1a FNV64 (fnv_start (CSeed 7785969496509767828)) = FNV1a FNV64 (fnv_start (CSeed 2033175513144770059))) by (vm_compute; reflexivity).
  refine (eq_trans (fnv_construct FNV64 (e_pf e) (CSeed 7785969496509767828) eq_refl) _). rewrite E.
  exact (eq_sym (fnv_construct FNV64 (e_pf e) (CSeed 2033175513144770059) eq_refl)).
Qed.
Theorem C16_murmur32_refuted e : valid_env e -> same_hasher e Amur32 (CSeed 4294967296) (CSeed 9270341351).
Proof.
  intros HE. apply same_start; [exact HE|]. cbn [machine_of mc_start blk_machine]. unfold mur32_start. f_equal.
Qed.

(* ---------- C17: byte-sequence seeds that coincide ---------- *)
(* siphash: the all-zero key of full size is the default hasher *)
Theorem C17_siphash64_zero_key e : valid_env e -> same_hasher e Asip64 (CBytes (Ptr (repeat 0 16)) 16) CDefault.
Proof.
  intros HE. apply same_start; [exact HE|]. cbn [machine_of mc_start blk_machine]. unfold sip64_start. cbn [Nat.eqb].
  f_equal.
Qed.
Theorem C17_siphash32_zero_key e : valid_env e -> same_hasher e Asip32 (CBytes (Ptr (repeat 0 8)) 8) CDefault.
Proof.
  intros HE. apply same_start; [exact HE|]. cbn [machine_of mc_start blk_machine]. unfold sip32_start. cbn [Nat.eqb].
  f_equal.
Qed.
(* hmac: keys of at most a block that differ by trailing zeros, and a long key and its digest *)
Theorem C17_hmac_padding e m k z : valid_env e -> bytes k -> (length k + z <= block_size m)%nat ->
  same_hasher e (Ahmac m) (CBytes (Ptr k) (length k)) (CBytes (Ptr (k ++ repeat 0 z)) (length k + z)).
Proof.
  intros HE HB HL. apply same_start; [exact HE|]. cbn [machine_of mc_start hmac_machine hkey data].
  rewrite (firstn_all2 k) by lia. rewrite firstn_all2 by (rewrite app_length, repeat_length; lia).
  assert (EK : HMAC_key (block_of m) (hash_of m) k = HMAC_key (block_of m) (hash_of m) (k ++ repeat 0 z)).
  { unfold HMAC_key. change (block_of m) with (block_size m). rewrite app_length, repeat_length.
    replace (length k <=? block_size m)%nat with true by (symmetry; apply Nat.leb_le; lia).
    replace (length k + z <=? block_size m)%nat with true by (symmetry; apply Nat.leb_le; lia).
    rewrite app_length, repeat_length, <- app_assoc, <- repeat_app. do 2 f_equal. lia. }
  unfold HMAC_ikey, HMAC_okey. now rewrite EK.
Qed.
Example C17_hmac_padding_ex : exists rs, runs env_pc (Ahmac Amd5) le_flavor (CBytes (Ptr [1; 2]) 2) sample = Ok rs /\
  runs env_pc (Ahmac Amd5) le_flavor (CBytes (Ptr [1; 2; 0; 0; 0]) 5) sample = Ok rs.
Proof.
  apply same_on_sample; try exact I; [reflexivity|split; [cbn; lia|repeat constructor]|split; [cbn; lia|repeat constructor]|].
  apply (C17_hmac_padding env_pc Amd5 [1; 2] 3); [exact env_pc_valid|repeat constructor|cbn; lia].
Qed.
Theorem C17_hmac_long_key e m k : valid_env e -> bytes k -> (block_size m < length k)%nat -> (block_size m = 128%nat -> short k) ->
  same_hasher e (Ahmac m) (CBytes (Ptr k) (length k)) (CBytes (Ptr (std_hash m k)) (length (std_hash m k))).
Proof.
  intros HE HB HL HS. apply same_start; [exact HE|]. cbn [machine_of mc_start hmac_machine hkey data].
  rewrite !firstn_all.
  assert (EK : HMAC_key (block_of m) (hash_of m) k = HMAC_key (block_of m) (hash_of m) (std_hash m k)).
  { unfold HMAC_key. change (block_of m) with (block_size m). rewrite std_hash_length.
    replace (length k <=? block_size m)%nat with false by (symmetry; apply Nat.leb_gt; lia).
    replace (size_of_md m <=? block_size m)%nat with true by (destruct m; reflexivity).
    now rewrite hash_of_std, std_hash_length. }
  unfold HMAC_ikey, HMAC_okey. now rewrite EK.
Qed.
Example C17_hmac_long_key_ex : same_hasher env_pc (Ahmac Asha512) (CBytes (Ptr (repeat 7 200)) 200)
  (CBytes (Ptr (std_hash Asha512 (repeat 7 200))) (length (std_hash Asha512 (repeat 7 200)))).
Proof.
  apply (C17_hmac_long_key env_pc Asha512 (repeat 7 200)); [exact env_pc_valid| |cbn; lia|intros _; reflexivity].
  apply Forall_forall. intros x Hx. apply repeat_spec in Hx. subst. reflexivity.
Qed.
(* murmur3_32: a seed of more than 4 bytes counts up to its last complete group of 4; murmur3_128: a
   seed of more than 16 bytes counts up to its last complete group of 16 *)
Lemma chunks_same B (l1 l2 : list N) : (0 < B)%nat -> (length l1 / B = length l2 / B)%nat ->
  firstn (B * (length l1 / B)) l1 = firstn (B * (length l2 / B)) l2 -> chunks B l1 = chunks B l2.
Proof. intros HB HL H. rewrite (chunks_full B HB l1), (chunks_full B HB l2). unfold full. now rewrite H. Qed.
Lemma div_sub B n : (0 < B)%nat -> (B <= n)%nat -> ((n - B) / B = n / B - 1)%nat.
Proof.
  intros HB HL. set (k := (n - B)%nat). replace n with (k + 1 * B)%nat by (unfold k; lia). rewrite Nat.div_add by lia.
  now rewrite Nat.add_sub.
Qed.
Lemma skipn_groups B (l : list N) : (0 < B)%nat -> (B <= length l)%nat ->
  firstn (B * (length (skipn B l) / B)) (skipn B l) = skipn B (firstn (B * (length l / B)) l).
Proof.
  intros HB HL. rewrite skipn_length, div_sub by assumption. rewrite skipn_firstn_comm. f_equal.
  rewrite Nat.mul_sub_distr_l. lia.
Qed.
Lemma padded_same B n1 n2 : (0 < B)%nat -> (n1 / B = n2 / B)%nat -> (n1 + (B - n1 mod B) = n2 + (B - n2 mod B))%nat.
Proof.
  intros HB H. pose proof (Nat.div_mod n1 B ltac:(lia)). pose proof (Nat.div_mod n2 B ltac:(lia)).
  pose proof (Nat.mod_upper_bound n1 B ltac:(lia)). pose proof (Nat.mod_upper_bound n2 B ltac:(lia)). rewrite H in *. lia.
Qed.
Lemma firstn_groups k B (l1 l2 : list N) : (0 < B)%nat -> (k <= B)%nat -> (B <= length l1)%nat -> (B <= length l2)%nat ->
  firstn (B * (length l1 / B)) l1 = firstn (B * (length l2 / B)) l2 -> firstn k l1 = firstn k l2.
Proof.
  intros HB HK L1 L2 H. apply (f_equal (firstn k)) in H. rewrite !firstn_firstn in H.
  assert (forall n, (B <= n)%nat -> (B <= B * (n / B))%nat).
  { intros n Hn. pose proof (Nat.div_le_mono B n B ltac:(lia) Hn) as D. rewrite Nat.div_same in D by lia. nia. }
  pose proof (H0 _ L1). pose proof (H0 _ L2). now rewrite !Nat.min_l in H by lia.
Qed.
Theorem C17_murmur32_tail e k1 k2 : valid_env e -> (4 < length k1)%nat -> (4 < length k2)%nat ->
  (length k1 / 4 = length k2 / 4)%nat ->
  firstn (4 * (length k1 / 4)) k1 = firstn (4 * (length k2 / 4)) k2 ->
  same_hasher e Amur32 (CBytes (Ptr k1) (length k1)) (CBytes (Ptr k2) (length k2)).
Proof.
  intros HE L1 L2 HL HF. apply same_start; [exact HE|]. cbn [machine_of mc_start blk_machine].
  unfold mur32_start. cbn [data]. rewrite !firstn_all. cbv zeta.
  rewrite !(proj2 (Nat.leb_gt _ _)) by lia. unfold mur32_ar. cbv beta iota zeta. cbn [snd].
  rewrite (firstn_groups 4 4 k1 k2) by (assumption || lia).
  rewrite (chunks_same 4 (skipn 4 k1) (skipn 4 k2)).
  - rewrite (padded_same 4 (length (skipn 4 k1)) (length (skipn 4 k2))); [reflexivity|lia|].
    rewrite !skipn_length, !div_sub by lia. lia.
  - lia.
  - rewrite !skipn_length, !div_sub by lia. lia.
  - rewrite !skipn_groups by lia. now rewrite HF.
Qed.
Example C17_murmur32_tail_ex : exists rs, runs env_pc Amur32 le_flavor (CBytes (Ptr [1; 2; 3; 4; 5]) 5) sample = Ok rs /\
  runs env_pc Amur32 le_flavor (CBytes (Ptr [1; 2; 3; 4; 6; 7]) 6) sample = Ok rs.
Proof.
  apply same_on_sample; try exact I; [reflexivity|split; [cbn; lia|repeat constructor]|split; [cbn; lia|repeat constructor]|].
  apply (C17_murmur32_tail env_pc [1; 2; 3; 4; 5] [1; 2; 3; 4; 6; 7]); [exact env_pc_valid|cbn; lia|cbn; lia|reflexivity|reflexivity].
Qed.
Theorem C17_murmur128_tail e k1 k2 : valid_env e -> (16 < length k1)%nat -> (16 < length k2)%nat ->
  (length k1 / 16 = length k2 / 16)%nat ->
  firstn (16 * (length k1 / 16)) k1 = firstn (16 * (length k2 / 16)) k2 ->
  same_hasher e Amur128 (CBytes (Ptr k1) (length k1)) (CBytes (Ptr k2) (length k2)).
Proof.
  intros HE L1 L2 HL HF. apply same_start; [exact HE|]. cbn [machine_of mc_start blk_machine].
  unfold mur128_start. cbn [data]. rewrite !firstn_all. cbv zeta.
  rewrite !(proj2 (Nat.leb_gt _ _)) by lia. rewrite !firstn_skipn_comm. cbn [Nat.add].
  unfold mur128_ar. cbv beta iota zeta. cbn [snd].
  rewrite (firstn_groups 8 16 k1 k2), (firstn_groups 16 16 k1 k2) by (assumption || lia).
  rewrite (chunks_same 16 (skipn 16 k1) (skipn 16 k2)).
  - rewrite (padded_same 16 (length (skipn 16 k1)) (length (skipn 16 k2))); [reflexivity|lia|].
    rewrite !skipn_length, !div_sub by lia. lia.
  - lia.
  - rewrite !skipn_length, !div_sub by lia. lia.
  - rewrite !skipn_groups by lia. now rewrite HF.
Qed.
Example C17_murmur128_tail_ex : same_hasher env_pc Amur128 (CBytes (Ptr (toLE 17 5)) 17) (CBytes (Ptr (toLE 18 5)) 18).
Proof. apply (C17_murmur128_tail env_pc (toLE 17 5) (toLE 18 5)); [exact env_pc_valid|cbn; lia|cbn; lia|reflexivity|reflexivity]. Qed.
(* short seeds are padded with zeros: murmur3_32 up to 4 bytes, murmur3_128 up to 8 bytes, spooky2_128 up
   to 16 bytes *)
Lemma LE_app_zeros l z : LE (l ++ repeat 0 z) = LE l.
Proof.
  induction l as [|b l IH]; cbn [app LE].
  - induction z as [|z IHz]; [reflexivity|]. cbn [repeat LE]. now rewrite IHz.
  - now rewrite IH.
Qed.
Theorem C17_murmur32_padding e k z : valid_env e -> (length k + z <= 4)%nat ->
  same_hasher e Amur32 (CBytes (Ptr k) (length k)) (CBytes (Ptr (k ++ repeat 0 z)) (length k + z)).
Proof.
  intros HE HL. apply same_start; [exact HE|]. cbn [machine_of mc_start blk_machine]. unfold mur32_start. cbn [data]. cbv zeta.
  rewrite !(proj2 (Nat.leb_le _ _)) by lia.
  rewrite firstn_all, firstn_all2 by (rewrite app_length, repeat_length; lia). now rewrite LE_app_zeros.
Qed.
Theorem C17_murmur128_padding e k z : valid_env e -> (length k + z <= 8)%nat ->
  same_hasher e Amur128 (CBytes (Ptr k) (length k)) (CBytes (Ptr (k ++ repeat 0 z)) (length k + z)).
Proof.
  intros HE HL. apply same_start; [exact HE|]. cbn [machine_of mc_start blk_machine]. unfold mur128_start. cbn [data]. cbv zeta.
  rewrite !(proj2 (Nat.leb_le _ _)) by lia.
  rewrite firstn_all, firstn_all2 by (rewrite app_length, repeat_length; lia). now rewrite LE_app_zeros.
Qed.
Theorem C17_spooky_padding e k z : valid_env e -> (length k + z <= 16)%nat ->
  same_hasher e Aspooky (CBytes (Ptr k) (length k)) (CBytes (Ptr (k ++ repeat 0 z)) (length k + z)).
Proof.
  intros HE HL. apply same_start; [exact HE|]. cbn [machine_of mc_start blk_machine]. unfold sp_start. cbn [data]. cbv zeta.
  rewrite !(proj2 (Nat.leb_le _ _)) by lia.
  rewrite firstn_all, (firstn_all2 (n := length k + z)) by (rewrite app_length, repeat_length; lia).
  assert (R : forall j l, firstn j (repeat 0 l) = repeat 0 (Nat.min j l)).
  { induction j as [|j IH]; intros [|l]; [reflexivity..|]. cbn [repeat firstn Nat.min]. now rewrite IH. }
  assert (S : forall j l, skipn j (repeat 0 l) = repeat 0 (l - j)).
  { induction j as [|j IH]; intros [|l]; [reflexivity..|]. cbn [repeat skipn Nat.sub]. apply IH. }
  rewrite firstn_app, skipn_app, R, S, !LE_app_zeros. reflexivity.
Qed.

(* siphash: distinct full-size keys make distinct objects *)
Lemma LE_inj l1 l2 : bytes l1 -> bytes l2 -> length l1 = length l2 -> LE l1 = LE l2 -> l1 = l2.
Proof.
  revert l2. induction l1 as [|a l1 IH]; intros [|b l2] B1 B2 HL H; try discriminate; [reflexivity|].
  inversion B1; inversion B2; subst. cbn [LE] in H.
  assert (a = b /\ LE l1 = LE l2) as [-> E] by lia. f_equal. apply IH; auto.
Qed.
Lemma firstn_skipn_inj k (l1 l2 : list N) : firstn k l1 = firstn k l2 -> skipn k l1 = skipn k l2 -> l1 = l2.
Proof. intros H1 H2. rewrite <- (firstn_skipn k l1), <- (firstn_skipn k l2). now rewrite H1, H2. Qed.

(* the object made from a full-size key determines the key *)
Theorem C17_siphash64_keys e k1 k2 s : length k1 = 16%nat -> length k2 = 16%nat -> bytes k1 -> bytes k2 ->
  makes e Asip64 (CBytes (Ptr k1) 16) s -> makes e Asip64 (CBytes (Ptr k2) 16) s -> k1 = k2.
Proof.
  intros L1 L2 B1 B2 M1 M2. assert (H := eq_trans M1 (eq_sym M2)). clear M1 M2 s.
  change (sip64_bytes (e_pf e) (Ptr k1) 16 = sip64_bytes (e_pf e) (Ptr k2) 16) in H.
  assert (K : forall k, length k = 16%nat -> bytes k -> sip64_bytes (e_pf e) (Ptr k) 16
              = Ok (sip64_key sip64_init (LE (firstn 8 k)) (LE (skipn 8 k)))).
  { intros k L BK. unfold sip64_bytes. cbn [Nat.eqb padd length]. rewrite L. cbn [Nat.leb bind].
    rewrite (read64le_ok _ (skipn 0 k)) by (trivial; cbn [skipn]; lia). cbn [bind].
    rewrite (read64le_ok _ (skipn 8 k)) by (try (rewrite skipn_length; lia); now apply bytes_skipn). cbn [bind].
    change (skipn 0 k) with k.
    change le_val with LE. do 3 f_equal. rewrite firstn_all2; [reflexivity|rewrite skipn_length; lia]. }
  rewrite !K in H by assumption. clear K.
  assert (H1 := f_equal (fun r => match r with Ok s => fst (fst (fst (b_st s))) | _ => 0 end) H).
  assert (H2 := f_equal (fun r => match r with Ok s => snd (fst (fst (b_st s))) | _ => 0 end) H).
  unfold sip64_key, sip64_init in H1, H2. cbn [b_st fst snd] in H1, H2. clear H.
  apply lxor_inj_l in H1. apply lxor_inj_l in H2.
  apply (firstn_skipn_inj 8); apply LE_inj; auto using bytes_firstn, bytes_skipn;
    rewrite ?firstn_length, ?skipn_length; lia.
Qed.
Theorem C17_siphash32_keys e k1 k2 s : length k1 = 8%nat -> length k2 = 8%nat -> bytes k1 -> bytes k2 ->
  makes e Asip32 (CBytes (Ptr k1) 8) s -> makes e Asip32 (CBytes (Ptr k2) 8) s -> k1 = k2.
Proof.
  intros L1 L2 B1 B2 M1 M2. assert (H := eq_trans M1 (eq_sym M2)). clear M1 M2 s.
  change (sip32_bytes (e_pf e) (Ptr k1) 8 = sip32_bytes (e_pf e) (Ptr k2) 8) in H.
  assert (K : forall k, length k = 8%nat -> bytes k -> sip32_bytes (e_pf e) (Ptr k) 8
              = Ok (sip32_key sip32_init (LE (firstn 4 k)) (LE (skipn 4 k)))).
  { intros k L BK. unfold sip32_bytes. cbn [Nat.eqb padd length]. rewrite L. cbn [Nat.leb bind].
    rewrite (read32le_ok _ (skipn 0 k)) by (trivial; cbn [skipn]; lia). cbn [bind].
    rewrite (read32le_ok _ (skipn 4 k)) by (try (rewrite skipn_length; lia); now apply bytes_skipn). cbn [bind].
    change (skipn 0 k) with k.
    change le_val with LE. do 3 f_equal. rewrite firstn_all2; [reflexivity|rewrite skipn_length; lia]. }
  rewrite !K in H by assumption. clear K.
  assert (H1 := f_equal (fun r => match r with Ok s => fst (fst (fst (b_st s))) | _ => 0 end) H).
  assert (H2 := f_equal (fun r => match r with Ok s => snd (fst (fst (b_st s))) | _ => 0 end) H).
  unfold sip32_key, sip32_init in H1, H2. cbn [b_st fst snd] in H1, H2. clear H.
  rewrite !N.lxor_0_l in H1, H2.
  apply (firstn_skipn_inj 4); apply LE_inj; auto using bytes_firstn, bytes_skipn;
    rewrite ?firstn_length, ?skipn_length; lia.
Qed.

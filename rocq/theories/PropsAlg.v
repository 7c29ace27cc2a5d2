(* The algorithms compute the published functions: the first result of a hasher fed a message
   by any sequence of update() calls, in every environment. *)
From Verif Require Import Base BaseFacts SpecCommon Hasher GenBlk Types ModelResult ModelAppend SpecAppend
  Behaves Instances ProofRuns Samples PropsHistory.
From Verif Require Import SpecMd5 SpecSha1 SpecRipemd SpecSha2 SpecSip SpecXxh SpecFnv SpecMurmur SpecSpooky SpecHmac.
From Verif Require Import ProofSha2 ProofSip ProofXxh ProofFnv ProofMurmur ProofSpooky ProofHmac ProofHmacInst.
Open Scope N_scope.

(* The user feeds the pieces [cs] (pointer, count) and asks for the result *)
Definition hash_pieces (cs : list (ptr * nat)) : list ustep := updates cs ++ [SResult].
(* the count is the number of readable bytes; null pointers only where the algorithm admits them *)
Definition valid_pieces (a : alg) (cs : list (ptr * nat)) : Prop :=
  Forall (fun x => valid_arg (nul_of a) (fst x) (snd x)) cs.

Lemma pieces_valid e a c cs : valid_ctor c -> valid_pieces a cs -> valid_program e a c (hash_pieces cs).
Proof.
  intros HC HV. split; [exact HC|]. unfold hash_pieces. apply Forall_app. split; [|constructor; [exact I|constructor]].
  induction HV as [|[p n] cs H HV IH]; constructor; [exact H|exact IH].
Qed.
Lemma pieces_weight (i : impl) a cs : valid_pieces a cs -> weight (hash_pieces cs) = (length (fed cs) + 192)%nat.
Proof.
  intros HV. unfold hash_pieces. rewrite weight_app. f_equal. apply (weight_updates (nul_of a) i).
  induction HV as [|[p n] cs H HV IH]; constructor; [exact H|exact IH].
Qed.
Lemma pieces_bytes a cs : valid_pieces a cs -> bytes (fed cs).
Proof.
  induction 1 as [|[p n] cs H HV IH]; unfold fed; cbn [map concat fst snd]; [constructor|]. apply bytes_app.
  split; [|exact IH]. cbn [fst snd] in H. now apply (valid_data _ _ _ H).
Qed.

Lemma first_result e a f c cs : valid_env e -> valid_ctor c -> valid_pieces a cs ->
  roomy e a c (length (fed cs) + 192) ->
  runs e a f c (hash_pieces cs) =
  Ok [fst (mc_ar (machine_of (e_cw e) a) (mc_au (machine_of (e_cw e) a) (mc_start (machine_of (e_cw e) a) c) (fed cs)))].
Proof.
  intros HE HC HV HR. rewrite runs_expected; [|exact HE|now apply pieces_valid|].
  - unfold expected, hash_pieces. rewrite aprun_app, aprun_updates, asteps_updates. reflexivity.
  - unfold room. now rewrite (pieces_weight (e_impl e) a).
Qed.
Lemma first_result' e a f c cs : valid_env e -> valid_ctor c -> valid_pieces a cs -> a <> Aspooky ->
  runs e a f c (hash_pieces cs) =
  Ok [fst (mc_ar (machine_of (e_cw e) a) (mc_au (machine_of (e_cw e) a) (mc_start (machine_of (e_cw e) a) c) (fed cs)))].
Proof. intros HE HC HV HA. apply first_result; try assumption. destruct a; try exact I. easy. Qed.

(* Test vectors: the theorems applied to the message "abc", fed as "a" and "bc" *)
Definition abc : list (ptr * nat) := [(Ptr [97], 1%nat); (Ptr [98; 99; 100], 2%nat)].
Lemma abc_valid a : valid_pieces a abc.
Proof. repeat constructor; cbn; lia. Qed.
Lemma abc_cw : N.of_nat (length (fed abc)) < e_cw env_be.
Proof. reflexivity. Qed.

(* ---------- C02, C03, C06, C07 ---------- *)
Theorem C02_md5 e f cs : valid_env e -> valid_pieces (Amd Amd5) cs ->
  runs e (Amd Amd5) f CDefault (hash_pieces cs) = Ok [RDigest (MD5 (fed cs))].
Proof. intros HE HV. rewrite first_result' by (exact I || easy). reflexivity. Qed.
Example C02_md5_ex : runs env_pc (Amd Amd5) le_flavor CDefault (hash_pieces abc) =
  Ok [RDigest (toBE 16 0x900150983cd24fb0d6963f7d28e17f72)].
Proof. rewrite (C02_md5 _ _ abc env_pc_valid (abc_valid _)). vm_compute. reflexivity. Qed.
Theorem C03_sha1 e f cs : valid_env e -> valid_pieces (Amd Asha1) cs ->
  runs e (Amd Asha1) f CDefault (hash_pieces cs) = Ok [RDigest (SHA1 (fed cs))].
Proof. intros HE HV. rewrite first_result' by (exact I || easy). reflexivity. Qed.
Example C03_sha1_ex : runs env_pc (Amd Asha1) le_flavor CDefault (hash_pieces abc) =
  Ok [RDigest (toBE 20 0xa9993e364706816aba3e25717850c26c9cd0d89d)].
Proof. rewrite (C03_sha1 _ _ abc env_pc_valid (abc_valid _)). vm_compute. reflexivity. Qed.
Theorem C06_ripemd160 e f cs : valid_env e -> valid_pieces (Amd Armd160) cs ->
  runs e (Amd Armd160) f CDefault (hash_pieces cs) = Ok [RDigest (RIPEMD160 (fed cs))].
Proof. intros HE HV. rewrite first_result' by (exact I || easy). reflexivity. Qed.
Example C06_ripemd160_ex : runs env_pc (Amd Armd160) le_flavor CDefault (hash_pieces abc) =
  Ok [RDigest (toBE 20 0x8eb208f7e05d987a9b044a8e98c6b087f15a0bfc)].
Proof. rewrite (C06_ripemd160 _ _ abc env_pc_valid (abc_valid _)). vm_compute. reflexivity. Qed.
Theorem C07_ripemd128 e f cs : valid_env e -> valid_pieces (Amd Armd128) cs ->
  runs e (Amd Armd128) f CDefault (hash_pieces cs) = Ok [RDigest (RIPEMD128 (fed cs))].
Proof. intros HE HV. rewrite first_result' by (exact I || easy). reflexivity. Qed.
Example C07_ripemd128_ex : runs env_pc (Amd Armd128) le_flavor CDefault (hash_pieces abc) =
  Ok [RDigest (toBE 16 0xc14a12199c66e4ba84636b0f69144c77)].
Proof. rewrite (C07_ripemd128 _ _ abc env_pc_valid (abc_valid _)). vm_compute. reflexivity. Qed.

(* ---------- C04 ---------- *)
Theorem C04_sha256 e f cs : valid_env e -> valid_pieces (Amd Asha256) cs ->
  runs e (Amd Asha256) f CDefault (hash_pieces cs) = Ok [RDigest (SHA256 (fed cs))].
Proof. intros HE HV. rewrite first_result' by (exact I || easy). rewrite <- SHA256_64_ok. reflexivity. Qed.
Example C04_sha256_ex : runs env_pc (Amd Asha256) le_flavor CDefault (hash_pieces abc) =
  Ok [RDigest (toBE 32 0xba7816bf8f01cfea414140de5dae2223b00361a396177a9cb410ff61f20015ad)].
Proof. rewrite (C04_sha256 _ _ abc env_pc_valid (abc_valid _)). vm_compute. reflexivity. Qed.
Theorem C04_sha224 e f cs : valid_env e -> valid_pieces (Amd Asha224) cs ->
  runs e (Amd Asha224) f CDefault (hash_pieces cs) = Ok [RDigest (SHA224 (fed cs))].
Proof. intros HE HV. rewrite first_result' by (exact I || easy). rewrite <- SHA224_64_ok. reflexivity. Qed.
Example C04_sha224_ex : runs env_pc (Amd Asha224) le_flavor CDefault (hash_pieces abc) =
  Ok [RDigest (SHA224 [97; 98; 99])].
Proof. rewrite (C04_sha224 _ _ abc env_pc_valid (abc_valid _)). reflexivity. Qed.

(* ---------- C05: below 2^64 bits (the length field of the code is 64 bits wide) ---------- *)
Definition short (l : list N) : Prop := 8 * N.of_nat (length l) < 2^64.
Theorem C05_sha512 e f cs : valid_env e -> valid_pieces (Amd Asha512) cs -> short (fed cs) ->
  runs e (Amd Asha512) f CDefault (hash_pieces cs) = Ok [RDigest (SHA512 (fed cs))].
Proof. intros HE HV HS. rewrite first_result' by (exact I || easy). rewrite <- SHA512_64_ok by exact HS. reflexivity. Qed.
Example C05_sha512_ex : runs env_pc (Amd Asha512) le_flavor CDefault (hash_pieces abc) =
  Ok [RDigest (toBE 64 0xddaf35a193617abacc417349ae20413112e6fa4e89a97ea20a9eeee64b55d39a2192992a274fc1a836ba3c23a3feebbd454d4423643ce80e2a9ac94fa54ca49f)].
Proof. rewrite (C05_sha512 _ _ abc env_pc_valid (abc_valid _) eq_refl). vm_compute. reflexivity. Qed.
Theorem C05_sha384 e f cs : valid_env e -> valid_pieces (Amd Asha384) cs -> short (fed cs) ->
  runs e (Amd Asha384) f CDefault (hash_pieces cs) = Ok [RDigest (SHA384 (fed cs))].
Proof. intros HE HV HS. rewrite first_result' by (exact I || easy). rewrite <- SHA384_64_ok by exact HS. reflexivity. Qed.
Example C05_sha384_ex : runs env_pc (Amd Asha384) le_flavor CDefault (hash_pieces abc) =
  Ok [RDigest (SHA384 [97; 98; 99])].
Proof. rewrite (C05_sha384 _ _ abc env_pc_valid (abc_valid _) eq_refl). reflexivity. Qed.
Theorem C05_sha512_224 e f cs : valid_env e -> valid_pieces (Amd Asha512_224) cs -> short (fed cs) ->
  runs e (Amd Asha512_224) f CDefault (hash_pieces cs) = Ok [RDigest (SHA512_224 (fed cs))].
Proof. intros HE HV HS. rewrite first_result' by (exact I || easy). rewrite <- SHA512_224_64_ok by exact HS. reflexivity. Qed.
Example C05_sha512_224_ex : runs env_pc (Amd Asha512_224) le_flavor CDefault (hash_pieces abc) =
  Ok [RDigest (SHA512_224 [97; 98; 99])].
Proof. rewrite (C05_sha512_224 _ _ abc env_pc_valid (abc_valid _) eq_refl). reflexivity. Qed.
Theorem C05_sha512_256 e f cs : valid_env e -> valid_pieces (Amd Asha512_256) cs -> short (fed cs) ->
  runs e (Amd Asha512_256) f CDefault (hash_pieces cs) = Ok [RDigest (SHA512_256 (fed cs))].
Proof. intros HE HV HS. rewrite first_result' by (exact I || easy). rewrite <- SHA512_256_64_ok by exact HS. reflexivity. Qed.
Example C05_sha512_256_ex : runs env_pc (Amd Asha512_256) le_flavor CDefault (hash_pieces abc) =
  Ok [RDigest (SHA512_256 [97; 98; 99])].
Proof. rewrite (C05_sha512_256 _ _ abc env_pc_valid (abc_valid _) eq_refl). reflexivity. Qed.

(* ---------- C08: key of 16 (8) bytes ---------- *)
Theorem C08_siphash64 e f k cs : valid_env e -> valid_pieces Asip64 cs -> bytes k -> length k = 16%nat ->
  runs e Asip64 f (CBytes (Ptr k) 16) (hash_pieces cs) = Ok [RInt I64 (SipHash24 k (fed cs))].
Proof.
  intros HE HV HK HL. rewrite first_result'; [|assumption| |assumption|discriminate].
  - cbn [machine_of blk_machine mc_start mc_ar mc_au sip64_start Nat.eqb data ab_au sip_ar fst].
    rewrite (firstn_all2 k) by lia. reflexivity.
  - split; [lia|exact HK].
Qed.
Definition bytes_to (n : nat) : list N := map N.of_nat (seq 0 n).
Lemma bytes_to_bytes n : (n <= 256)%nat -> bytes (bytes_to n).
Proof. intros H. unfold bytes, bytes_to. apply Forall_forall. intros x Hx. apply in_map_iff in Hx as (y & <- & Hy). apply in_seq in Hy. lia. Qed.
(* the test vector of the SipHash paper *)
Example C08_siphash64_ex : runs env_be Asip64 le_flavor (CBytes (Ptr (bytes_to 16)) 16)
  (hash_pieces [(Ptr (bytes_to 15), 15%nat)]) = Ok [RInt I64 0xa129ca6149be45e5].
Proof.
  rewrite C08_siphash64; [vm_compute; reflexivity|exact env_be_valid| |apply bytes_to_bytes; lia|reflexivity].
  constructor; [|constructor]. split; [cbn; lia|apply bytes_to_bytes; lia].
Qed.
Theorem C08_siphash32 e f k cs : valid_env e -> valid_pieces Asip32 cs -> bytes k -> length k = 8%nat ->
  runs e Asip32 f (CBytes (Ptr k) 8) (hash_pieces cs) = Ok [RInt I32 (HalfSipHash24 k (fed cs))].
Proof.
  intros HE HV HK HL. rewrite first_result'; [|assumption| |assumption|discriminate].
  - cbn [machine_of blk_machine mc_start mc_ar mc_au sip32_start Nat.eqb data ab_au sip_ar fst].
    rewrite (firstn_all2 k) by lia. reflexivity.
  - split; [lia|exact HK].
Qed.
Example C08_siphash32_ex : runs env_be Asip32 le_flavor (CBytes (Ptr (bytes_to 8)) 8) (hash_pieces []) = Ok [RInt I32 0x5b9f35a9].
Proof.
  rewrite C08_siphash32; [vm_compute; reflexivity|exact env_be_valid|constructor|apply bytes_to_bytes; lia|reflexivity].
Qed.

(* ---------- C09 ---------- *)
Lemma lt32_64 s : s < 2^32 -> s < 2^64.
Proof. intros H. apply N.lt_trans with (2^32); [exact H|reflexivity]. Qed.
Lemma cw_64 e : valid_env e -> e_cw e <= 2^64.
Proof. intros [[-> | ->] _]; discriminate. Qed.
Theorem C09_xxh32 e f s cs : valid_env e -> valid_pieces Axx32 cs -> s < 2^32 -> N.of_nat (length (fed cs)) < e_cw e ->
  runs e Axx32 f (CSeed s) (hash_pieces cs) = Ok [RInt I32 (XXH32 s (fed cs))].
Proof.
  intros HE HV HS HL. rewrite first_result'; [|assumption|now apply lt32_64|assumption|discriminate].
  cbn [machine_of blk_machine mc_start mc_ar mc_au xx32_start ab_au fst].
  rewrite (N.div_small s) by exact HS. cbn [N.eqb app]. rewrite xx32_first by (apply HE || assumption || (right; reflexivity) || reflexivity). reflexivity.
Qed.
Example C09_xxh32_ex : runs env_be Axx32 le_flavor (CSeed 0x9E3779B1) (hash_pieces []) = Ok [RInt I32 0x36B78AE7].
Proof. rewrite C09_xxh32; [vm_compute; reflexivity|exact env_be_valid|constructor|reflexivity|reflexivity]. Qed.
Theorem C09_xxh32_default e f cs : valid_env e -> valid_pieces Axx32 cs -> N.of_nat (length (fed cs)) < e_cw e ->
  runs e Axx32 f CDefault (hash_pieces cs) = Ok [RInt I32 (XXH32 0 (fed cs))].
Proof.
  intros HE HV HL. rewrite first_result'; [|assumption|exact I|assumption|discriminate].
  cbn [machine_of blk_machine mc_start mc_ar mc_au xx32_start ab_au fst app]. rewrite xx32_first by (apply HE || assumption || (right; reflexivity) || reflexivity). reflexivity.
Qed.
Example C09_xxh32_default_ex : runs env_be Axx32 le_flavor CDefault (hash_pieces abc) = Ok [RInt I32 0x32D153FF].
Proof. rewrite C09_xxh32_default; [vm_compute; reflexivity|exact env_be_valid|apply abc_valid|exact abc_cw]. Qed.
Theorem C09_xxh64 e f s cs : valid_env e -> valid_pieces Axx64 cs -> s < 2^64 -> N.of_nat (length (fed cs)) < 2^64 ->
  runs e Axx64 f (CSeed s) (hash_pieces cs) = Ok [RInt I64 (XXH64 s (fed cs))].
Proof.
  intros HE HV HS HL. rewrite first_result'; [|assumption|exact HS|assumption|discriminate].
  cbn [machine_of blk_machine mc_start mc_ar mc_au xx64_start ab_au fst app]. rewrite xx64_first by (apply HE || assumption || (right; reflexivity) || reflexivity). reflexivity.
Qed.
Example C09_xxh64_ex : runs env_be Axx64 le_flavor (CSeed 0x9E3779B1) (hash_pieces []) = Ok [RInt I64 0xAC75FDA2929B17EF].
Proof. rewrite C09_xxh64; [vm_compute; reflexivity|exact env_be_valid|constructor|reflexivity|reflexivity]. Qed.
Theorem C09_xxh64_default e f cs : valid_env e -> valid_pieces Axx64 cs -> N.of_nat (length (fed cs)) < 2^64 ->
  runs e Axx64 f CDefault (hash_pieces cs) = Ok [RInt I64 (XXH64 0 (fed cs))].
Proof.
  intros HE HV HL. rewrite first_result'; [|assumption|exact I|assumption|discriminate].
  cbn [machine_of blk_machine mc_start mc_ar mc_au xx64_start ab_au fst app]. rewrite xx64_first by (apply HE || assumption || (right; reflexivity) || reflexivity). reflexivity.
Qed.
Example C09_xxh64_default_ex : runs env_be Axx64 le_flavor CDefault (hash_pieces abc) = Ok [RInt I64 0x44BC2CF5AD770999].
Proof. rewrite C09_xxh64_default; [vm_compute; reflexivity|exact env_be_valid|apply abc_valid|reflexivity]. Qed.

(* ---------- C10 ---------- *)
Theorem C10_fnv32 e f cs : valid_env e -> valid_pieces Afnv32 cs ->
  runs e Afnv32 f CDefault (hash_pieces cs) = Ok [RInt I32 (FNV1a FNV32 (fed cs))].
Proof. intros HE HV. rewrite first_result' by (exact I || easy). reflexivity. Qed.
Example C10_fnv32_ex : runs env_be Afnv32 le_flavor CDefault (hash_pieces abc) = Ok [RInt I32 0x1a47e90b].
Proof. rewrite (C10_fnv32 _ _ abc env_be_valid (abc_valid _)). vm_compute. reflexivity. Qed.
Theorem C10_fnv64 e f cs : valid_env e -> valid_pieces Afnv64 cs ->
  runs e Afnv64 f CDefault (hash_pieces cs) = Ok [RInt I64 (FNV1a FNV64 (fed cs))].
Proof. intros HE HV. rewrite first_result' by (exact I || easy). reflexivity. Qed.
Example C10_fnv64_ex : runs env_be Afnv64 le_flavor CDefault (hash_pieces abc) = Ok [RInt I64 0xe71fa2190541574b].
Proof. rewrite (C10_fnv64 _ _ abc env_be_valid (abc_valid _)). vm_compute. reflexivity. Qed.
(* after result(), the hasher is as if fed the byte 0xFF *)
Theorem C10_result_is_FF e a f c pre post : a = Afnv32 \/ a = Afnv64 -> valid_env e ->
  valid_program e a c (pre ++ SResult :: post) ->
  exists rs r rs', runs e a f c (pre ++ SResult :: post) = Ok (rs ++ r :: rs') /\
    runs e a f c (pre ++ SUpdate (Ptr [0xFF]) 1 :: post) = Ok (rs ++ rs').
Proof.
  intros HA HE HV.
  assert (HV' : valid_program e a c (pre ++ SUpdate (Ptr [0xFF]) 1 :: post)).
  { destruct HV as (H1 & H2). split; [exact H1|].
    rewrite Forall_app in *. destruct H2 as [H2 H4]. inversion H4; subst. split; [exact H2|].
    constructor; [|assumption]. split; [cbn; lia|repeat constructor]. }
  assert (HR : forall xs, room e a c xs) by (intros xs; destruct HA as [-> | ->]; exact I).
  rewrite !runs_expected by auto. unfold expected. rewrite !aprun_app. cbn [aprun].
  eexists _, _, _. split; [reflexivity|].
  destruct HA as [-> | ->]; reflexivity.
Qed.
Example C10_result_is_FF_ex : exists rs r rs',
  runs env_pc Afnv64 le_flavor (CSeed 7) (sample ++ SResult :: sample) = Ok (rs ++ r :: rs') /\
  runs env_pc Afnv64 le_flavor (CSeed 7) (sample ++ SUpdate (Ptr [0xFF]) 1 :: sample) = Ok (rs ++ rs').
Proof.
  apply C10_result_is_FF; [right; reflexivity|exact env_pc_valid|]. apply steps_valid; [reflexivity|reflexivity|].
  apply Forall_app. split; [exact sample_ok|]. constructor; [exact I|exact sample_ok].
Qed.

(* ---------- C11 ---------- *)
Theorem C11_murmur32 e f s cs : valid_env e -> valid_pieces Amur32 cs -> s < 2^32 -> N.of_nat (length (fed cs)) < e_cw e ->
  runs e Amur32 f (CSeed s) (hash_pieces cs) = Ok [RInt I32 (MurmurHash3_x86_32 s (fed cs))].
Proof.
  intros HE HV HS HL. rewrite first_result'; [|assumption|now apply lt32_64|assumption|discriminate].
  cbn [machine_of blk_machine mc_start mc_ar mc_au mur32_start ab_au fst].
  rewrite (N.div_small s) by exact HS. cbn [N.eqb app]. rewrite mur32_first by (apply HE || assumption || (right; reflexivity) || reflexivity). reflexivity.
Qed.
Example C11_murmur32_ex : runs env_be Amur32 le_flavor (CSeed 1) (hash_pieces []) = Ok [RInt I32 0x514E28B7].
Proof. rewrite C11_murmur32; [vm_compute; reflexivity|exact env_be_valid|constructor|reflexivity|reflexivity]. Qed.
Theorem C11_murmur32_default e f cs : valid_env e -> valid_pieces Amur32 cs -> N.of_nat (length (fed cs)) < e_cw e ->
  runs e Amur32 f CDefault (hash_pieces cs) = Ok [RInt I32 (MurmurHash3_x86_32 0 (fed cs))].
Proof.
  intros HE HV HL. rewrite first_result'; [|assumption|exact I|assumption|discriminate].
  cbn [machine_of blk_machine mc_start mc_ar mc_au mur32_start ab_au fst app]. rewrite mur32_first by (apply HE || assumption || (right; reflexivity) || reflexivity). reflexivity.
Qed.
Example C11_murmur32_default_ex : runs env_be Amur32 le_flavor CDefault (hash_pieces abc) = Ok [RInt I32 0xB3DD93FA].
Proof. rewrite C11_murmur32_default; [vm_compute; reflexivity|exact env_be_valid|apply abc_valid|exact abc_cw]. Qed.
Theorem C11_murmur128 e f s cs : valid_env e -> valid_pieces Amur128 cs -> s < 2^64 -> N.of_nat (length (fed cs)) < e_cw e ->
  runs e Amur128 f (CSeed s) (hash_pieces cs) = Ok [RDigest (MurmurHash3_x64_128 s s (fed cs))].
Proof.
  intros HE HV HS HL. rewrite first_result'; [|assumption|exact HS|assumption|discriminate].
  cbn [machine_of blk_machine mc_start mc_ar mc_au mur128_start ab_au fst app]. rewrite mur128_first by (apply HE || assumption || (right; reflexivity) || reflexivity). reflexivity.
Qed.
(* "The quick brown fox jumps over the lazy dog" *)
Definition fox : list (ptr * nat) := [(Ptr [84; 104; 101; 32; 113; 117; 105; 99; 107; 32; 98; 114; 111; 119; 110; 32; 102; 111; 120; 32], 20%nat); (Ptr [106; 117; 109; 112; 115; 32; 111; 118; 101; 114; 32; 116; 104; 101; 32; 108; 97; 122; 121; 32; 100; 111; 103], 23%nat)].
Example C11_murmur128_ex : runs env_be Amur128 le_flavor (CSeed 0x9747b28c) (hash_pieces fox) =
  Ok [RDigest (toLE 8 0x738a7f3bd2633121 ++ toLE 8 0xf94573727ec016e5)].
Proof.
  rewrite C11_murmur128; [vm_compute; reflexivity|exact env_be_valid| |reflexivity|reflexivity].
  repeat constructor; cbn; lia.
Qed.
Theorem C11_murmur128_default e f cs : valid_env e -> valid_pieces Amur128 cs -> N.of_nat (length (fed cs)) < e_cw e ->
  runs e Amur128 f CDefault (hash_pieces cs) = Ok [RDigest (MurmurHash3_x64_128 0 0 (fed cs))].
Proof.
  intros HE HV HL. rewrite first_result'; [|assumption|exact I|assumption|discriminate].
  cbn [machine_of blk_machine mc_start mc_ar mc_au mur128_start ab_au fst app]. rewrite mur128_first by (apply HE || assumption || (right; reflexivity) || reflexivity). reflexivity.
Qed.
Example C11_murmur128_default_ex : runs env_be Amur128 le_flavor CDefault (hash_pieces []) = Ok [RDigest (repeat 0 16)].
Proof. rewrite C11_murmur128_default; [vm_compute; reflexivity|exact env_be_valid|constructor|reflexivity]. Qed.

(* ---------- C12 ---------- *)
Theorem C12_spooky e f s cs : valid_env e -> valid_pieces Aspooky cs -> s < 2^64 ->
  N.of_nat (length (fed cs) + 192) < e_cw e ->
  runs e Aspooky f (CSeed s) (hash_pieces cs) = Ok [RDigest (SpookyV2_128 s 0 (fed cs))].
Proof.
  intros HE HV HS HL. rewrite first_result; [|assumption|exact HS|assumption|exact HL].
  cbn [machine_of blk_machine mc_start mc_ar mc_au sp_start ab_au fst app]. rewrite sp_first by (apply HE || assumption || (right; reflexivity) || reflexivity). reflexivity.
Qed.
Example C12_spooky_ex : exists r, runs env_be Aspooky le_flavor (CSeed 7) (hash_pieces abc) = Ok [RDigest r] /\
  r = SpookyV2_128 7 0 [97; 98; 99].
Proof. eexists. split; [rewrite C12_spooky; [reflexivity|exact env_be_valid|apply abc_valid|reflexivity|reflexivity]|reflexivity]. Qed.
Theorem C12_spooky_default e f cs : valid_env e -> valid_pieces Aspooky cs -> N.of_nat (length (fed cs) + 192) < e_cw e ->
  runs e Aspooky f CDefault (hash_pieces cs) = Ok [RDigest (SpookyV2_128 0 0 (fed cs))].
Proof.
  intros HE HV HL. rewrite first_result; [|assumption|exact I|assumption|exact HL].
  cbn [machine_of blk_machine mc_start mc_ar mc_au sp_start ab_au fst app]. rewrite sp_first by (apply HE || assumption || (right; reflexivity) || reflexivity). reflexivity.
Qed.
Example C12_spooky_default_ex : runs env_be Aspooky le_flavor CDefault (hash_pieces abc) =
  Ok [RDigest (SpookyV2_128 0 0 [97; 98; 99])].
Proof. rewrite C12_spooky_default; [reflexivity|exact env_be_valid|apply abc_valid|reflexivity]. Qed.
(* 16 bytes: the two seeds *)
Theorem C12_spooky_bytes e f k cs : valid_env e -> valid_pieces Aspooky cs -> bytes k -> length k = 16%nat ->
  N.of_nat (length (fed cs) + 400) < e_cw e ->
  runs e Aspooky f (CBytes (Ptr k) 16) (hash_pieces cs) = Ok [RDigest (SpookyV2_128 (LE (firstn 8 k)) (LE (skipn 8 k)) (fed cs))].
Proof.
  intros HE HV HK HKL HL. rewrite first_result; [|assumption| |assumption|].
  - cbn [machine_of blk_machine mc_start mc_ar mc_au sp_start ab_au fst app Nat.leb data].
    rewrite (firstn_all2 k) by lia. rewrite sp_first by (apply HE || assumption || (right; reflexivity) || reflexivity). reflexivity.
  - split; [lia|exact HK].
  - cbn [roomy ctor_weight]. lia.
Qed.
Example C12_spooky_bytes_ex : runs env_be Aspooky le_flavor (CBytes (Ptr (toLE 8 5 ++ toLE 8 6)) 16) (hash_pieces abc) =
  Ok [RDigest (SpookyV2_128 5 6 [97; 98; 99])].
Proof.
  rewrite C12_spooky_bytes; [reflexivity|exact env_be_valid|apply abc_valid| |reflexivity|reflexivity].
  apply bytes_app. split; apply toLE_bytes.
Qed.

(* ---------- C13 ---------- *)
(* the published hash functions *)
Definition std_hash (m : md_alg) : list N -> list N :=
  match m with
  | Amd5 => MD5 | Asha1 => SHA1 | Armd128 => RIPEMD128 | Armd160 => RIPEMD160
  | Asha256 => SHA256 | Asha224 => SHA224
  | Asha512 => SHA512 | Asha384 => SHA384 | Asha512_224 => SHA512_224 | Asha512_256 => SHA512_256
  end.
Definition block_size (m : md_alg) : nat :=
  match m with Asha512 | Asha384 | Asha512_224 | Asha512_256 => 128 | _ => 64 end%nat.
(* the 512-bit family: fewer than 2^64 bits *)
Definition hmac_short (m : md_alg) (k l : list N) : Prop :=
  block_size m = 128%nat -> 8 * N.of_nat (length k) < 2^64 /\ 8 * N.of_nat (128 + length l) < 2^64.
Lemma hash_of_std m l : (block_size m = 128%nat -> short l) -> hash_of m l = std_hash m l.
Proof.
  destruct m; cbn [hash_of std_hash block_size]; intros HS; try reflexivity.
  - now apply SHA512_64_ok, HS. - now apply SHA384_64_ok, HS.
  - now apply SHA512_224_64_ok, HS. - now apply SHA512_256_64_ok, HS.
Qed.
Lemma std_hash_length m l : length (std_hash m l) = size_of_md m.
Proof.
  destruct m; cbn [std_hash size_of_md].
  - apply MD5_length. - apply SHA1_length. - apply RIPEMD128_length. - apply RIPEMD160_length.
  - rewrite <- SHA256_64_ok. apply SHA256_64_length.
  - rewrite <- SHA224_64_ok. apply SHA224_64_length.
  - unfold SHA512, SHA2. apply cut_length. cbn; lia.
  - unfold SHA384, SHA2. apply cut_length. cbn; lia.
  - unfold SHA512_224, SHA2. apply cut_length. cbn; lia.
  - unfold SHA512_256, SHA2. apply cut_length. cbn; lia.
Qed.
Lemma hmac_std m k l : hmac_short m k l -> HMAC (block_of m) (hash_of m) k l = HMAC (block_size m) (std_hash m) k l.
Proof.
  intros HS. change (block_of m) with (block_size m).
  destruct (Nat.eq_dec (block_size m) 128) as [E|E].
  - rewrite E. apply (HMAC_64 _ _ (size_of_md m)).
    + destruct m; cbn; lia.
    + apply std_hash_length.
    + intros x Hx. now apply hash_of_std.
    + now apply HS.
    + now apply HS.
  - assert (EH : forall x, hash_of m x = std_hash m x) by (intros x; now apply hash_of_std).
    apply HMAC_ext; auto.
Qed.
Theorem C13_hmac e f m k n cs : valid_env e -> valid_ctor (CBytes k n) -> valid_pieces (Ahmac m) cs ->
  hmac_short m (data k n) (fed cs) ->
  runs e (Ahmac m) f (CBytes k n) (hash_pieces cs)
  = Ok [RDigest (HMAC (block_size m) (std_hash m) (data k n) (fed cs))].
Proof.
  intros HE HC HV HS. rewrite first_result' by (assumption || easy).
  rewrite <- (hmac_std m _ _ HS). reflexivity.
Qed.
Example C13_hmac_ex : runs env_pc (Ahmac Amd5) le_flavor (CBytes (Ptr [74; 101; 102; 101]) 4) (hash_pieces abc) =
  Ok [RDigest (toBE 16 0x0c23dc19a0f341f59659378f4621bb4b)].
Proof.
  rewrite C13_hmac; [vm_compute; reflexivity|exact env_pc_valid| |apply abc_valid|discriminate]. split; [cbn; lia|]. repeat constructor.
Qed.
Example C13_hmac512_ex : runs env_pc (Ahmac Asha512) le_flavor (CBytes (Ptr [74; 101; 102; 101]) 4) (hash_pieces abc) =
  Ok [RDigest (HMAC 128 SHA512 [74; 101; 102; 101] [97; 98; 99])].
Proof.
  rewrite C13_hmac; [reflexivity|exact env_pc_valid| |apply abc_valid|split; reflexivity]. split; [cbn; lia|]. repeat constructor.
Qed.

(* Further consequences at the level of the API: C05 (long messages), C11/C12 (two-seed
   constructors), C19 (hash_append of empty ranges), C28, C29, C40 (as seen by a recording
   hash algorithm). *)
From Verif Require Import Base BaseFacts SpecCommon Hasher GenBlk Types ModelResult ModelAppend SpecAppend
  ProofMsg ProofMsgEq ProofMsgExt ProofAppend Behaves Instances ProofRuns PropsHistory PropsAlg PropsAppend ProofObj PropsResults Samples.
From Verif Require Import SpecSha2 SpecMurmur SpecSpooky ModelMurmur ModelSpooky ProofSha2 ProofMurmur ProofSpooky.
Open Scope N_scope.

(* ---------- C05: 2^64 bits and more ---------- *)
(* The code writes 64 of the 128 bits of the length field.  A message whose length does not fit
   is padded differently from what FIPS 180-4 prescribes; the digest is that of the wrong
   padding. *)
Definition IV_of (m : md_alg) : SHA2_word :=
  match m with Asha384 => IV384 | Asha512_224 => IV512_224 | Asha512_256 => IV512_256 | _ => IV512 end.
(* the digest of a message that was padded to the blocks p *)
Definition of_padded (m : md_alg) (p : list N) : list N :=
  firstn (size_of_md m) (out F512 (fold_left (compress F512) (chunks 128 p) (IV_of m))).
Theorem C05_long_refuted e m f cs : valid_env e -> block_size m = 128%nat -> valid_pieces (Amd m) cs ->
  2^64 <= 8 * N.of_nat (length (fed cs)) < 2^128 ->
  exists p, runs e (Amd m) f CDefault (hash_pieces cs) = Ok [RDigest (of_padded m p)] /\
    std_hash m (fed cs) = of_padded m (pad F512 (fed cs)) /\
    length p = length (pad F512 (fed cs)) /\ p <> pad F512 (fed cs).
Proof.
  intros HE HM HV HL. exists (pad512 (fed cs)). split; [|split; [|split]].
  - rewrite first_result' by (exact I || easy). cbn [machine_of md_machine mc_ar mc_au mc_start vstart app fst].
    do 3 f_equal. destruct m; try discriminate HM; cbn [hash_of of_padded IV_of size_of_md]; unfold of_padded; cbn [IV_of size_of_md]; reflexivity.
  - unfold of_padded. destruct m; try discriminate HM; cbn [std_hash IV_of size_of_md]; reflexivity.
  - unfold pad512, pad, MDpad. change (16 * wb F512)%nat with 128%nat. change (2 * wb F512)%nat with 16%nat.
    rewrite !app_length. change toBE with be_bytes. rewrite !be_bytes_length, zeros_length. reflexivity.
  - now apply pad512_std_refuted.
Qed.
(* a message that is long enough: 2^61 zero bytes *)
Example C05_long_ex m : let n := N.to_nat (2^61) in
  valid_pieces (Amd m) [(Ptr (zeros n), n)] /\ 2^64 <= 8 * N.of_nat (length (fed [(Ptr (zeros n), n)])) < 2^128.
Proof.
  intros n. assert (Hn : N.of_nat n = 2^61) by apply N2Nat.id. clearbody n.
  assert (E : fed [(Ptr (zeros n), n)] = zeros n).
  { unfold fed. cbn [map concat fst snd data]. rewrite app_nil_r. apply firstn_all2. now rewrite zeros_length. }
  split.
  - constructor; [|constructor]. split; [cbn [fst snd]; rewrite zeros_length; lia|apply bytes_zeros].
  - rewrite E, zeros_length, Hn. split; [discriminate|reflexivity].
Qed.

(* ---------- the two-seed constructors of murmur3_128 and spooky2_128 ---------- *)
(* They build the same object as the constructor from the 16 bytes of the two seeds, so that
   every theorem about programs constructed by [CBytes] holds for them. *)
Definition two_seeds (s1 s2 : N) : list N := toLE 8 s1 ++ toLE 8 s2.
Lemma two_seeds_length s1 s2 : length (two_seeds s1 s2) = 16%nat.
Proof. unfold two_seeds. change toLE with le_bytes. now rewrite app_length, !le_bytes_length. Qed.
Lemma two_seeds_bytes s1 s2 : bytes (two_seeds s1 s2).
Proof. apply bytes_app. split; apply le_bytes_bytes. Qed.
Lemma two_seeds_1 s1 s2 t : s1 < 2^64 -> le_val (firstn 8 (two_seeds s1 s2 ++ t)) = s1.
Proof.
  intros H. unfold two_seeds. change toLE with le_bytes. rewrite <- app_assoc, firstn_app_exact by now rewrite le_bytes_length.
  rewrite le_val_bytes. now apply N.mod_small.
Qed.
Lemma two_seeds_2 s1 s2 t : s2 < 2^64 -> le_val (firstn 8 (skipn 8 (two_seeds s1 s2 ++ t))) = s2.
Proof.
  intros H. unfold two_seeds. change toLE with le_bytes. rewrite <- app_assoc, skipn_app_exact by now rewrite le_bytes_length.
  rewrite firstn_app_exact by now rewrite le_bytes_length.
  rewrite le_val_bytes. now apply N.mod_small.
Qed.
Lemma two_seeds_copy s1 s2 : std_memcpy (zeros 18) 0 (Ptr (two_seeds s1 s2)) 16 = Ok (two_seeds s1 s2 ++ [0; 0]).
Proof.
  unfold std_memcpy, memread. rewrite two_seeds_length. cbn [Nat.leb zeros_length length zeros repeat Nat.add bind].
  rewrite firstn_all2 by (rewrite two_seeds_length; lia). unfold splice. rewrite two_seeds_length. reflexivity.
Qed.
Theorem C11_two_seeds e s1 s2 : s1 < 2^64 -> s2 < 2^64 ->
  h_bytes (pk_h (pack e Amur128)) (Ptr (two_seeds s1 s2)) 16 = Ok (mur128_seed2 (e_junk e 16) s1 s2).
Proof.
  intros H1 H2. cbn [pack pack_digest pk_h mur128_class h_bytes]. unfold mur128_bytes.
  cbn [Nat.eqb Nat.leb]. rewrite two_seeds_copy. cbn [bind].
  rewrite padd_ok by lia. cbn [bind skipn].
  assert (B : bytes (two_seeds s1 s2 ++ [0;0])) by (apply bytes_app; split; [apply two_seeds_bytes|exact (bytes_zeros 2)]).
  assert (L : length (two_seeds s1 s2 ++ [0;0]) = 18%nat) by (rewrite app_length, two_seeds_length; reflexivity).
  rewrite read64le_ok by (try exact B; rewrite L; lia). cbn [bind].
  rewrite padd_ok by (rewrite L; lia). cbn [bind].
  rewrite read64le_ok by (try (apply bytes_skipn; exact B); rewrite skipn_length, L; lia). cbn [bind].
  rewrite two_seeds_1, two_seeds_2 by assumption. reflexivity.
Qed.
Theorem C12_two_seeds e s1 s2 : s1 < 2^64 -> s2 < 2^64 ->
  h_bytes (pk_h (pack e Aspooky)) (Ptr (two_seeds s1 s2)) 16 = Ok (sp_seed2 (e_junk e 192) s1 s2).
Proof.
  intros H1 H2. cbn [pack pack_digest pk_h sp_class h_bytes]. unfold sp_bytes.
  cbn [Nat.eqb Nat.leb]. rewrite two_seeds_copy. cbn [bind].
  rewrite padd_ok by lia. cbn [bind skipn].
  assert (B : bytes (two_seeds s1 s2 ++ [0;0])) by (apply bytes_app; split; [apply two_seeds_bytes|exact (bytes_zeros 2)]).
  assert (L : length (two_seeds s1 s2 ++ [0;0]) = 18%nat) by (rewrite app_length, two_seeds_length; reflexivity).
  rewrite read64le_ok by (try exact B; rewrite L; lia). cbn [bind].
  rewrite padd_ok by (rewrite L; lia). cbn [bind].
  rewrite read64le_ok by (try (apply bytes_skipn; exact B); rewrite skipn_length, L; lia). cbn [bind].
  rewrite two_seeds_1, two_seeds_2 by assumption. reflexivity.
Qed.
(* and the first result is MurmurHash3_x64_128 / SpookyHash V2 with those seeds *)
Theorem C11_murmur128_two_seeds e f s1 s2 cs : valid_env e -> valid_pieces Amur128 cs -> s1 < 2^64 -> s2 < 2^64 ->
  N.of_nat (length (fed cs)) < e_cw e ->
  runs e Amur128 f (CBytes (Ptr (two_seeds s1 s2)) 16) (hash_pieces cs) = Ok [RDigest (MurmurHash3_x64_128 s1 s2 (fed cs))].
Proof.
  intros HE HV H1 H2 HL. rewrite first_result'; [|assumption| |assumption|discriminate].
  - cbn [machine_of blk_machine mc_start mc_ar mc_au mur128_start ab_au fst app Nat.leb data].
    rewrite (firstn_all2 (two_seeds s1 s2) (n := 16)) by (rewrite two_seeds_length; lia).
    pose proof (two_seeds_1 s1 s2 [] H1) as E1. pose proof (two_seeds_2 s1 s2 [] H2) as E2. rewrite app_nil_r in E1, E2.
    rewrite (firstn_all2 (skipn 8 (two_seeds s1 s2)) (n := 8)) in E2 by (rewrite skipn_length, (two_seeds_length s1 s2); lia).
    change LE with le_val. rewrite E1, E2. cbn [ab_au app]. rewrite mur128_first by exact HL. reflexivity.
  - split; [rewrite two_seeds_length; lia|apply two_seeds_bytes].
Qed.
Example C11_murmur128_two_seeds_ex : runs env_be Amur128 le_flavor (CBytes (Ptr (two_seeds 5 6)) 16) (hash_pieces abc) =
  Ok [RDigest (MurmurHash3_x64_128 5 6 [97; 98; 99])].
Proof. rewrite C11_murmur128_two_seeds; [reflexivity|exact env_be_valid|apply abc_valid|reflexivity..]. Qed.
Theorem C12_spooky_two_seeds e f s1 s2 cs : valid_env e -> valid_pieces Aspooky cs -> s1 < 2^64 -> s2 < 2^64 ->
  N.of_nat (length (fed cs) + 400) < e_cw e ->
  runs e Aspooky f (CBytes (Ptr (two_seeds s1 s2)) 16) (hash_pieces cs) = Ok [RDigest (SpookyV2_128 s1 s2 (fed cs))].
Proof.
  intros HE HV H1 H2 HL. rewrite C12_spooky_bytes; try assumption; [|apply two_seeds_bytes|apply two_seeds_length].
  pose proof (two_seeds_1 s1 s2 [] H1) as E1. pose proof (two_seeds_2 s1 s2 [] H2) as E2. rewrite app_nil_r in E1, E2.
  rewrite (firstn_all2 (skipn 8 (two_seeds s1 s2)) (n := 8)) in E2 by (rewrite skipn_length, (two_seeds_length s1 s2); lia).
  change LE with le_val. now rewrite E1, E2.
Qed.
Example C12_spooky_two_seeds_ex : runs env_be Aspooky le_flavor (CBytes (Ptr (two_seeds 5 6)) 16) (hash_pieces abc) =
  Ok [RDigest (SpookyV2_128 5 6 [97; 98; 99])].
Proof. rewrite C12_spooky_two_seeds; [reflexivity|exact env_be_valid|apply abc_valid|reflexivity..]. Qed.

(* ---------- C19: hash_append of an empty contiguous range on SHA-2 ---------- *)
(* Where data() of an empty vector is null (it is for every standard library), appending an empty
   std::vector<unsigned char> after a number of bytes that is not a multiple of the block size
   is undefined on the SHA-2 family. *)
Theorem C19_append_empty_refuted e m f c ops : nul_md m = false -> p_cx (e_pf e) = false -> im_null (e_impl e) = true ->
  valid_env e -> valid_ctor c ->
  valid_calls (Amd m) ops -> (length (last (segments [] ops) []) mod block_size m <> 0)%nat ->
  runs e (Amd m) f c (calls ops ++ [SAppend (TVec (TInt I8 false)) (VList [])]) = UB.
Proof.
  intros HM HX HN HE HC HV HL. pose proof (C19_sha2_null_refuted e m f c ops HM HX HC HV HL) as U.
  assert (E1 : calls (ops ++ [OUpdate Null 0]) = calls ops ++ [SUpdate Null 0]) by (unfold calls; now rewrite map_app).
  rewrite E1 in U. unfold runs, program in *.
  destruct (construct (pk_h (pack e (Amd m))) c) as [s0| | | ]; cbn [bind] in *; try discriminate; try reflexivity.
  rewrite prun_app in *.
  destruct (prun _ _ _ _ s0 (calls ops)) as [rs| | | ]; cbn [bind] in *; try discriminate; try reflexivity.
  destruct (pobj _ _ _ _ s0 (calls ops)) as [s| | | ]; cbn [bind] in *; try discriminate; try reflexivity.
  assert (U2 : h_update (pk_h (pack e (Amd m))) s Null 0 = UB).
  { cbn [prun] in U. destruct (h_update (pk_h (pack e (Amd m))) s Null 0); cbn [bind] in U; try discriminate; reflexivity. }
  cbn [prun ha_call form_ha]. cbn [ha]. unfold contiguously_hashable, trivially_comparable. cbn [andb]. rewrite Bool.andb_false_r.
  cbn [ha_ptr_range flat_map length]. unfold data_ptr. rewrite HN, U2. reflexivity.
Qed.
Example C19_append_empty_example e f : valid_env e -> p_cx (e_pf e) = false -> im_null (e_impl e) = true ->
  runs e (Amd Asha256) f CDefault [SUpdate (Ptr [0x61]) 1; SAppend (TVec (TInt I8 false)) (VList [])] = UB.
Proof.
  intros HE HX HN. apply (C19_append_empty_refuted e Asha256 f CDefault [OUpdate (Ptr [0x61]) 1]); try reflexivity; try assumption.
  - repeat constructor.
  - discriminate.
Qed.

(* ---------- C28, C29, C40: as seen by a hash algorithm that records its input ---------- *)
Definition record (g : list N -> N) (i : impl) (f : flavor) (t : ty) (v : val) (st : list N) : res (list N) :=
  ha recorder (fun r => Ok (g r)) i f t v st.

(* Different values of one type, hashed after the same or different histories: if what was recorded
   is the same, then the histories were the same and the values are equal.  (Types without
   unordered containers; no NaNs; sizes representable in size_type.) *)
Theorem C28_recorded g i f t v1 v2 st1 st2 : decodable t ->
  has_type (im_psz i) t v1 -> has_type (im_psz i) t v2 -> regular (fl_size f) t v1 -> regular (fl_size f) t v2 ->
  record g i f t v1 st1 = record g i f t v2 st2 -> st1 = st2 /\ equal t v1 v2.
Proof.
  intros HO T1 T2 R1 R2. unfold record. rewrite !append_records by assumption. intros E. injection E as E.
  now apply C28_parse in E.
Qed.
(* the strings "ab" and "ac" leave different records after the same history *)
Example C28_recorded_ex g i f st : let s := fun x => VList [VInt 97; VInt x] in
  record g i f (TVec (TInt I8 true)) (s 98%Z) st <> record g i f (TVec (TInt I8 true)) (s 99%Z) st.
Proof.
  intros s E. apply C28_recorded in E.
  - destruct E as [_ E]. cbn in E. subst s. inversion E as [|x1 x2 l1 l2 E1 E2]. inversion E2 as [|y1 y2 m1 m2 E3 E4]. discriminate E3.
  - exact I.
  - subst s. ok.
  - subst s. ok.
  - destruct f as [[] o]; cbn; repeat split; repeat constructor.
  - destruct f as [[] o]; cbn; repeat split; repeat constructor.
Qed.
(* hash_append always feeds at least one byte, on top of what was fed before *)
Theorem C29_recorded g i f t v st : has_type (im_psz i) t v ->
  exists b m, record g i f t v st = Ok (st ++ b :: m).
Proof.
  intros T. unfold record. rewrite append_records by exact T.
  destruct (message i f t v (fun m => g (st ++ m))) as [|b m] eqn:E; [|eauto].
  exfalso. revert E. now apply C29_nonempty.
Qed.
(* hash_append_size feeds sizeof( size_type ) bytes: the size modulo 2^bits *)
Theorem C40_recorded i f n st :
  exists m, ha_size recorder i f n st = Ok (st ++ m) /\ length m = ibytes (fl_size f) /\
    m = int_bytes f (fl_size f) (Z.of_nat n) /\
    (forall n' m', ha_size recorder i f n' st = Ok (st ++ m') ->
       (m = m' <-> (Z.of_nat n mod 2 ^ (8 * Z.of_nat (ibytes (fl_size f))) = Z.of_nat n' mod 2 ^ (8 * Z.of_nat (ibytes (fl_size f))))%Z)).
Proof.
  assert (K : forall n, ha_size recorder i f n st = Ok (st ++ size_msg (order_le (fl_order f)) (fl_size f) n)).
  { intros k.
    destruct (ha_size_feeds recorder true (list N) (fun l d => l ++ d) (fun l => (l, l)) (fun _ => True) eq
      recorder_refines (fun _ _ => True) (fits_true _ _ _ (fun _ => I)) (fun _ => Ok 0) (fun _ => 0) (fun _ => eq_refl) i f st k st eq_refl I) as (s' & E & R).
    rewrite E. f_equal. symmetry. exact R. }
  exists (size_msg (order_le (fl_order f)) (fl_size f) n). split; [apply K|]. split; [apply (C26_enc _ _ (Z.of_nat n))|]. split.
  - unfold int_bytes, size_msg. now destruct (fl_order f).
  - intros n' m' E. rewrite K in E. injection E as E. apply app_inv_head in E. subst m'. apply C40_size.
Qed.

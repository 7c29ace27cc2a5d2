(* C59, C17: the only memory of a Merkle-Damgard object is its chaining value (and the number of bytes).
   So equal digests of untruncated hashes make two objects equal for ever, and the documented requirement
   "different seed sequences produce differently initialized instances" (doc/hash2/hashing_bytes.adoc:104) fails for
   every algorithm of the library. *)
From Verif Require Import Base BaseFacts SpecCommon Gen Bits GenMD Hasher GenBlk Types ModelResult ModelAppend SpecAppend ProofMsg ProofMsgEq
  Behaves Instances ProofRuns Samples PropsHistory PropsAlg PropsAppend PropsResults ProofLocal ProofMurmurDistinct ProofReduce PropsReduce PropsExtend.
From Verif Require Import SpecMd5 SpecSha1 SpecRipemd SpecSha2 SpecHmac SpecXxh ProofXxh ProofSha2 ProofHmac ProofSip SpecFnv ProofFnv ProofSpooky.
From Verif Require PropsReveal PropsCrowd.
From Verif Require Import PropsSeeds PropsUnord PropsBalance.
Open Scope N_scope.

(* ---------- two histories with the same chaining value ---------- *)
Definition chain (m : md_alg) (x : list N) : cr_St (core_of m) := fold_left (cr_compress (core_of m)) (chunks (block_of m) x) (cr_IV (core_of m)).
Definition alike (m : md_alg) (l1 l2 : list N) : Prop := exists k x1 x2 d,
  l1 = x1 ++ d /\ l2 = x2 ++ d /\ length x1 = (k * block_of m)%nat /\ length x2 = (k * block_of m)%nat /\ chain m x1 = chain m x2.
Lemma block_pos m : (0 < block_of m)%nat.
Proof. destruct m; cbn; lia. Qed.
Lemma alike_update m l1 l2 d : alike m l1 l2 -> alike m (l1 ++ d) (l2 ++ d).
Proof. intros (k & x1 & x2 & y & -> & -> & L1 & L2 & E). exists k, x1, x2, (y ++ d). now rewrite !app_assoc. Qed.
Lemma alike_result m l1 l2 : alike m l1 l2 -> hash_of m l1 = hash_of m l2 /\ alike m (pad_of m l1) (pad_of m l2).
Proof.
  intros (k & x1 & x2 & d & -> & -> & L1 & L2 & E).
  assert (EL : length (x1 ++ d) = length (x2 ++ d)) by (rewrite !app_length; lia). split.
  - rewrite !hash_core, !pad_glue, EL, <- !app_assoc, (chunks_app_mult _ (block_pos m) k x1 _ L1), (chunks_app_mult _ (block_pos m) k x2 _ L2).
    rewrite !fold_left_app. change (fold_left (cr_compress (core_of m)) (chunks (block_of m) x1) (cr_IV (core_of m))) with (chain m x1). rewrite E. reflexivity.
  - rewrite !pad_glue, EL. apply alike_update. exists k, x1, x2, d. auto.
Qed.
Lemma alike_runs m g i f xs l1 l2 : alike m l1 l2 ->
  aprun (mc_au (machine_of 0 (Amd m))) (mc_ar (machine_of 0 (Amd m))) g (call_message i f) l1 xs =
  aprun (mc_au (machine_of 0 (Amd m))) (mc_ar (machine_of 0 (Amd m))) g (call_message i f) l2 xs.
Proof.
  apply (PropsReveal.aprun_sim _ _ g i f (alike m)).
  - intros a b d. apply alike_update.
  - intros a b H. destruct (alike_result m a b H) as [E1 E2]. cbn [machine_of md_machine mc_ar fst snd]. now rewrite E1.
Qed.

(* ---------- C59: equal digests, equal for ever ---------- *)
(* Two objects of an untruncated algorithm, with seeds and messages of any kind that make the same number of
   processed bytes: if the digests agree, so do all results of all later programs of update(), result() and
   hash_append() calls. *)
Theorem C59_forever e m f c1 c2 cs1 cs2 xs : untruncated m -> valid_env e -> valid_ctor c1 -> valid_ctor c2 ->
  valid_pieces (Amd m) cs1 -> valid_pieces (Amd m) cs2 -> Forall (valid_step (nul_of (Amd m)) (e_impl e)) xs ->
  processed m c1 (length (fed cs1)) = processed m c2 (length (fed cs2)) ->
  runs e (Amd m) f c1 (hash_pieces cs1) = runs e (Amd m) f c2 (hash_pieces cs2) ->
  exists rs, runs e (Amd m) f c1 (hash_pieces cs1 ++ xs) = Ok rs /\ runs e (Amd m) f c2 (hash_pieces cs2 ++ xs) = Ok rs.
Proof.
  intros HU HE HC1 HC2 V1 V2 HX EP ER.
  assert (HV : forall c cs, valid_ctor c -> valid_pieces (Amd m) cs -> valid_program e (Amd m) c (hash_pieces cs ++ xs)).
  { intros c cs HC V. destruct (pieces_valid e (Amd m) c cs HC V) as [_ X]. split; [exact HC|]. now apply Forall_app. }
  eexists. split; [apply runs_expected; [exact HE|now apply HV|apply room_any; discriminate]|].
  rewrite runs_expected; [|exact HE|now apply HV|apply room_any; discriminate]. apply (f_equal (@Ok _)).
  rewrite !digest_of in ER by assumption. apply Ok1, RD1 in ER. unfold processed in EP. rewrite <- !app_length in EP.
  unfold expected, hash_pieces. rewrite <- !app_assoc, !aprun_app, !aprun_updates, !asteps_updates.
  cbn [app aprun asteps fst snd machine_of md_machine mc_start mc_ar mc_au].
  rewrite (start_message m c1), (start_message m c2), ER. apply (f_equal (cons _)). symmetry.
  apply (alike_runs m). rewrite !hash_core in ER.
  destruct (pad_mult m (seed_message (pad_of m) c1 ++ fed cs1)) as [k1 K1]. destruct (pad_mult m (seed_message (pad_of m) c2 ++ fed cs2)) as [k2 K2].
  assert (EL : length (pad_of m (seed_message (pad_of m) c1 ++ fed cs1)) = length (pad_of m (seed_message (pad_of m) c2 ++ fed cs2))) by (rewrite !pad_glue, (app_length (seed_message (pad_of m) c1 ++ fed cs1)), (app_length (seed_message (pad_of m) c2 ++ fed cs2)), EP; reflexivity).
  exists (S k1), (pad_of m (seed_message (pad_of m) c1 ++ fed cs1)), (pad_of m (seed_message (pad_of m) c2 ++ fed cs2)), [].
  rewrite !app_nil_r. repeat (split; [reflexivity || congruence|]). unfold chain.
  destruct (last_step (cr_compress (core_of m)) _ (cr_IV (core_of m)) (chunks_some _ _ _ (block_pos m) K1)) as (s1 & b1 & E1).
  destruct (last_step (cr_compress (core_of m)) _ (cr_IV (core_of m)) (chunks_some _ _ _ (block_pos m) K2)) as (s2 & b2 & E2).
  rewrite E1, E2 in *. now apply out_inj.
Qed.
Example C59_forever_ex : exists rs,
  runs env_pc (Amd Asha256) le_flavor (CBytes (Ptr [1; 2; 3]) 3) (hash_pieces abc ++ sample) = Ok rs /\
  runs env_pc (Amd Asha256) le_flavor (CBytes (Ptr [1; 2; 3; 4]) 3) (hash_pieces [(Ptr [97; 98; 99], 3%nat)] ++ sample) = Ok rs.
Proof.
  apply C59_forever.
  - exact I. - exact env_pc_valid. - split; [cbn; lia|repeat constructor]. - split; [cbn; lia|repeat constructor].
  - apply abc_valid. - constructor; [|constructor]. split; [cbn; lia|repeat constructor].
  - exact (proj2 (proj1 (sample_valid (Amd Asha256)))).
  - reflexivity.
  - rewrite !digest_of; [reflexivity|exact env_pc_valid|split; [cbn; lia|repeat constructor]|constructor; [|constructor]; split; [cbn; lia|repeat constructor]
    |exact env_pc_valid|split; [cbn; lia|repeat constructor]|apply abc_valid].
Qed.

(* ---------- C17: different byte-sequence seeds that make the same instance, for every algorithm ---------- *)
(* the chaining value as a number below 2^512 *)
Definition number (ws : list N) : N := fold_right (fun a r => a + 2^64 * r) 0 ws.
Lemma number_inj l1 : forall l2, length l1 = length l2 -> Forall (fun a => a < 2^64) l1 -> Forall (fun a => a < 2^64) l2 -> number l1 = number l2 -> l1 = l2.
Proof.
  induction l1 as [|a l1 IH]; intros [|b l2] HL F1 F2 E; try discriminate; [reflexivity|]. inversion F1; inversion F2; subst.
  injection HL as HL. change (a + 2^64 * number l1 = b + 2^64 * number l2) in E.
  assert (X : a = b /\ number l1 = number l2) by (clear IH F1 F2 HL; lia).
  destruct X as [-> X]. apply (f_equal (cons b)). now apply IH.
Qed.
Lemma number_lt l : Forall (fun a => a < 2^64) l -> number l < 2 ^ (64 * N.of_nat (length l)).
Proof.
  induction 1 as [|a l Ha Hl IH]; [reflexivity|]. change (number (a :: l)) with (a + 2^64 * number l). cbn [length].
  replace (64 * N.of_nat (S (length l))) with (64 + 64 * N.of_nat (length l)) by (clear; lia). rewrite N.pow_add_r.
  revert IH. generalize (2 ^ (64 * N.of_nat (length l))), (number l). intros M x Hx. clear - Ha Hx. change (2^64) with 18446744073709551616 in *. lia.
Qed.
Definition words_of (m : md_alg) : cr_St (core_of m) -> list N :=
  match m with
  | Amd5 => w4 | Asha1 => w5 | Armd128 => w4 | Armd160 => w5
  | Asha256 => w8 | Asha224 => w8 | Asha512 => w8 | Asha384 => w8 | Asha512_224 => w8 | Asha512_256 => w8
  end.
Lemma words_of_inj m x y : words_of m x = words_of m y -> x = y.
Proof. destruct m; cbn [words_of core_of cr_St] in *; first [apply w4_inj|apply w5_inj|apply w8_inj]. Qed.
Lemma words_of_len m x : (length (words_of m x) <= 8)%nat /\ forall y, length (words_of m y) = length (words_of m x).
Proof. destruct m; cbn [words_of core_of cr_St] in *; rewrite ?w4_len, ?w5_len, ?w8_len; (split; [lia|]); intros y; rewrite ?w4_len, ?w5_len, ?w8_len; reflexivity. Qed.
Lemma words_of_lt m s b : Forall (fun a => a < 2^64) (words_of m (cr_compress (core_of m) s b)).
Proof.
  assert (X : forall l, Forall (fun a => a < 2^32) l -> Forall (fun a => a < 2^64) l).
  { intros l. apply Forall_impl. intros a Ha. etransitivity; [exact Ha|reflexivity]. }
  destruct m; cbn [words_of core_of cr_St cr_compress] in *.
  - apply X, md5_words. - apply X, sha1_words. - apply X, rmd128_words. - apply X, rmd160_words.
  - apply X, (sha2_words F256). - apply X, (sha2_words F256). - apply (sha2_words F512). - apply (sha2_words F512). - apply (sha2_words F512). - apply (sha2_words F512).
Qed.
Lemma alike_hasher e m c1 c2 : valid_env e -> alike m (vstart (pad_of m) c1) (vstart (pad_of m) c2) -> same_hasher e (Amd m) c1 c2.
Proof.
  intros HE HA f xs V1 V2 R1 R2. exists (expected e (Amd m) f c1 xs). split; [now apply runs_expected|].
  rewrite runs_expected by assumption. apply (f_equal (@Ok _)). symmetry. apply (alike_runs m). exact HA.
Qed.
(* Merkle-Damgard hashes: of the seeds of n bytes, at least 2^(8n-512) make the same instance *)
Theorem C17_md_refuted e m n : valid_env e -> (64 <= n)%nat -> exists ks, NoDup ks /\ 2 ^ (8 * N.of_nat n - 512) <= N.of_nat (length ks) /\
  (forall k, In k ks -> length k = n /\ bytes k) /\
  forall k1 k2, In k1 ks -> In k2 ks -> same_hasher e (Amd m) (CBytes (Ptr k1) n) (CBytes (Ptr k2) n).
Proof.
  intros HE HN.
  assert (HP : forall k, exists s b, chain m (pad_of m k) = cr_compress (core_of m) s b).
  { intros k. destruct (pad_mult m k) as [j K]. exact (last_step (cr_compress (core_of m)) _ (cr_IV (core_of m)) (chunks_some _ _ _ (block_pos m) K)). }
  assert (HW : forall k, Forall (fun a => a < 2^64) (words_of m (chain m (pad_of m k)))).
  { intros k. destruct (HP k) as (s & b & ->). apply words_of_lt. }
  set (g := fun k => number (words_of m (chain m (pad_of m k)))).
  assert (HG : forall k, g k < 2^512).
  { intros k. eapply N.lt_le_trans; [apply number_lt, HW|]. apply N.pow_le_mono_r; [discriminate|].
    pose proof (proj1 (words_of_len m (chain m (pad_of m k)))) as H. revert H. generalize (length (words_of m (chain m (pad_of m k)))). intros j H. clear - H. lia. }
  destruct (pigeons g (2 ^ (8 * N.of_nat n - 512) - 1) (2^512) (all_bytes n)) as (v & Hv).
  - intros k _. apply HG.
  - rewrite all_bytes_length. assert (E : 2 ^ (8 * N.of_nat n) = 2 ^ (8 * N.of_nat n - 512) * 2^512).
    { rewrite <- N.pow_add_r. apply (f_equal (N.pow 2)). clear - HN. lia. }
    rewrite E. assert (P : 2 ^ (8 * N.of_nat n - 512) <> 0) by (apply N.pow_nonzero; discriminate).
    revert P. generalize (2 ^ (8 * N.of_nat n - 512)). intros M P. apply N.mul_lt_mono_pos_r; [reflexivity|clear - P; lia].
  - exists (filter (fun x => N.eqb (g x) v) (all_bytes n)). split; [apply NoDup_filter, all_bytes_nodup|]. split; [clear - Hv; lia|]. split.
    + intros k Hk. apply filter_In in Hk. now apply all_bytes_in.
    + intros k1 k2 H1 H2. apply filter_In in H1. apply filter_In in H2. destruct H1 as [A1 G1], H2 as [A2 G2].
      apply N.eqb_eq in G1. apply N.eqb_eq in G2. apply all_bytes_in in A1. apply all_bytes_in in A2. destruct A1 as [L1 B1], A2 as [L2 B2].
      apply alike_hasher; [exact HE|]. cbn [vstart data]. replace (Nat.eqb n 0) with false by (symmetry; apply Nat.eqb_neq; clear - HN; lia).
      rewrite <- L1 at 1. rewrite <- L2, !firstn_all. destruct (pad_mult m k1) as [j K].
      assert (K2 : length (pad_of m k2) = (S j * block_of m)%nat) by (rewrite <- K, !pad_glue, !app_length, L1, L2; reflexivity).
      exists (S j), (pad_of m k1), (pad_of m k2), []. rewrite !app_nil_r. repeat (split; [reflexivity || assumption|]).
      apply words_of_inj, number_inj; [apply words_of_len|apply HW|apply HW|]. change (g k1 = g k2). congruence.
Qed.
Example C17_md_refuted_ex : exists k1 k2, k1 <> k2 /\ length k1 = 65%nat /\ length k2 = 65%nat /\ exists rs,
  runs env_pc (Amd Asha256) le_flavor (CBytes (Ptr k1) 65) sample = Ok rs /\ runs env_pc (Amd Asha256) le_flavor (CBytes (Ptr k2) 65) sample = Ok rs.
Proof.
  destruct (C17_md_refuted env_pc Asha256 65 env_pc_valid ltac:(lia)) as ([|k1 [|k2 ks]] & ND & HL & HB & HS); [now destruct HL|now destruct HL|].
  exists k1, k2. destruct (HB k1 (or_introl eq_refl)) as [L1 B1]. destruct (HB k2 (or_intror (or_introl eq_refl))) as [L2 B2].
  split; [intros ->; inversion ND; subst; apply H1; now left|]. split; [exact L1|]. split; [exact L2|].
  apply same_on_sample; try exact I; [reflexivity|split; [cbn; lia|exact B1]|split; [cbn; lia|exact B2]|]. apply HS; [now left|right; now left].
Qed.
Lemma C17_xx64 e : valid_env e -> exists x, x <> PropsCrowd.A /\
  same_hasher e Axx64 (CBytes (Ptr (PropsCrowd.crowd64 x)) 64) (CBytes (Ptr (PropsCrowd.crowd64 PropsCrowd.A)) 64).
Proof.
  intros HE. destruct (PropsCrowd.other PropsCrowd.block64 PropsCrowd.block64_cross (XXH64_init 0)) as (x & HX & E). exists x. split; [exact HX|].
  apply same_start; [exact HE|]. cbn [machine_of mc_start blk_machine xx64_start Nat.eqb data].
  assert (L : forall y, firstn 64 (PropsCrowd.crowd64 y) = PropsCrowd.crowd64 y) by (intros []; reflexivity). rewrite !L. unfold xx64_ar.
  change (fold_left XXH64_stripe (chunks 32 (PropsCrowd.crowd64 x)) (XXH64_init 0)) with (PropsCrowd.block64 (XXH64_init 0) x).
  change (fold_left XXH64_stripe (chunks 32 (PropsCrowd.crowd64 PropsCrowd.A)) (XXH64_init 0)) with (PropsCrowd.block64 (XXH64_init 0) PropsCrowd.A).
  rewrite E, !PropsCrowd.crowd64_len. replace (rest 32 (PropsCrowd.crowd64 x)) with (rest 32 (PropsCrowd.crowd64 PropsCrowd.A)) by (now destruct x). reflexivity.
Qed.
Lemma C17_xx32 e : valid_env e -> exists x, x <> PropsCrowd.A /\
  same_hasher e Axx32 (CBytes (Ptr (PropsCrowd.crowd32 x)) 32) (CBytes (Ptr (PropsCrowd.crowd32 PropsCrowd.A)) 32).
Proof.
  intros HE. destruct (PropsCrowd.other PropsCrowd.block32 PropsCrowd.block32_cross (XXH32_init 0)) as (x & HX & E). exists x. split; [exact HX|].
  apply same_start; [exact HE|]. cbn [machine_of mc_start blk_machine xx32_start Nat.eqb data].
  assert (L : forall y, firstn 32 (PropsCrowd.crowd32 y) = PropsCrowd.crowd32 y) by (intros []; reflexivity). rewrite !L. unfold xx32_ar.
  change (fold_left XXH32_stripe (chunks 16 (PropsCrowd.crowd32 x)) (XXH32_init 0)) with (PropsCrowd.block32 (XXH32_init 0) x).
  change (fold_left XXH32_stripe (chunks 16 (PropsCrowd.crowd32 PropsCrowd.A)) (XXH32_init 0)) with (PropsCrowd.block32 (XXH32_init 0) PropsCrowd.A).
  rewrite E, !PropsCrowd.crowd32_len. replace (rest 16 (PropsCrowd.crowd32 x)) with (rest 16 (PropsCrowd.crowd32 PropsCrowd.A)) by (now destruct x). reflexivity.
Qed.
Lemma C17_fnv e k1 k2 : valid_env e -> bytes k1 -> bytes k2 -> length k1 = 8%nat -> length k2 = 8%nat ->
  (FNV1a FNV32 k1 = FNV1a FNV32 k2 -> same_hasher e Afnv32 (CBytes (Ptr k1) 8) (CBytes (Ptr k2) 8)) /\
  (FNV1a FNV64 k1 = FNV1a FNV64 k2 -> same_hasher e Afnv64 (CBytes (Ptr k1) 8) (CBytes (Ptr k2) 8)).
Proof.
  intros HE B1 B2 L1 L2.
  assert (V1 : valid_ctor (CBytes (Ptr k1) 8)) by (split; [lia|exact B1]). assert (V2 : valid_ctor (CBytes (Ptr k2) 8)) by (split; [lia|exact B2]).
  assert (S : forall k, length k = 8%nat -> fnv_start (CBytes (Ptr k) 8) = k).
  { intros k Hk. unfold fnv_start. unfold data. apply firstn_all2. rewrite Hk. reflexivity. }
  split; intros E; (apply same_object; [exact HE|]).
  - refine (eq_trans (fnv_construct FNV32 (e_pf e) (CBytes (Ptr k1) 8) V1) _). refine (eq_trans _ (eq_sym (fnv_construct FNV32 (e_pf e) (CBytes (Ptr k2) 8) V2))).
    now rewrite (S k1 L1), (S k2 L2), E.
  - refine (eq_trans (fnv_construct FNV64 (e_pf e) (CBytes (Ptr k1) 8) V1) _). refine (eq_trans _ (eq_sym (fnv_construct FNV64 (e_pf e) (CBytes (Ptr k2) 8) V2))).
    now rewrite (S k1 L1), (S k2 L2), E.
Qed.
(* doc/hash2/hashing_bytes.adoc:104, for all the algorithms of the library *)
Theorem C17_every_algorithm_refuted e a : valid_env e -> exists k1 k2, k1 <> k2 /\ bytes k1 /\ bytes k2 /\
  same_hasher e a (CBytes (Ptr k1) (length k1)) (CBytes (Ptr k2) (length k2)).
Proof.
  intros HE. destruct a as [m|m| | | | | | | | |].
  - destruct (C17_md_refuted e m 65 HE ltac:(lia)) as ([|k1 [|k2 ks]] & ND & HL & HB & HS); [now destruct HL|now destruct HL|].
    exists k1, k2. destruct (HB k1 (or_introl eq_refl)) as [L1 B1]. destruct (HB k2 (or_intror (or_introl eq_refl))) as [L2 B2].
    split; [intros ->; inversion ND; subst; apply H1; now left|]. split; [exact B1|]. split; [exact B2|]. rewrite L1, L2. apply HS; [now left|right; now left].
  - exists [1], [1; 0]. split; [discriminate|]. split; [repeat constructor|]. split; [repeat constructor|].
    apply (C17_hmac_padding e m [1] 1); [exact HE|repeat constructor|destruct m; cbn; lia].
  - exists (repeat 0 16), []. split; [discriminate|]. split; [repeat constructor|]. split; [constructor|].
    apply same_start; [exact HE|]. reflexivity.
  - exists (repeat 0 8), []. split; [discriminate|]. split; [repeat constructor|]. split; [constructor|].
    apply same_start; [exact HE|]. reflexivity.
  - destruct (C17_xx32 e HE) as (x & HX & HS). exists (PropsCrowd.crowd32 x), (PropsCrowd.crowd32 PropsCrowd.A). rewrite !PropsCrowd.crowd32_len.
    split; [intros E; now apply HX, PropsCrowd.crowd32_inj|]. split; [destruct x; repeat constructor|]. split; [repeat constructor|exact HS].
  - destruct (C17_xx64 e HE) as (x & HX & HS). exists (PropsCrowd.crowd64 x), (PropsCrowd.crowd64 PropsCrowd.A). rewrite !PropsCrowd.crowd64_len.
    split; [intros E; now apply HX, PropsCrowd.crowd64_inj|]. split; [destruct x; repeat constructor|]. split; [repeat constructor|exact HS].
  - exists (toLE 8 473173985494), (toLE 8 491840477661). split; [discriminate|]. split; [repeat constructor|]. split; [repeat constructor|].
    apply (C17_fnv e (toLE 8 473173985494) (toLE 8 491840477661)); [exact HE|repeat constructor|repeat constructor|reflexivity|reflexivity|vm_compute; reflexivity].
  - exists (toLE 8 7785969496509767828), (toLE 8 2033175513144770059). split; [discriminate|]. split; [repeat constructor|]. split; [repeat constructor|].
    apply (C17_fnv e (toLE 8 7785969496509767828) (toLE 8 2033175513144770059)); [exact HE|repeat constructor|repeat constructor|reflexivity|reflexivity|vm_compute; reflexivity].
  - exists [1], [1; 0]. split; [discriminate|]. split; [repeat constructor|]. split; [repeat constructor|].
    apply (C17_murmur32_padding e [1] 1); [exact HE|cbn; lia].
  - exists [1], [1; 0]. split; [discriminate|]. split; [repeat constructor|]. split; [repeat constructor|].
    apply (C17_murmur128_padding e [1] 1); [exact HE|cbn; lia].
  - exists [1], [1; 0]. split; [discriminate|]. split; [repeat constructor|]. split; [repeat constructor|].
    apply (C17_spooky_padding e [1] 1); [exact HE|cbn; lia].
Qed.
Example C17_every_algorithm_refuted_ex : exists k1 k2, k1 <> k2 /\ exists rs,
  runs env_pc Axx64 le_flavor (CBytes (Ptr k1) (length k1)) sample = Ok rs /\ runs env_pc Axx64 le_flavor (CBytes (Ptr k2) (length k2)) sample = Ok rs.
Proof.
  destruct (C17_every_algorithm_refuted env_pc Axx64 env_pc_valid) as (k1 & k2 & HN & B1 & B2 & HS). exists k1, k2. split; [exact HN|].
  apply same_on_sample; try exact I; [reflexivity|split; [cbn; lia|exact B1]|split; [cbn; lia|exact B2]|exact HS].
Qed.

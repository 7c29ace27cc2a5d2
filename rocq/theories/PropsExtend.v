(* C59: length extension.  For the algorithms that output their whole state, the digest of a message determines the
   digests of its extensions, whatever the seed; so seeding these algorithms is not a message authentication code. *)
From Verif Require Import Base BaseFacts SpecCommon Gen Bits GenMD Hasher GenBlk Types ModelResult ModelAppend SpecAppend ProofMsg ProofMsgEq
  Behaves Instances ProofRuns Samples PropsHistory PropsAlg PropsAppend PropsResults ProofLocal ProofMurmurDistinct ProofReduce PropsReduce.
From Verif Require Import SpecMd5 SpecSha1 SpecRipemd SpecSha2 SpecHmac ProofSha2 ProofHmac.
Open Scope N_scope.

(* ---------- the specification ---------- *)
(* the padding of a message of n bytes: 0x80, zeros, the length in bits *)
Definition glue (m : md_alg) (n : nat) : list N :=
  [0x80] ++ repeat 0 ((2 * block_of m - 1 - lb_of m - n mod block_of m) mod block_of m) ++ enc_of m (8 * N.of_nat n).
(* the words of a digest *)
Definition words_le (d : list N) : list N := map LE (chunks 4 d).
Definition words_be (k : nat) (d : list N) : list N := map BE (chunks k d).
Definition of4 (l : list N) : N * N * N * N := match l with [a; b; c; d] => (a, b, c, d) | _ => (0, 0, 0, 0) end.
Definition of5 (l : list N) : N * N * N * N * N := match l with [a; b; c; d; e] => (a, b, c, d, e) | _ => (0, 0, 0, 0, 0) end.
Definition of8 (l : list N) : N * N * N * N * N * N * N * N :=
  match l with [a; b; c; d; e; f; g; h] => (a, b, c, d, e, f, g, h) | _ => (0, 0, 0, 0, 0, 0, 0, 0) end.
(* the chaining value a digest displays *)
Definition state_of (m : md_alg) : list N -> cr_St (core_of m) :=
  match m with
  | Amd5 | Armd128 => fun d => of4 (words_le d)
  | Asha1 => fun d => of5 (words_be 4 d)
  | Armd160 => fun d => of5 (words_le d)
  | Asha256 | Asha224 => fun d => of8 (words_be 4 d)
  | Asha512 | Asha384 | Asha512_224 | Asha512_256 => fun d => of8 (words_be 8 d)
  end.
(* computed from the digest d of an unknown message of n bytes (with the seed's, if any), and x *)
Definition extend (m : md_alg) (d : list N) (n : nat) (x : list N) : list N :=
  cr_out (core_of m) (fold_left (cr_compress (core_of m))
    (chunks (block_of m) (x ++ glue m (n + length (glue m n) + length x))) (state_of m d)).
(* the number of bytes processed: a seed is processed as whole blocks *)
Definition processed (m : md_alg) (c : ctor) (n : nat) : nat := (length (seed_message (pad_of m) c) + n)%nat.

(* ---------- proofs ---------- *)
Lemma chunks_flat k (w : N -> list N) : (0 < k)%nat -> (forall a, length (w a) = k) -> forall l, chunks k (flat_map w l) = map w l.
Proof.
  intros HK HW l. induction l as [|a l IH]; [reflexivity|]. cbn [flat_map map].
  rewrite (chunks_block k HK) by apply HW. now rewrite IH.
Qed.
Lemma words_le_out l : Forall (fun a => a < 2^32) l -> words_le (flat_map (toLE 4) l) = l.
Proof.
  intros H. unfold words_le. rewrite chunks_flat by (lia || (intros; apply toLE_length)). rewrite map_map. induction H as [|a l Ha H IH]; [reflexivity|].
  cbn [map]. rewrite IH. f_equal. change (LE (toLE 4 a)) with (le_val (le_bytes 4 a)). rewrite le_val_bytes. now apply N.mod_small.
Qed.
Lemma words_be_out k l : (0 < k)%nat -> Forall (fun a => a < 2^(8 * N.of_nat k)) l -> words_be k (flat_map (toBE k) l) = l.
Proof.
  intros HK H. unfold words_be. rewrite chunks_flat by (lia || (intros; apply toBE_length)). rewrite map_map. induction H as [|a l Ha H IH]; [reflexivity|].
  cbn [map]. rewrite IH. f_equal. unfold BE, toBE. rewrite rev_involutive. change (LE (toLE k a)) with (le_val (le_bytes k a)). rewrite le_val_bytes.
  rewrite N.pow_mul_r in Ha. now apply N.mod_small.
Qed.
Lemma of4_w h : of4 (w4 h) = h. Proof. now destruct h as [[[? ?] ?] ?]. Qed.
Lemma of5_w h : of5 (w5 h) = h. Proof. now destruct h as [[[[? ?] ?] ?] ?]. Qed.
Lemma of8_w h : of8 (w8 h) = h. Proof. now destruct h as [[[[[[[? ?] ?] ?] ?] ?] ?] ?]. Qed.
Lemma sha2_state F k s b : (0 < wb F)%nat -> k = (8 * wb F)%nat -> w F = 8 * N.of_nat (wb F) -> of8 (words_be (wb F) (firstn k (out F (compress F s b)))) = compress F s b.
Proof.
  intros H0 -> HW. rewrite out8. rewrite firstn_all2 by (rewrite (flat_length (wb F)) by (intros; apply toBE_length); rewrite w8_len; lia).
  pose proof (sha2_words F s b) as H. rewrite HW in H. rewrite words_be_out by assumption. apply of8_w.
Qed.
Lemma state_out m : untruncated m -> forall s b, state_of m (cr_out (core_of m) (cr_compress (core_of m) s b)) = cr_compress (core_of m) s b.
Proof.
  intros HU s b. destruct m; try contradiction; cbn [core_of cr_out cr_compress cr_St state_of] in *.
  - rewrite (proj1 (out4 _)), words_le_out by apply md5_words. apply of4_w.
  - rewrite (proj1 (out5 _)), words_be_out by (lia || apply sha1_words). apply of5_w.
  - rewrite (proj2 (out4 _)), words_le_out by apply rmd128_words. apply of4_w.
  - rewrite (proj2 (out5 _)), words_le_out by apply rmd160_words. apply of5_w.
  - apply (sha2_state F256); (reflexivity || (cbn; lia)).
  - apply (sha2_state F512); (reflexivity || (cbn; lia)).
Qed.
Lemma pad_glue m l : pad_of m l = l ++ glue m (length l).
Proof. rewrite pad_md. reflexivity. Qed.
Lemma pad_mult m l : exists k, length (pad_of m l) = (S k * block_of m)%nat.
Proof.
  pose proof (pad_multiple m l) as H. assert (HB : (0 < block_of m)%nat) by (destruct m; cbn; lia).
  pose proof (Nat.div_mod (length (pad_of m l)) (block_of m) ltac:(lia)) as D. rewrite H in D.
  destruct (length (pad_of m l) / block_of m)%nat as [|k] eqn:E; [|exists k; lia].
  rewrite pad_glue, app_length in D. cbn in D. lia.
Qed.
Lemma last_step {S} (cf : S -> list N -> S) bs s0 : bs <> [] -> exists s b, fold_left cf bs s0 = cf s b.
Proof. intros H. destruct (exists_last H) as (x & b & ->). rewrite fold_left_app. cbn [fold_left]. eauto. Qed.
Lemma chunks_some B (l : list N) k : (0 < B)%nat -> length l = (S k * B)%nat -> chunks B l <> [].
Proof.
  intros HB HL E. assert (H : chunks B l = firstn B l :: chunks B (skipn B l)).
  { rewrite <- (firstn_skipn B l) at 1. apply chunks_block; [exact HB|]. rewrite firstn_length. lia. }
  rewrite E in H. discriminate.
Qed.
Lemma hash_extend m l x : untruncated m -> hash_of m (pad_of m l ++ x) = extend m (hash_of m l) (length l) x.
Proof.
  intros HU. assert (HB : (0 < block_of m)%nat) by (destruct m; cbn; lia). destruct (pad_mult m l) as [k HK]. unfold extend.
  rewrite !hash_core. rewrite (pad_glue m (pad_of m l ++ x)), <- app_assoc, (chunks_app_mult _ HB (S k)) by exact HK.
  rewrite fold_left_app. destruct (last_step (cr_compress (core_of m)) _ (cr_IV (core_of m)) (chunks_some _ _ _ HB HK)) as (s & b & ->).
  rewrite state_out by exact HU. do 4 f_equal. rewrite app_length, (pad_glue m l), app_length. reflexivity.
Qed.
Lemma start_message m c : vstart (pad_of m) c = seed_message (pad_of m) c.
Proof. destruct c as [|n|p n]; reflexivity. Qed.
Lemma digest_of e m f c cs : valid_env e -> valid_ctor c -> valid_pieces (Amd m) cs ->
  runs e (Amd m) f c (hash_pieces cs) = Ok [RDigest (hash_of m (seed_message (pad_of m) c ++ fed cs))].
Proof. intros HE HC HV. rewrite first_result' by (assumption || discriminate). cbn [machine_of md_machine mc_start mc_ar mc_au fst snd]. rewrite start_message. reflexivity. Qed.
Lemma Ok1 {A} (x y : A) : Ok [x] = Ok [y] -> x = y. Proof. now intros [= ->]. Qed.
Lemma RD1 x y : RDigest x = RDigest y -> x = y. Proof. now intros [= ->]. Qed.

Lemma two_results e m f c cs cs' : valid_env e -> valid_ctor c -> valid_pieces (Amd m) cs -> valid_pieces (Amd m) cs' ->
  let l := seed_message (pad_of m) c ++ fed cs in
  runs e (Amd m) f c (hash_pieces cs ++ hash_pieces cs') = Ok [RDigest (hash_of m l); RDigest (hash_of m (pad_of m l ++ fed cs'))].
Proof.
  intros HE HC V V' l. rewrite runs_expected; [|exact HE| |apply room_any; discriminate].
  - unfold expected, hash_pieces. rewrite <- !app_assoc, aprun_app, aprun_updates, asteps_updates.
    cbn [app aprun]. rewrite aprun_app, aprun_updates, asteps_updates.
    cbn [app aprun fst snd machine_of md_machine mc_start mc_ar mc_au]. rewrite start_message. reflexivity.
  - destruct (pieces_valid e (Amd m) c cs HC V) as [_ X]. destruct (pieces_valid e (Amd m) c cs' HC V') as [_ Y]. split; [exact HC|]. now apply Forall_app.
Qed.

(* If d is the digest of an (unknown) message with an (unknown) seed, the digest of the message followed by the padding and any x,
   with the same seed, is computed from d, the number of bytes and x. *)
Theorem C59_extension e m f c cs d x cs' : untruncated m -> valid_env e -> valid_ctor c -> valid_pieces (Amd m) cs -> valid_pieces (Amd m) cs' ->
  runs e (Amd m) f c (hash_pieces cs) = Ok [RDigest d] ->
  let n := processed m c (length (fed cs)) in
  fed cs' = fed cs ++ glue m n ++ x ->
  runs e (Amd m) f c (hash_pieces cs') = Ok [RDigest (extend m d n x)].
Proof.
  intros HU HE HC V V' HR n HF. rewrite digest_of in * by assumption. apply Ok1, RD1 in HR. rewrite HF. apply (f_equal (fun v => Ok [RDigest v])).
  rewrite <- HR. unfold n, processed. rewrite <- app_length, <- hash_extend by exact HU. rewrite pad_glue, <- !app_assoc. reflexivity.
Qed.
(* The second result of an object is computed from the first, the number of bytes, and what is fed in between: the results of an object with a secret seed do not hide the later ones. *)
Theorem C59_predict e m f c cs cs' d r : untruncated m -> valid_env e -> valid_ctor c -> valid_pieces (Amd m) cs -> valid_pieces (Amd m) cs' ->
  runs e (Amd m) f c (hash_pieces cs ++ hash_pieces cs') = Ok [RDigest d; r] ->
  r = RDigest (extend m d (processed m c (length (fed cs))) (fed cs')).
Proof.
  intros HU HE HC V V' HR. rewrite two_results in HR by assumption.
  assert (Q : forall A (a b c d : A), Ok [a; b] = Ok [c; d] -> a = c /\ b = d) by (intros A a b c' d' [= -> ->]; now split).
  apply Q in HR. destruct HR as [H1 H2]. apply RD1 in H1. rewrite <- H2, <- H1. apply (f_equal RDigest).
  unfold processed. rewrite <- app_length. now apply hash_extend.
Qed.
(* Collisions extend: two messages of the same length with the same digest, followed by their padding and any x, collide *)
Theorem C59_collisions e m f c cs1 cs2 cs1' cs2' x : untruncated m -> valid_env e -> valid_ctor c ->
  valid_pieces (Amd m) cs1 -> valid_pieces (Amd m) cs2 -> valid_pieces (Amd m) cs1' -> valid_pieces (Amd m) cs2' ->
  length (fed cs1) = length (fed cs2) -> runs e (Amd m) f c (hash_pieces cs1) = runs e (Amd m) f c (hash_pieces cs2) ->
  fed cs1' = fed cs1 ++ glue m (processed m c (length (fed cs1))) ++ x -> fed cs2' = fed cs2 ++ glue m (processed m c (length (fed cs1))) ++ x ->
  runs e (Amd m) f c (hash_pieces cs1') = runs e (Amd m) f c (hash_pieces cs2').
Proof.
  intros HU HE HC V1 V2 V1' V2' HL HR F1 F2. pose proof (digest_of e m f c cs1 HE HC V1) as D1. pose proof D1 as D2. rewrite HR in D2.
  rewrite (C59_extension e m f c cs1 _ x cs1' HU HE HC V1 V1' D1 F1).
  rewrite HL in F2. rewrite (C59_extension e m f c cs2 _ x cs2' HU HE HC V2 V2' D2 F2). now rewrite HL.
Qed.
(* an object with the seed 7, the message "abc", the extension "d": *)
Definition abc_d (m : md_alg) : list (ptr * nat) :=
  let l := [97; 98; 99] ++ glue m (processed m (CSeed 7) 3) ++ [100] in [(Ptr l, length l)].
Lemma abc_d_valid m : valid_pieces (Amd m) (abc_d m).
Proof. destruct m; repeat constructor; try (cbn; lia); vm_compute; repeat constructor. Qed.
Example C59_extension_ex m : untruncated m -> exists d, runs env_pc (Amd m) le_flavor (CSeed 7) (hash_pieces abc) = Ok [RDigest d] /\
  runs env_pc (Amd m) le_flavor (CSeed 7) (hash_pieces (abc_d m)) = Ok [RDigest (extend m d (block_of m + 3) [100])] /\
  runs env_pc (Amd m) le_flavor (CSeed 7) (hash_pieces abc ++ hash_pieces [(Ptr [100], 1%nat)]) = Ok [RDigest d; RDigest (extend m d (block_of m + 3) [100])].
Proof.
  intros HU. eexists. split; [apply (digest_of env_pc m le_flavor (CSeed 7) abc env_pc_valid eq_refl (abc_valid _))|].
  assert (HP : (block_of m + 3)%nat = processed m (CSeed 7) (length (fed abc))).
  { destruct m; reflexivity. }
  split.
  - rewrite HP. apply (C59_extension env_pc m le_flavor (CSeed 7) abc _ [100] (abc_d m) HU env_pc_valid eq_refl (abc_valid _) (abc_d_valid m)).
    + apply (digest_of env_pc m le_flavor (CSeed 7) abc env_pc_valid eq_refl (abc_valid _)).
    + unfold abc_d, fed. cbv zeta. cbn [map concat fst snd data]. rewrite app_nil_r, firstn_all. reflexivity.
  - assert (V1 : valid_pieces (Amd m) [(Ptr [100], 1%nat)]) by (repeat constructor; cbn; lia).
    pose proof (two_results env_pc m le_flavor (CSeed 7) abc [(Ptr [100], 1%nat)] env_pc_valid eq_refl (abc_valid _) V1) as HR. cbv zeta in HR.
    rewrite HR. rewrite (C59_predict env_pc m le_flavor (CSeed 7) abc [(Ptr [100], 1%nat)] _ _ HU env_pc_valid eq_refl (abc_valid _) V1 HR). rewrite HP. reflexivity.
Qed.

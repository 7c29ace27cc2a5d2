(* hmac< H > for the ten H of the library that have one (md5.hpp:316, sha1.hpp:311,
   ripemd.hpp:802-803, sha2.hpp:795-800). *)
From Verif Require Import Base BaseFacts SpecCommon Hasher SpecHmac ModelHmac ProofHmac.
From Verif Require Import ModelMd5 SpecMd5 ProofMd5 ModelSha1 SpecSha1 ProofSha1.
From Verif Require Import ModelRipemd SpecRipemd ProofRipemd ModelSha2 SpecSha2 ProofSha2.
Open Scope N_scope.

(* digest lengths *)
Lemma toLE_length k v : length (toLE k v) = k.
Proof. change toLE with le_bytes. apply le_bytes_length. Qed.
Lemma toLE_bytes k v : bytes (toLE k v).
Proof. change toLE with le_bytes. apply le_bytes_bytes. Qed.
Lemma toBE_length k v : length (toBE k v) = k.
Proof. unfold toBE. rewrite rev_length. apply toLE_length. Qed.
Lemma toBE_bytes k v : bytes (toBE k v).
Proof. unfold toBE. apply Forall_rev. apply toLE_bytes. Qed.

Ltac dig := repeat (rewrite app_length || rewrite toLE_length || rewrite toBE_length); try reflexivity.
Ltac digb := repeat match goal with |- bytes (?a ++ ?b) => apply Forall_app; split; fold (bytes a); fold (bytes b) end;
  try apply toLE_bytes; try apply toBE_bytes.

Lemma MD5_length l : length (MD5 l) = 16%nat.
Proof. unfold MD5. destruct (fold_left _ _ _) as [[[a b] c] d]. unfold MD5_out. dig. Qed.
Lemma MD5_bytes l : bytes (MD5 l).
Proof. unfold MD5. destruct (fold_left _ _ _) as [[[a b] c] d]. unfold MD5_out. digb. Qed.
Lemma SHA1_length l : length (SHA1 l) = 20%nat.
Proof. unfold SHA1. destruct (fold_left _ _ _) as [[[[a b] c] d] e]. unfold SHA1_out. dig. Qed.
Lemma SHA1_bytes l : bytes (SHA1 l).
Proof. unfold SHA1. destruct (fold_left _ _ _) as [[[[a b] c] d] e]. unfold SHA1_out. digb. Qed.
Lemma RIPEMD128_length l : length (RIPEMD128 l) = 16%nat.
Proof. unfold RIPEMD128. destruct (fold_left _ _ _) as [[[a b] c] d]. unfold RMD128_out. dig. Qed.
Lemma RIPEMD128_bytes l : bytes (RIPEMD128 l).
Proof. unfold RIPEMD128. destruct (fold_left _ _ _) as [[[a b] c] d]. unfold RMD128_out. digb. Qed.
Lemma RIPEMD160_length l : length (RIPEMD160 l) = 20%nat.
Proof. unfold RIPEMD160. destruct (fold_left _ _ _) as [[[[a b] c] d] e]. unfold RMD160_out. dig. Qed.
Lemma RIPEMD160_bytes l : bytes (RIPEMD160 l).
Proof. unfold RIPEMD160. destruct (fold_left _ _ _) as [[[[a b] c] d] e]. unfold RMD160_out. digb. Qed.

Lemma flat_toBE_length k ws : length (flat_map (toBE k) ws) = (k * length ws)%nat.
Proof. induction ws as [|x ws IH]; cbn [flat_map length]; [lia|]. rewrite app_length, toBE_length, IH. lia. Qed.
Lemma flat_toBE_bytes k ws : bytes (flat_map (toBE k) ws).
Proof. induction ws as [|x ws IH]; cbn [flat_map]; [constructor|]. apply Forall_app. split; [apply toBE_bytes|exact IH]. Qed.
Lemma out_length F h : length (out F h) = (wb F * 8)%nat.
Proof. destruct h as [[[[[[[a b] c] d] e] f] g] h]. unfold out. apply flat_toBE_length. Qed.
Lemma out_bytes F h : bytes (out F h).
Proof. destruct h as [[[[[[[a b] c] d] e] f] g] h]. unfold out. apply flat_toBE_bytes. Qed.
Lemma cut_length F h k : (k <= wb F * 8)%nat -> length (firstn k (out F h)) = k.
Proof. intros. rewrite firstn_length, out_length. lia. Qed.
Lemma cut_bytes F h k : bytes (firstn k (out F h)).
Proof. apply bytes_firstn. apply out_bytes. Qed.

Lemma SHA256_64_length l : length (SHA256_64 l) = 32%nat.
Proof. unfold SHA256_64. apply cut_length. cbn. lia. Qed.
Lemma SHA256_64_bytes l : bytes (SHA256_64 l). Proof. apply cut_bytes. Qed.
Lemma SHA224_64_length l : length (SHA224_64 l) = 28%nat.
Proof. unfold SHA224_64. apply cut_length. cbn. lia. Qed.
Lemma SHA224_64_bytes l : bytes (SHA224_64 l). Proof. apply cut_bytes. Qed.
Lemma SHA512_64_length l : length (SHA512_64 l) = 64%nat.
Proof. unfold SHA512_64. apply cut_length. cbn. lia. Qed.
Lemma SHA512_64_bytes l : bytes (SHA512_64 l). Proof. apply cut_bytes. Qed.
Lemma SHA384_64_length l : length (SHA384_64 l) = 48%nat.
Proof. unfold SHA384_64. apply cut_length. cbn. lia. Qed.
Lemma SHA384_64_bytes l : bytes (SHA384_64 l). Proof. apply cut_bytes. Qed.
Lemma SHA512_224_64_length l : length (SHA512_224_64 l) = 28%nat.
Proof. unfold SHA512_224_64. apply cut_length. cbn. lia. Qed.
Lemma SHA512_224_64_bytes l : bytes (SHA512_224_64 l). Proof. apply cut_bytes. Qed.
Lemma SHA512_256_64_length l : length (SHA512_256_64 l) = 32%nat.
Proof. unfold SHA512_256_64. apply cut_length. cbn. lia. Qed.
Lemma SHA512_256_64_bytes l : bytes (SHA512_256_64 l). Proof. apply cut_bytes. Qed.

(* What is proved of hmac<H>: [B] is the block size of H, [D] its digest size, [H] the hash
   function and [pad] its padding. *)
Record hmac_ok (St : Type) (B : nat) (nul : bool) (pad H : list N -> list N) (init : bst St)
    (updf : bst St -> ptr -> nat -> res (bst St)) (resf : bst St -> res (list N * bst St)) (pf : plat) : Prop := {
  ho_default : hmac_init pf (bst St) init updf resf B Null 0 = Ok (hmac_default St B init updf resf pf);
  ho_exec : forall c ops, valid_ctor c -> Forall (valid_op nul) ops ->
    exists s, exec (hmac_class St B init updf resf pf) c ops =
      Ok (hresults pad H (HMAC_ikey B H (hkey c)) (HMAC_okey B H (hkey c)) (segments [] ops), s);
  ho_eq : forall c1 c2 ops1 ops2, valid_ctor c1 -> valid_ctor c2 ->
    Forall (valid_op nul) ops1 -> Forall (valid_op nul) ops2 ->
    HMAC_key B H (hkey c1) = HMAC_key B H (hkey c2) -> segments [] ops1 = segments [] ops2 ->
    exec (hmac_class St B init updf resf pf) c1 ops1 = exec (hmac_class St B init updf resf pf) c2 ops2;
  ho_clear : forall c ops rs s, valid_ctor c -> Forall (valid_op nul) ops ->
    exec (hmac_class St B init updf resf pf) c (ops ++ [OResult]) = Ok (rs, s) ->
    b_m (hm_inner s) = 0%nat /\ b_buf (hm_inner s) = zeros B /\
    b_m (hm_outer s) = 0%nat /\ b_buf (hm_outer s) = zeros B }.

Lemma hmac_ok_intro St B nul pad H init seedf bytesf updf resf D pf :
  md_ok St (list N) B nul pad H init seedf bytesf updf resf ->
  (0 < D <= B)%nat -> (forall l, length (H l) = D) -> (forall l, bytes (H l)) ->
  hmac_ok St B nul pad H init updf resf pf.
Proof.
  intros MO HD HL HB. constructor; intros.
  - eapply hmac_default_ok; eassumption.
  - eapply hmac_exec; eassumption.
  - eapply hmac_exec_eq; eassumption.
  - eapply hmac_result_clear; eassumption.
Qed.

Definition hmac_md5_class (pf : plat) : hasher :=
  hmac_class md5_st 64 md5_init (md5_update pf) (md5_result pf) pf.
Theorem hmac_md5_ok pf : hmac_ok md5_st 64 true MD5_pad MD5 md5_init (md5_update pf) (md5_result pf) pf.
Proof. eapply hmac_ok_intro; [apply md5_ok| |apply MD5_length|apply MD5_bytes]. lia. Qed.
Definition hmac_sha1_class (pf : plat) : hasher :=
  hmac_class sha1_st 64 sha1_init (sha1_update pf) (sha1_result pf) pf.
Theorem hmac_sha1_ok pf : hmac_ok sha1_st 64 true SHA1_pad SHA1 sha1_init (sha1_update pf) (sha1_result pf) pf.
Proof. eapply hmac_ok_intro; [apply sha1_ok| |apply SHA1_length|apply SHA1_bytes]. lia. Qed.
Definition hmac_rmd128_class (pf : plat) : hasher :=
  hmac_class rmd128_st 64 rmd128_init (rmd128_update pf) (rmd128_result pf) pf.
Theorem hmac_rmd128_ok pf : hmac_ok rmd128_st 64 true RMD_pad RIPEMD128 rmd128_init (rmd128_update pf) (rmd128_result pf) pf.
Proof. eapply hmac_ok_intro; [apply rmd128_ok| |apply RIPEMD128_length|apply RIPEMD128_bytes]. lia. Qed.
Definition hmac_rmd160_class (pf : plat) : hasher :=
  hmac_class rmd160_st 64 rmd160_init (rmd160_update pf) (rmd160_result pf) pf.
Theorem hmac_rmd160_ok pf : hmac_ok rmd160_st 64 true RMD_pad RIPEMD160 rmd160_init (rmd160_update pf) (rmd160_result pf) pf.
Proof. eapply hmac_ok_intro; [apply rmd160_ok| |apply RIPEMD160_length|apply RIPEMD160_bytes]. lia. Qed.
Definition hmac_sha2_256_class (pf : plat) : hasher :=
  hmac_class sha256_st 64 sha2_256_init (sha256_update pf) (sha2_256_result pf) pf.
Theorem hmac_sha2_256_ok pf : hmac_ok sha256_st 64 false pad256 SHA256_64 sha2_256_init (sha256_update pf) (sha2_256_result pf) pf.
Proof. eapply hmac_ok_intro; [apply sha2_256_ok| |apply SHA256_64_length|apply SHA256_64_bytes]. lia. Qed.
Definition hmac_sha2_224_class (pf : plat) : hasher :=
  hmac_class sha256_st 64 sha2_224_init (sha256_update pf) (sha2_224_result pf) pf.
Theorem hmac_sha2_224_ok pf : hmac_ok sha256_st 64 false pad256 SHA224_64 sha2_224_init (sha256_update pf) (sha2_224_result pf) pf.
Proof. eapply hmac_ok_intro; [apply sha2_224_ok| |apply SHA224_64_length|apply SHA224_64_bytes]. lia. Qed.
Definition hmac_sha2_512_class (pf : plat) : hasher :=
  hmac_class sha512_st 128 sha2_512_init (sha512_update pf) (sha2_512_result pf) pf.
Theorem hmac_sha2_512_ok pf : hmac_ok sha512_st 128 false pad512 SHA512_64 sha2_512_init (sha512_update pf) (sha2_512_result pf) pf.
Proof. eapply hmac_ok_intro; [apply sha2_512_ok| |apply SHA512_64_length|apply SHA512_64_bytes]. lia. Qed.
Definition hmac_sha2_384_class (pf : plat) : hasher :=
  hmac_class sha512_st 128 sha2_384_init (sha512_update pf) (sha2_384_result pf) pf.
Theorem hmac_sha2_384_ok pf : hmac_ok sha512_st 128 false pad512 SHA384_64 sha2_384_init (sha512_update pf) (sha2_384_result pf) pf.
Proof. eapply hmac_ok_intro; [apply sha2_384_ok| |apply SHA384_64_length|apply SHA384_64_bytes]. lia. Qed.
Definition hmac_sha2_512_224_class (pf : plat) : hasher :=
  hmac_class sha512_st 128 sha2_512_224_init (sha512_update pf) (sha2_512_224_result pf) pf.
Theorem hmac_sha2_512_224_ok pf : hmac_ok sha512_st 128 false pad512 SHA512_224_64 sha2_512_224_init (sha512_update pf) (sha2_512_224_result pf) pf.
Proof. eapply hmac_ok_intro; [apply sha2_512_224_ok| |apply SHA512_224_64_length|apply SHA512_224_64_bytes]. lia. Qed.
Definition hmac_sha2_512_256_class (pf : plat) : hasher :=
  hmac_class sha512_st 128 sha2_512_256_init (sha512_update pf) (sha2_512_256_result pf) pf.
Theorem hmac_sha2_512_256_ok pf : hmac_ok sha512_st 128 false pad512 SHA512_256_64 sha2_512_256_init (sha512_update pf) (sha2_512_256_result pf) pf.
Proof. eapply hmac_ok_intro; [apply sha2_512_256_ok| |apply SHA512_256_64_length|apply SHA512_256_64_bytes]. lia. Qed.

(* HMAC depends on H only through its values *)
Lemma HMAC_ext B H H' K t : H K = H' K -> H (HMAC_ikey B H' K ++ t) = H' (HMAC_ikey B H' K ++ t) ->
  (forall x, length x = (length (HMAC_okey B H' K) + length (H' (HMAC_ikey B H' K ++ t)))%nat -> H x = H' x) ->
  HMAC B H K t = HMAC B H' K t.
Proof.
  intros E1 E2 E3. assert (EK : HMAC_key B H K = HMAC_key B H' K).
  { unfold HMAC_key. destruct (Nat.leb _ _); rewrite ?E1; reflexivity. }
  unfold HMAC. assert (EO : HMAC_okey B H K = HMAC_okey B H' K) by (unfold HMAC_okey; now rewrite EK).
  assert (EI : HMAC_ikey B H K = HMAC_ikey B H' K) by (unfold HMAC_ikey; now rewrite EK).
  rewrite EO, EI, E2. apply E3. now rewrite app_length.
Qed.
Lemma HMAC_key_len B H D K : (D <= B)%nat -> (forall l, length (H l) = D) -> length (HMAC_key B H K) = B.
Proof.
  intros HD HL. unfold HMAC_key. rewrite app_length, repeat_length.
  destruct (Nat.leb_spec (length K) B); rewrite ?HL; lia.
Qed.
Lemma HMAC_64 H H' D K t : (D <= 128)%nat -> (forall l, length (H l) = D) ->
  (forall l, 8 * N.of_nat (length l) < 2^64 -> H' l = H l) ->
  8 * N.of_nat (length K) < 2^64 -> 8 * N.of_nat (128 + length t) < 2^64 ->
  HMAC 128 H' K t = HMAC 128 H K t.
Proof.
  intros HD HL HE HK HT. pose proof (HMAC_key_len 128 H D K HD HL) as LK. apply HMAC_ext.
  - now apply HE.
  - apply HE. unfold HMAC_ikey. rewrite app_length, map_length, LK. exact HT.
  - intros x Hx. apply HE. unfold HMAC_okey in Hx. rewrite map_length, LK, HL in Hx. rewrite Hx.
    apply N.lt_le_trans with (8 * 257); [lia|]. vm_compute. discriminate.
Qed.

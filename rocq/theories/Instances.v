(* All hash algorithms of the library behind one interface. *)
From Verif Require Import Base BaseFacts SpecCommon Hasher GenBlk Loops Types ModelResult ModelAppend SpecAppend
  ProofMsg ProofAppend Behaves.
From Verif Require Import SpecMd5 SpecSha1 SpecRipemd SpecSha2 SpecSip SpecXxh SpecFnv SpecMurmur SpecSpooky SpecHmac.
From Verif Require Import ModelMd5 ModelSha1 ModelRipemd ModelSha2.
From Verif Require Import ProofMd5 ProofSha1 ProofRipemd ProofSha2 ProofSip ProofXxh ProofFnv ProofMurmur ProofSpooky.
From Verif Require Import ProofHmac ProofHmacInst.
Open Scope N_scope.

(* The hash algorithms: include/boost/hash2/{md5,sha1,sha2,ripemd,siphash,xxhash,fnv1a}.hpp,
   include/boost/hash2/legacy/{murmur3,spooky2}.hpp and the hmac_ typedefs.  (The typedefs of
   md5.hpp, sha1.hpp, sha2.hpp and ripemd.hpp: hmac_md5_128, hmac_sha1_160, hmac_sha2_*,
   hmac_ripemd_*.) *)
Inductive md_alg := Amd5 | Asha1 | Armd128 | Armd160
  | Asha256 | Asha224 | Asha512 | Asha384 | Asha512_224 | Asha512_256.
(* all of them, with the hmac_ typedefs: md5.hpp:316, sha1.hpp:311, sha2.hpp:795-800, ripemd.hpp:802-803 *)
Inductive alg := Amd (a : md_alg) | Ahmac (a : md_alg)
  | Asip64 | Asip32 | Axx32 | Axx64 | Afnv32 | Afnv64 | Amur32 | Amur128 | Aspooky.

(* The environment of an execution: the implementation (ModelAppend.v: byte order, constant or
   run-time evaluation, sizeof(void* ), ...), 2^w for a size_t of w bits, and the contents of
   uninitialised buffers of k bytes. *)
Record env := { e_impl : impl; e_cw : N; e_junk : nat -> list N }.
(* what is assumed of it *)
Definition valid_env (e : env) : Prop :=
  (e_cw e = 2^32 \/ e_cw e = 2^64) /\ (forall k, length (e_junk e k) = k).
Definition e_pf (e : env) : plat := im_pf (e_impl e).
Definition e_le (e : env) : bool := p_le (e_pf e).

(* results: an unsigned integer or a digest *)
Inductive result := RInt (s : isz) (x : N) | RDigest (d : list N).

(* an algorithm in an environment: its class, its result and its 64-bit integral result,
   get_integral_result<std::uint64_t> *)
Record packed := { pk_h : hasher; pk_out : h_R pk_h -> result; pk_gir : h_R pk_h -> res N }.
(* a class whose result_type is digest<N> or std::array<unsigned char, N> *)
Definition pack_digest (e : env) (h : hasher) (E : h_R h = list N) : packed :=
  {| pk_h := h; pk_out := fun r => RDigest (eq_rect _ (fun T => T) r _ E);
     pk_gir := fun r => gir_digest (e_pf e) I64 (eq_rect _ (fun T => T) r _ E) |}.
(* a class whose result_type is an unsigned integer *)
Definition pack_int (s : isz) (h : hasher) (E : h_R h = N) : packed :=
  {| pk_h := h; pk_out := fun r => RInt s (eq_rect _ (fun T => T) r _ E);
     pk_gir := fun r => gir_int I64 s (eq_rect _ (fun T => T) r _ E) |}.
(* the classes modelled in Model*.v *)
Definition pack (e : env) (a : alg) : packed :=
  match a with
  | Amd Amd5 => pack_digest e (md5_class (e_pf e)) eq_refl
  | Amd Asha1 => pack_digest e (sha1_class (e_pf e)) eq_refl
  | Amd Armd128 => pack_digest e (rmd128_class (e_pf e)) eq_refl
  | Amd Armd160 => pack_digest e (rmd160_class (e_pf e)) eq_refl
  | Amd Asha256 => pack_digest e (sha2_256_class (e_pf e)) eq_refl
  | Amd Asha224 => pack_digest e (sha2_224_class (e_pf e)) eq_refl
  | Amd Asha512 => pack_digest e (sha2_512_class (e_pf e)) eq_refl
  | Amd Asha384 => pack_digest e (sha2_384_class (e_pf e)) eq_refl
  | Amd Asha512_224 => pack_digest e (sha2_512_224_class (e_pf e)) eq_refl
  | Amd Asha512_256 => pack_digest e (sha2_512_256_class (e_pf e)) eq_refl
  | Ahmac Amd5 => pack_digest e (hmac_md5_class (e_pf e)) eq_refl
  | Ahmac Asha1 => pack_digest e (hmac_sha1_class (e_pf e)) eq_refl
  | Ahmac Armd128 => pack_digest e (hmac_rmd128_class (e_pf e)) eq_refl
  | Ahmac Armd160 => pack_digest e (hmac_rmd160_class (e_pf e)) eq_refl
  | Ahmac Asha256 => pack_digest e (hmac_sha2_256_class (e_pf e)) eq_refl
  | Ahmac Asha224 => pack_digest e (hmac_sha2_224_class (e_pf e)) eq_refl
  | Ahmac Asha512 => pack_digest e (hmac_sha2_512_class (e_pf e)) eq_refl
  | Ahmac Asha384 => pack_digest e (hmac_sha2_384_class (e_pf e)) eq_refl
  | Ahmac Asha512_224 => pack_digest e (hmac_sha2_512_224_class (e_pf e)) eq_refl
  | Ahmac Asha512_256 => pack_digest e (hmac_sha2_512_256_class (e_pf e)) eq_refl
  | Asip64 => pack_int I64 (sip64_class (e_pf e)) eq_refl
  | Asip32 => pack_int I32 (sip32_class (e_pf e)) eq_refl
  | Axx32 => pack_int I32 (xx32_class (e_cw e) (e_pf e)) eq_refl
  | Axx64 => pack_int I64 (xx64_class (2^64) (e_pf e)) eq_refl
  | Afnv32 => pack_int I32 (fnv32_class (e_pf e)) eq_refl
  | Afnv64 => pack_int I64 (fnv64_class (e_pf e)) eq_refl
  | Amur32 => pack_int I32 (mur32_class (e_cw e) (e_le e) (e_junk e 4)) eq_refl
  | Amur128 => pack_digest e (mur128_class (e_cw e) (e_le e) (e_junk e 16)) eq_refl
  | Aspooky => pack_digest e (sp_class (e_cw e) (e_le e) (e_junk e 192)) eq_refl
  end.

(* update( nullptr, 0 ) is a valid call, except for the SHA-2 family (see C19) *)
Definition nul_md (a : md_alg) : bool :=
  match a with Amd5 | Asha1 | Armd128 | Armd160 => true | _ => false end.
Definition nul_of (a : alg) : bool :=
  match a with Amd m | Ahmac m => nul_md m | _ => true end.

(* A user program on algorithm [a] in environment [e], starting with constructor [c]; its
   results. *)
Definition runs (e : env) (a : alg) (f : flavor) (c : ctor) (xs : list ustep) : res (list result) :=
  rs <- program (pk_h (pack e a)) (pk_gir (pack e a)) (e_impl e) f c xs ;;
  Ok (map (pk_out (pack e a)) rs).
(* Valid programs: constructor and calls are valid (Behaves.v: valid_step). *)
Definition valid_program (e : env) (a : alg) (c : ctor) (xs : list ustep) : Prop :=
  valid_ctor c /\ Forall (valid_step (nul_of a) (e_impl e)) xs.

(* ------------------------------------------------------------------ *)
(* Abstract machines *)
Record machine := { mc_A : Type; mc_au : mc_A -> list N -> mc_A; mc_ar : mc_A -> result * mc_A;
                    mc_start : ctor -> mc_A }.

Definition md_machine (pad H : list N -> list N) : machine :=
  {| mc_A := list N; mc_au := fun l d => l ++ d; mc_ar := fun l => (RDigest (H l), pad l);
     mc_start := vstart pad |}.
Definition hmac_machine (B : nat) (pad H : list N -> list N) : machine :=
  {| mc_A := list N * list N; mc_au := fun a d => (fst a ++ d, snd a);
     mc_ar := fun a => (RDigest (H (snd a ++ H (fst a))), (pad (fst a), pad (snd a ++ H (fst a))));
     mc_start := fun c => (HMAC_ikey B H (hkey c), HMAC_okey B H (hkey c)) |}.
Definition blk_machine {St R} (ar : ast St -> R * ast St) (out : R -> result) (start : ctor -> ast St) : machine :=
  {| mc_A := ast St; mc_au := ab_au; mc_ar := fun a => (out (fst (ar a)), snd (ar a)); mc_start := start |}.
Definition fnv_machine (F : FNV) (s : isz) : machine :=
  {| mc_A := list N; mc_au := fun l d => l ++ d; mc_ar := fun l => (RInt s (FNV1a F l), fnv_pad l); mc_start := fnv_start |}.

Definition block_of (a : md_alg) : nat :=
  match a with Asha512 | Asha384 | Asha512_224 | Asha512_256 => 128%nat | _ => 64%nat end.
Definition pad_of (a : md_alg) : list N -> list N :=
  match a with
  | Amd5 => MD5_pad | Asha1 => SHA1_pad | Armd128 | Armd160 => RMD_pad
  | Asha256 | Asha224 => pad256
  | Asha512 | Asha384 | Asha512_224 | Asha512_256 => pad512
  end.
Definition hash_of (a : md_alg) : list N -> list N :=
  match a with
  | Amd5 => MD5 | Asha1 => SHA1 | Armd128 => RIPEMD128 | Armd160 => RIPEMD160
  | Asha256 => SHA256_64 | Asha224 => SHA224_64
  | Asha512 => SHA512_64 | Asha384 => SHA384_64 | Asha512_224 => SHA512_224_64 | Asha512_256 => SHA512_256_64
  end.
Definition size_of_md (a : md_alg) : nat :=
  match a with
  | Amd5 => 16 | Asha1 => 20 | Armd128 => 16 | Armd160 => 20
  | Asha256 => 32 | Asha224 => 28 | Asha512 => 64 | Asha384 => 48 | Asha512_224 => 28 | Asha512_256 => 32
  end%nat.
Definition machine_of (cw : N) (a : alg) : machine :=
  match a with
  | Amd m => md_machine (pad_of m) (hash_of m)
  | Ahmac m => hmac_machine (block_of m) (pad_of m) (hash_of m)
  | Asip64 => blk_machine (sip_ar F64) (RInt I64) sip64_start
  | Asip32 => blk_machine (sip_ar F32) (RInt I32) sip32_start
  | Axx32 => blk_machine (xx32_ar cw) (RInt I32) (xx32_start cw)
  | Axx64 => blk_machine (xx64_ar (2^64)) (RInt I64) (xx64_start (2^64))
  | Afnv32 => fnv_machine FNV32 I32
  | Afnv64 => fnv_machine FNV64 I64
  | Amur32 => blk_machine (mur32_ar cw) (RInt I32) (mur32_start cw)
  | Amur128 => blk_machine (mur128_ar cw) RDigest (mur128_start cw)
  | Aspooky => blk_machine (sp_ar cw) RDigest (sp_start cw)
  end.
(* the limit of the spooky2 counter *)
Definition roomy (e : env) (a : alg) : ctor -> nat -> Prop :=
  match a with
  | Aspooky => fun c L => ctor_weight c + N.of_nat L < e_cw e
  | _ => fun _ _ => True
  end.

(* ------------------------------------------------------------------ *)
Lemma fits_true {A R} (au : A -> list N -> A) (ar : A -> R * A) (ok : A -> Prop) :
  (forall a, ok a) -> fits_laws au ar ok (fun _ _ => True).
Proof. intros H. constructor; trivial. Qed.

Lemma behaves_true h nul {A R} (au : A -> list N -> A) (ar' : A -> h_R h * A) ok Rel start (out : h_R h -> R) ar cf :
  refines h nul A au ar' ok Rel -> (forall a, ok a) ->
  (forall a, out (fst (ar' a)) = fst (ar a) /\ snd (ar' a) = snd (ar a)) ->
  (forall c, valid_ctor c -> exists s, construct h c = Ok s /\ Rel (start c) s) ->
  behaves h nul au ar start out cf.
Proof.
  intros RF OK HO HC. exists Rel, ar', ok, (fun _ _ => True). split; [exact RF|].
  split; [now apply fits_true|]. split; [exact HO|]. intros c L V _. destruct (HC c V) as (s & E & R0). eauto.
Qed.

Definition beh (e : env) (a : alg) : Prop :=
  behaves (pk_h (pack e a)) (nul_of a) (mc_au (machine_of (e_cw e) a)) (mc_ar (machine_of (e_cw e) a))
    (mc_start (machine_of (e_cw e) a)) (pk_out (pack e a)) (roomy e a).

Lemma md_behaves e St B nul pad H init seedf bytesf updf resf cf :
  md_ok St (list N) B nul pad H init seedf bytesf updf resf ->
  behaves (Build_hasher (bst St) (list N) init seedf bytesf updf resf) nul
    (mc_au (md_machine pad H)) (mc_ar (md_machine pad H)) (mc_start (md_machine pad H))
    (pk_out (pack_digest e (Build_hasher (bst St) (list N) init seedf bytesf updf resf) eq_refl)) cf.
Proof.
  intros MO. destruct (mo_refines _ _ _ _ _ _ _ _ _ _ _ MO) as (Rel & _ & RF & _ & _ & HC).
  eapply behaves_true; [exact RF|intros; exact I| |exact HC]. intros a. split; reflexivity.
Qed.
Lemma hmac_behaves e St B nul pad H init seedf bytesf updf resf D pf cf :
  md_ok St (list N) B nul pad H init seedf bytesf updf resf ->
  (0 < D <= B)%nat -> (forall l, length (H l) = D) -> (forall l, bytes (H l)) ->
  behaves (hmac_class St B init updf resf pf) nul
    (mc_au (hmac_machine B pad H)) (mc_ar (hmac_machine B pad H)) (mc_start (hmac_machine B pad H))
    (pk_out (pack_digest e (hmac_class St B init updf resf pf) eq_refl)) cf.
Proof.
  intros MO HD HL HB. destruct (hmac_spec _ _ _ _ _ _ _ _ _ _ MO D HD HL HB pf) as (Rel & RF & HI & _ & _).
  eapply behaves_true; [exact RF|intros; exact I| |].
  - intros a. split; reflexivity.
  - intros c HC. rewrite (hmac_construct_eq _ _ _ _ _ _ _ _ _ _ MO D HD HL HB pf c HC).
    destruct c as [|n|p n]; cbn [hkey mc_start hmac_machine].
    + cbn [length Nat.eqb]. apply (HI Null 0%nat). split; reflexivity.
    + destruct (n =? 0).
      * cbn [length Nat.eqb]. apply (HI Null 0%nat). split; reflexivity.
      * change toLE with le_bytes. rewrite le_bytes_length. cbn [Nat.eqb].
        destruct (HI (Ptr (le_bytes 8 n)) 8%nat) as (s & E1 & R1).
        { split; [rewrite le_bytes_length; lia|apply le_bytes_bytes]. }
        cbn [data] in R1. rewrite firstn_all2 in R1 by (rewrite le_bytes_length; lia). eauto.
    + apply HI. exact HC.
Qed.
Lemma blk_behaves (pk : packed) nul St (ar : ast St -> h_R (pk_h pk) * ast St) ok Rel start cf :
  refines (pk_h pk) nul (ast St) ab_au ar ok Rel -> (forall a, ok a) ->
  (forall c, valid_ctor c -> exists s, construct (pk_h pk) c = Ok s /\ Rel (start c) s) ->
  behaves (pk_h pk) nul (mc_au (blk_machine ar (pk_out pk) start)) (mc_ar (blk_machine ar (pk_out pk) start))
    (mc_start (blk_machine ar (pk_out pk) start)) (pk_out pk) cf.
Proof.
  intros RF OK HC. eapply behaves_true; [exact RF|exact OK| |exact HC]. intros a. split; reflexivity.
Qed.
Lemma fnv_behaves F s pf cf :
  behaves (fnv_class F pf) true (mc_au (fnv_machine F s)) (mc_ar (fnv_machine F s)) (mc_start (fnv_machine F s))
    (pk_out (pack_int s (fnv_class F pf) eq_refl)) cf.
Proof.
  apply (behaves_true (fnv_class F pf) true (fun l d => l ++ d) (fun l => (FNV1a F l, fnv_pad l)) (fun _ => True)
           (fun l x => x = FNV1a F l)).
  - constructor.
    + intros l x p n -> _ V _. eexists. split; [cbn [h_update fnv_class]; exact (fnv_update_ok F _ p n true V)|].
      apply fnv_app.
    + intros l x -> _ _. eexists. split; [reflexivity|]. unfold fnv_pad. cbn [snd]. now rewrite <- fnv_app.
    + intros l. apply app_nil_r.
    + intros l d1 d2. symmetry. apply app_assoc.
  - trivial.
  - intros l. split; reflexivity.
  - intros c HC. eexists. split; [now apply fnv_construct|reflexivity].
Qed.

(* the room left in a spooky2 object *)
Lemma sp_fits cw : (cw = 2^32 \/ cw = 2^64) ->
  fits_laws ab_au (sp_ar cw) (okB ModelSpooky.sp_st 192 cw) (fun a L => let '(_, c, l) := a in c + N.of_nat (length l) + N.of_nat L < cw).
Proof.
  intros Hcw. constructor.
  - intros [[st c] l] L H. unfold okB. right. lia.
  - intros [[st c] l] L L' H HL. lia.
  - intros [[st c] l] d L H. unfold ab_au. rewrite app_length. lia.
  - intros [[st c] l] L H. unfold sp_ar. cbn [snd length]. pose proof (sp_next_le cw Hcw c (length l)). lia.
Qed.

Theorem alg_behaves e a : valid_env e -> beh e a.
Proof.
  intros [Hcw HJ]. unfold beh. destruct a as [m|m| | | | | | | | | ].
  - destruct m; cbn [pack nul_of nul_md machine_of pad_of hash_of roomy].
    + exact (md_behaves e _ 64 _ _ _ _ _ _ _ _ _ (md5_ok (e_pf e))).
    + exact (md_behaves e _ 64 _ _ _ _ _ _ _ _ _ (sha1_ok (e_pf e))).
    + exact (md_behaves e _ 64 _ _ _ _ _ _ _ _ _ (rmd128_ok (e_pf e))).
    + exact (md_behaves e _ 64 _ _ _ _ _ _ _ _ _ (rmd160_ok (e_pf e))).
    + exact (md_behaves e _ 64 _ _ _ _ _ _ _ _ _ (sha2_256_ok (e_pf e))).
    + exact (md_behaves e _ 64 _ _ _ _ _ _ _ _ _ (sha2_224_ok (e_pf e))).
    + exact (md_behaves e _ 128 _ _ _ _ _ _ _ _ _ (sha2_512_ok (e_pf e))).
    + exact (md_behaves e _ 128 _ _ _ _ _ _ _ _ _ (sha2_384_ok (e_pf e))).
    + exact (md_behaves e _ 128 _ _ _ _ _ _ _ _ _ (sha2_512_224_ok (e_pf e))).
    + exact (md_behaves e _ 128 _ _ _ _ _ _ _ _ _ (sha2_512_256_ok (e_pf e))).
  - destruct m; cbn [pack nul_of nul_md machine_of pad_of hash_of block_of roomy].
    + refine (hmac_behaves e _ _ _ _ _ _ _ _ _ _ _ (e_pf e) _ (md5_ok (e_pf e)) _ MD5_length MD5_bytes). lia.
    + refine (hmac_behaves e _ _ _ _ _ _ _ _ _ _ _ (e_pf e) _ (sha1_ok (e_pf e)) _ SHA1_length SHA1_bytes). lia.
    + refine (hmac_behaves e _ _ _ _ _ _ _ _ _ _ _ (e_pf e) _ (rmd128_ok (e_pf e)) _ RIPEMD128_length RIPEMD128_bytes). lia.
    + refine (hmac_behaves e _ _ _ _ _ _ _ _ _ _ _ (e_pf e) _ (rmd160_ok (e_pf e)) _ RIPEMD160_length RIPEMD160_bytes). lia.
    + refine (hmac_behaves e _ _ _ _ _ _ _ _ _ _ _ (e_pf e) _ (sha2_256_ok (e_pf e)) _ SHA256_64_length SHA256_64_bytes). lia.
    + refine (hmac_behaves e _ _ _ _ _ _ _ _ _ _ _ (e_pf e) _ (sha2_224_ok (e_pf e)) _ SHA224_64_length SHA224_64_bytes). lia.
    + refine (hmac_behaves e _ _ _ _ _ _ _ _ _ _ _ (e_pf e) _ (sha2_512_ok (e_pf e)) _ SHA512_64_length SHA512_64_bytes). lia.
    + refine (hmac_behaves e _ _ _ _ _ _ _ _ _ _ _ (e_pf e) _ (sha2_384_ok (e_pf e)) _ SHA384_64_length SHA384_64_bytes). lia.
    + refine (hmac_behaves e _ _ _ _ _ _ _ _ _ _ _ (e_pf e) _ (sha2_512_224_ok (e_pf e)) _ SHA512_224_64_length SHA512_224_64_bytes). lia.
    + refine (hmac_behaves e _ _ _ _ _ _ _ _ _ _ _ (e_pf e) _ (sha2_512_256_ok (e_pf e)) _ SHA512_256_64_length SHA512_256_64_bytes). lia.
  - eapply (blk_behaves (pack e Asip64)); [apply sip64_refines|apply ok64_true|apply sip64_construct].
  - eapply (blk_behaves (pack e Asip32)); [apply sip32_refines|apply ok32_true|apply sip32_construct].
  - eapply (blk_behaves (pack e Axx32)); [now apply xx32_refines|now apply xx32_ok_true|now apply xx32_construct].
  - eapply (blk_behaves (pack e Axx64)); [now apply xx64_refines|now apply xx64_ok_true|now apply xx64_construct].
  - apply (fnv_behaves FNV32 I32).
  - apply (fnv_behaves FNV64 I64).
  - eapply (blk_behaves (pack e Amur32)); [now apply mur32_refines|now apply mur32_ok_true|].
    intros c HC. apply mur32_construct; auto.
  - eapply (blk_behaves (pack e Amur128)); [now apply mur128_refines|now apply mur128_ok_true|].
    intros c HC. apply mur128_construct; auto.
  - eexists _, _, _, _. split; [now apply (sp_refines (e_cw e) Hcw (e_le e) (e_junk e 192))|].
    split; [now apply sp_fits|]. split; [intros a; split; reflexivity|].
    intros c L HC HR. cbn [roomy] in HR.
    destruct (sp_construct (e_cw e) Hcw (e_le e) (e_junk e 192) c (HJ _) HC ltac:(lia)) as (s & E1 & R1).
    exists s. split; [exact E1|]. split; [exact R1|].
    pose proof (sp_start_weight (e_cw e) Hcw c HC) as HW.
    cbn [machine_of mc_start blk_machine]. destruct (sp_start (e_cw e) c) as [[st k] l]. lia.
Qed.

(* the 64-bit integral result, as a function of the result *)
Definition result64 (r : result) : N :=
  match r with
  | RInt s x => (x * multiplier I64 s) mod 2^64
  | RDigest d => LE (firstn 8 d)
  end.
Definition digest_result (r : result) : Prop :=
  match r with RInt _ _ => True | RDigest d => bytes d /\ (8 <= length d)%nat end.
Lemma hash_bytes m l : bytes (hash_of m l).
Proof.
  destruct m; cbn [hash_of].
  - apply MD5_bytes. - apply SHA1_bytes. - apply RIPEMD128_bytes. - apply RIPEMD160_bytes.
  - apply SHA256_64_bytes. - apply SHA224_64_bytes. - apply SHA512_64_bytes. - apply SHA384_64_bytes.
  - apply SHA512_224_64_bytes. - apply SHA512_256_64_bytes.
Qed.
Lemma hash_length m l : length (hash_of m l) = size_of_md m.
Proof.
  destruct m; cbn [hash_of size_of_md].
  - apply MD5_length. - apply SHA1_length. - apply RIPEMD128_length. - apply RIPEMD160_length.
  - apply SHA256_64_length. - apply SHA224_64_length. - apply SHA512_64_length. - apply SHA384_64_length.
  - apply SHA512_224_64_length. - apply SHA512_256_64_length.
Qed.
Lemma size_of_md_8 m : (8 <= size_of_md m)%nat.
Proof. destruct m; cbn; lia. Qed.
Lemma machine_digest cw a s : digest_result (fst (mc_ar (machine_of cw a) s)).
Proof.
  destruct a as [m|m| | | | | | | | | ]; cbn [machine_of] in *; try exact I.
  - split; [apply hash_bytes|]. rewrite hash_length. apply size_of_md_8.
  - split; [apply hash_bytes|]. rewrite hash_length. apply size_of_md_8.
  - destruct s as [[st c] l]. cbn [mc_ar blk_machine mur128_ar fst digest_result]. unfold Mur128_final.
    destruct (fold_left _ _ _) as [h1 h2]. split.
    + apply bytes_app. split; apply toLE_bytes.
    + rewrite app_length, !toLE_length. lia.
  - destruct s as [[st c] l]. cbn [mc_ar blk_machine sp_ar fst digest_result]. split.
    + apply bytes_app. split; apply toLE_bytes.
    + rewrite app_length, !toLE_length. lia.
Qed.
Lemma gir_digest64 pf d : bytes d -> (8 <= length d)%nat -> gir_digest pf I64 d = Ok (LE (firstn 8 d)).
Proof.
  intros HB HL. unfold gir_digest. rewrite read64le_ok' by (assumption || now apply bytes_firstn). cbn [bind].
  change LE with le_val. f_equal. apply N.mod_small.
  pose proof (le_val_bound (firstn 8 d) (bytes_firstn 8 d HB)) as H. rewrite firstn_length_le in H by exact HL. exact H.
Qed.
Lemma gir_int64 s x : gir_int I64 s x = Ok ((x * multiplier I64 s) mod 2^64).
Proof.
  unfold gir_int. destruct s; cbn [ibytes Nat.ltb Nat.leb promoted_mul wider bind];
  change (2 ^ ibits I64) with (2^64); now rewrite N.mod_mod.
Qed.
Lemma pack_gir e a r : digest_result (pk_out (pack e a) r) -> pk_gir (pack e a) r = Ok (result64 (pk_out (pack e a) r)).
Proof.
  assert (HD : forall h E (r : h_R h), digest_result (pk_out (pack_digest e h E) r) ->
            pk_gir (pack_digest e h E) r = Ok (result64 (pk_out (pack_digest e h E) r))).
  { intros h E r0 [H1 H2]. now apply gir_digest64. }
  assert (HI : forall s h E (r : h_R h),
            pk_gir (pack_int s h E) r = Ok (result64 (pk_out (pack_int s h E) r))).
  { intros s h E r0. apply gir_int64. }
  destruct a as [m|m| | | | | | | | | ]; try (destruct m); cbn [pack] in r |- *; intros H.
  all: try (apply HI). all: apply HD; exact H.
Qed.

Definition room (e : env) (a : alg) (c : ctor) (xs : list ustep) : Prop := roomy e a c (weight xs).
Theorem runs_ok e a f c xs : valid_env e -> valid_program e a c xs -> room e a c xs ->
  runs e a f c xs = Ok (aprun (mc_au (machine_of (e_cw e) a)) (mc_ar (machine_of (e_cw e) a)) result64
                          (call_message (e_impl e) f) (mc_start (machine_of (e_cw e) a) c) xs).
Proof.
  intros HE (HC & HX) HR. unfold runs.
  destruct (program_ok _ _ _ _ _ _ _ _ _ (alg_behaves e a HE) (pk_gir (pack e a)) result64
    ltac:(intros s r E; apply pack_gir; rewrite E; apply machine_digest) (e_impl e) f c xs HC HX HR) as (rs & E & M).
  rewrite E. cbn [bind]. now rewrite M.
Qed.

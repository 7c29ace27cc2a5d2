(* Floating point values in programs: what hash_append feeds is the bit pattern of v + 0, computed
   by the IEEE 754 arithmetic of Flocq in the rounding mode in force; values that compare equal are
   interchangeable. *)
From Coq Require Import NArith ZArith Lia.
From Flocq Require IEEE754.BinarySingleNaN IEEE754.Binary IEEE754.Bits.
From Verif Require Import Base BaseFacts SpecCommon Hasher GenBlk Types ModelResult ModelAppend SpecAppend
  ProofMsg ProofMsgEq ProofMsgExt ProofAppend Behaves ProofSpooky Instances ProofRuns PropsHistory PropsAppend ProofFloat Samples.
Import IEEE754.Bits.
Open Scope N_scope.

Theorem C26_float32 e a f c pre z md post : valid_env e -> im_down (e_impl e) = downward md ->
  Binary.is_nan 24 128 (b32_of_bits z) = false ->
  valid_program e a c (pre ++ [SAppend TFlt32 (VInt z)] ++ post) -> room e a c (pre ++ [SAppend TFlt32 (VInt z)] ++ post) ->
  exists rs, runs e a f c (pre ++ [SAppend TFlt32 (VInt z)] ++ post) = Ok rs /\
             runs e a f c (pre ++ [feed (int_bytes f I32 (bits_of_b32 (b32_plus md (b32_of_bits z) (b32_of_bits 0))))] ++ post) = Ok rs.
Proof.
  intros HE HD HN HV HR. destruct (valid_call _ _ _ _ _ _ HV) as [HT _]. cbn [call_ok has_type form_ok] in HT. unfold in_int in HT.
  change (8 * Z.of_nat (ibytes I32))%Z with 32%Z in HT.
  assert (HB : Z.to_N z < 2 ^ 32) by (change (2^32) with (Z.to_N (2^32)); lia).
  replace (int_bytes f I32 _) with (message (e_impl e) f TFlt32 (VInt z) (fun _ => 0)).
  - now apply append_feeds_ordered.
  - unfold message, int_bytes. cbn [msg ibytes].
    rewrite (C26_float32_plus_zero (e_impl e) md (Z.to_N z) HD HB).
    + rewrite Z2N.id by lia. destruct (fl_order f); reflexivity.
    + rewrite C27_float32_nan by exact HB. rewrite Z2N.id by lia. rewrite HN. discriminate.
Qed.
Example C26_float32_ex a : exists rs,
  runs env_pc a be32_flavor (CSeed 7) (sample ++ [SAppend TFlt32 (VInt 1065353216)] ++ [SResult]) = Ok rs /\
  runs env_pc a be32_flavor (CSeed 7) (sample ++ [feed (int_bytes be32_flavor I32 (bits_of_b32 (b32_plus BinarySingleNaN.mode_NE (b32_of_bits 1065353216) (b32_of_bits 0))))] ++ [SResult]) = Ok rs.
Proof. apply C26_float32; [exact env_pc_valid|reflexivity|reflexivity|ex_side|ex_side]. Qed.
Theorem C26_float64 e a f c pre z md post : valid_env e -> im_down (e_impl e) = downward md ->
  Binary.is_nan 53 1024 (b64_of_bits z) = false ->
  valid_program e a c (pre ++ [SAppend TFlt64 (VInt z)] ++ post) -> room e a c (pre ++ [SAppend TFlt64 (VInt z)] ++ post) ->
  exists rs, runs e a f c (pre ++ [SAppend TFlt64 (VInt z)] ++ post) = Ok rs /\
             runs e a f c (pre ++ [feed (int_bytes f I64 (bits_of_b64 (b64_plus md (b64_of_bits z) (b64_of_bits 0))))] ++ post) = Ok rs.
Proof.
  intros HE HD HN HV HR. destruct (valid_call _ _ _ _ _ _ HV) as [HT _]. cbn [call_ok has_type form_ok] in HT. unfold in_int in HT.
  change (8 * Z.of_nat (ibytes I64))%Z with 64%Z in HT.
  assert (HB : Z.to_N z < 2 ^ 64) by (change (2^64) with (Z.to_N (2^64)); lia).
  replace (int_bytes f I64 _) with (message (e_impl e) f TFlt64 (VInt z) (fun _ => 0)).
  - now apply append_feeds_ordered.
  - unfold message, int_bytes. cbn [msg ibytes].
    rewrite (C26_float64_plus_zero (e_impl e) md (Z.to_N z) HD HB).
    + rewrite Z2N.id by lia. destruct (fl_order f); reflexivity.
    + rewrite C27_float64_nan by exact HB. rewrite Z2N.id by lia. rewrite HN. discriminate.
Qed.
Example C26_float64_ex a : exists rs,
  runs env_pc a be32_flavor (CSeed 7) (sample ++ [SAppend TFlt64 (VInt 4607182418800017408)] ++ [SResult]) = Ok rs /\
  runs env_pc a be32_flavor (CSeed 7) (sample ++ [feed (int_bytes be32_flavor I64 (bits_of_b64 (b64_plus BinarySingleNaN.mode_NE (b64_of_bits 4607182418800017408) (b64_of_bits 0))))] ++ [SResult]) = Ok rs.
Proof. apply C26_float64; [exact env_pc_valid|reflexivity|reflexivity|ex_side|ex_side]. Qed.

(* x == y implies the same effect, == being Flocq's comparison; rounding to nearest (or any mode
   but towards -infinity) *)
Theorem C27_floats32 e a f c pre z1 z2 post : valid_env e -> im_down (e_impl e) = false ->
  b32_compare (b32_of_bits z1) (b32_of_bits z2) = Some Eq ->
  valid_program e a c (pre ++ [SAppend TFlt32 (VInt z1)] ++ post) -> room e a c (pre ++ [SAppend TFlt32 (VInt z1)] ++ post) ->
  valid_program e a c (pre ++ [SAppend TFlt32 (VInt z2)] ++ post) -> room e a c (pre ++ [SAppend TFlt32 (VInt z2)] ++ post) ->
  exists rs, runs e a f c (pre ++ [SAppend TFlt32 (VInt z1)] ++ post) = Ok rs /\
             runs e a f c (pre ++ [SAppend TFlt32 (VInt z2)] ++ post) = Ok rs.
Proof.
  intros HE HD HC V1 R1 V2 R2. apply C27_equal_values; try assumption.
  apply C27_float32_equal; [apply (valid_call _ _ _ _ _ _ V1)|apply (valid_call _ _ _ _ _ _ V2)|exact HC].
Qed.
Example C27_floats32_ex a : exists rs,
  runs env_pc a be32_flavor (CSeed 7) (sample ++ [SAppend TFlt32 (VInt 0)] ++ [SResult]) = Ok rs /\
  runs env_pc a be32_flavor (CSeed 7) (sample ++ [SAppend TFlt32 (VInt (2^31))] ++ [SResult]) = Ok rs.
Proof. apply C27_floats32; [exact env_pc_valid|reflexivity|reflexivity|ex_side..]. Qed.
Theorem C27_floats64 e a f c pre z1 z2 post : valid_env e -> im_down (e_impl e) = false ->
  b64_compare (b64_of_bits z1) (b64_of_bits z2) = Some Eq ->
  valid_program e a c (pre ++ [SAppend TFlt64 (VInt z1)] ++ post) -> room e a c (pre ++ [SAppend TFlt64 (VInt z1)] ++ post) ->
  valid_program e a c (pre ++ [SAppend TFlt64 (VInt z2)] ++ post) -> room e a c (pre ++ [SAppend TFlt64 (VInt z2)] ++ post) ->
  exists rs, runs e a f c (pre ++ [SAppend TFlt64 (VInt z1)] ++ post) = Ok rs /\
             runs e a f c (pre ++ [SAppend TFlt64 (VInt z2)] ++ post) = Ok rs.
Proof.
  intros HE HD HC V1 R1 V2 R2. apply C27_equal_values; try assumption.
  apply C27_float64_equal; [apply (valid_call _ _ _ _ _ _ V1)|apply (valid_call _ _ _ _ _ _ V2)|exact HC].
Qed.
Example C27_floats64_ex a : exists rs,
  runs env_pc a be32_flavor (CSeed 7) (sample ++ [SAppend TFlt64 (VInt 0)] ++ [SResult]) = Ok rs /\
  runs env_pc a be32_flavor (CSeed 7) (sample ++ [SAppend TFlt64 (VInt (2^63))] ++ [SResult]) = Ok rs.
Proof. apply C27_floats64; [exact env_pc_valid|reflexivity|reflexivity|ex_side..]. Qed.
(* -0.0f and +0.0f *)
Example C27_zeros : b32_compare (b32_of_bits 0) (b32_of_bits (2^31)) = Some Eq /\
  b64_compare (b64_of_bits 0) (b64_of_bits (2^63)) = Some Eq.
Proof. split; reflexivity. Qed.

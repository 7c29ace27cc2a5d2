(* C61: a message after which fnv1a does not see zero bytes. *)
From Verif Require Import Base BaseFacts SpecCommon Gen GenMD Hasher GenBlk Types ModelResult ModelAppend SpecAppend
  Behaves Instances ProofRuns Samples PropsHistory PropsAlg PropsAppend.
From Verif Require Import SpecFnv ProofFnv.
Open Scope N_scope.

(* the shortest messages with the hash 0 (C. Noll, FNV hash history) *)
Definition zero32 : list N := [0xcc; 0x24; 0x31; 0xc4].
Definition zero64 : list N := [0xd5; 0x6b; 0xb9; 0x53; 0x42; 0x87; 0x08; 0x36].
Lemma fnv_zeros F k : FNV1a_from F 0 (repeat 0 k) = 0.
Proof. induction k as [|k IH]; [reflexivity|]. cbn [repeat FNV1a_from fold_left]. exact IH. Qed.
(* For every k, the default-constructed object hashes this message followed by k zero bytes to 0. *)
Theorem C61_fnv32 e f cs k : valid_env e -> valid_pieces Afnv32 cs -> fed cs = zero32 ++ repeat 0 k ->
  runs e Afnv32 f CDefault (hash_pieces cs) = Ok [RInt I32 0].
Proof.
  intros HE HV HF. rewrite first_result' by (assumption || exact I || discriminate). cbn [machine_of fnv_machine mc_start mc_ar mc_au fst fnv_start app].
  rewrite HF, <- fnv_app. apply (f_equal (fun x => Ok [RInt I32 x])). exact (fnv_zeros FNV32 k).
Qed.
Theorem C61_fnv64 e f cs k : valid_env e -> valid_pieces Afnv64 cs -> fed cs = zero64 ++ repeat 0 k ->
  runs e Afnv64 f CDefault (hash_pieces cs) = Ok [RInt I64 0].
Proof.
  intros HE HV HF. rewrite first_result' by (assumption || exact I || discriminate). cbn [machine_of fnv_machine mc_start mc_ar mc_au fst fnv_start app].
  rewrite HF, <- fnv_app. apply (f_equal (fun x => Ok [RInt I64 x])). exact (fnv_zeros FNV64 k).
Qed.
Example C61_fnv32_ex : runs env_be Afnv32 le_flavor CDefault (hash_pieces [(Ptr zero32, 4%nat); (Ptr [0; 0; 0; 0], 3%nat)]) = Ok [RInt I32 0].
Proof. apply (C61_fnv32 env_be le_flavor _ 3 env_be_valid); [repeat constructor; cbn; lia|reflexivity]. Qed.
Example C61_fnv64_ex : runs env_pc Afnv64 le_flavor CDefault (hash_pieces [(Ptr zero64, 8%nat); (Ptr [0; 0; 0; 0], 3%nat)]) = Ok [RInt I64 0].
Proof. apply (C61_fnv64 env_pc le_flavor _ 3 env_pc_valid); [repeat constructor; cbn; lia|reflexivity]. Qed.

(* Claims of the documentation that do not hold. *)
From Verif Require Import Base BaseFacts SpecCommon Hasher GenBlk Types ModelResult ModelAppend SpecAppend
  Behaves Instances ProofRuns PropsHistory Samples PropsAlg.
From Verif Require Import SpecRipemd.
Open Scope N_scope.

(* doc/hash2/hashing_bytes.adoc:299: "RIPEMD-128 is a truncated variant of RIPEMD-160".  In every
   environment the message "abc" is a counterexample: the digest of ripemd_128 is not a part of the
   digest of ripemd_160, at any offset. *)
Definition digest_at (e : env) (a : md_alg) (d : list N) : Prop := forall f, runs e (Amd a) f CDefault (hash_pieces abc) = Ok [RDigest d].
Theorem C07_truncation_refuted e : valid_env e -> exists d128 d160, digest_at e Armd128 d128 /\ digest_at e Armd160 d160 /\
  forall i, firstn 16 (skipn i d160) <> d128.
Proof.
  intros HE. exists (toBE 16 0xc14a12199c66e4ba84636b0f69144c77), (toBE 20 0x8eb208f7e05d987a9b044a8e98c6b087f15a0bfc). split; [|split].
  - intros f. exact (eq_trans (C07_ripemd128 e f abc HE (abc_valid _)) (eq_trans (eq_sym (C07_ripemd128 env_pc le_flavor abc env_pc_valid (abc_valid _))) C07_ripemd128_ex)).
  - intros f. exact (eq_trans (C06_ripemd160 e f abc HE (abc_valid _)) (eq_trans (eq_sym (C06_ripemd160 env_pc le_flavor abc env_pc_valid (abc_valid _))) C06_ripemd160_ex)).
  - intros i. do 5 (destruct i as [|i]; [intros E; apply (f_equal (hd 0)) in E; vm_compute in E; discriminate E|]). intros E. apply (f_equal (@length N)) in E. rewrite firstn_length, skipn_length in E.
    change (length (toBE 20 _)) with 20%nat in E. change (length (toBE 16 _)) with 16%nat in E. lia.
Qed.

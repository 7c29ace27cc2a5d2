(* FNV-1a (Fowler/Noll/Vo; draft-eastlake-fnv): hash = offset_basis; for each octet:
   hash = hash xor octet; hash = hash * FNV_prime. *)
From Coq Require Import List Arith NArith.
From Verif Require Import SpecCommon.
Import ListNotations.
Open Scope N_scope.

Record FNV := { fnv_w : N; fnv_prime : N; fnv_basis : N }.
(* 32 bit: FNV_prime = 2^24 + 2^8 + 0x93, offset_basis = 2166136261 *)
Definition FNV32 : FNV := {| fnv_w := 32; fnv_prime := 2^24 + 2^8 + 0x93; fnv_basis := 2166136261 |}.
(* 64 bit: FNV_prime = 2^40 + 2^8 + 0xb3, offset_basis = 14695981039346656037 *)
Definition FNV64 : FNV := {| fnv_w := 64; fnv_prime := 2^40 + 2^8 + 0xb3; fnv_basis := 14695981039346656037 |}.

Definition FNV1a_octet (F : FNV) (hash octet : N) : N :=
  MUL (fnv_w F) (N.lxor hash octet) (fnv_prime F).
Definition FNV1a_from (F : FNV) (hash : N) (l : list N) : N := fold_left (FNV1a_octet F) l hash.
Definition FNV1a (F : FNV) (l : list N) : N := FNV1a_from F (fnv_basis F) l.

(* published test vectors: "a", "foobar" *)
Example fnv1a32_a : FNV1a FNV32 [97] = 0xe40c292c. Proof. reflexivity. Qed.
Example fnv1a32_foobar : FNV1a FNV32 [102;111;111;98;97;114] = 0xbf9cf968. Proof. reflexivity. Qed.
Example fnv1a64_foobar : FNV1a FNV64 [102;111;111;98;97;114] = 0x85944171f73967e8. Proof. reflexivity. Qed.

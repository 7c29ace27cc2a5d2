(* XXH32 and XXH64, after doc/xxhash_spec.md of the xxHash distribution (Y. Collet). *)
From Coq Require Import List Arith NArith.
From Verif Require Import SpecCommon.
Import ListNotations.
Open Scope N_scope.

Definition XXH_acc := (N * N * N * N)%type.          (* acc1, acc2, acc3, acc4 *)

(* ------------------------------------------------------------------ XXH32 *)
Definition PRIME32_1 : N := 0x9E3779B1.
Definition PRIME32_2 : N := 0x85EBCA77.
Definition PRIME32_3 : N := 0xC2B2AE3D.
Definition PRIME32_4 : N := 0x27D4EB2F.
Definition PRIME32_5 : N := 0x165667B1.

(* step 1: initialize internal accumulators; seed - PRIME is modulo 2^32 *)
Definition XXH32_init (seed : N) : XXH_acc :=
  ((seed + PRIME32_1 + PRIME32_2) mod 2^32, (seed + PRIME32_2) mod 2^32,
   seed mod 2^32, (seed + (2^32 - PRIME32_1)) mod 2^32).

(* step 2: process stripes of four 4-byte lanes *)
Definition XXH32_round (acc lane : N) : N :=
  MUL 32 (ROTL 32 13 (ADD 32 acc (MUL 32 lane PRIME32_2))) PRIME32_1.
Definition lane32 (i : nat) (stripe : list N) : N := LE (firstn 4 (skipn (4 * i) stripe)).
Definition XXH32_stripe (acc : XXH_acc) (stripe : list N) : XXH_acc :=
  let '(a1, a2, a3, a4) := acc in
  (XXH32_round a1 (lane32 0 stripe), XXH32_round a2 (lane32 1 stripe),
   XXH32_round a3 (lane32 2 stripe), XXH32_round a4 (lane32 3 stripe)).

(* step 3: accumulator convergence *)
Definition XXH32_converge (acc : XXH_acc) : N :=
  let '(a1, a2, a3, a4) := acc in
  ADD 32 (ADD 32 (ADD 32 (ROTL 32 1 a1) (ROTL 32 7 a2)) (ROTL 32 12 a3)) (ROTL 32 18 a4).

(* step 5: consume remaining input (fewer than 16 bytes) *)
Definition XXH32_word (acc : N) (w : list N) : N :=
  MUL 32 (ROTL 32 17 (ADD 32 acc (MUL 32 (LE w) PRIME32_3))) PRIME32_4.
Definition XXH32_byte (acc b : N) : N :=
  MUL 32 (ROTL 32 11 (ADD 32 acc (MUL 32 b PRIME32_5))) PRIME32_1.
Definition XXH32_consume (acc : N) (tail : list N) : N :=
  fold_left XXH32_byte (rest 4 tail) (fold_left XXH32_word (chunks 4 tail) acc).

(* step 6: final mix (avalanche) *)
Definition XXH32_avalanche (acc : N) : N :=
  let acc := N.lxor acc (SHR 15 acc) in
  let acc := MUL 32 acc PRIME32_2 in
  let acc := N.lxor acc (SHR 13 acc) in
  let acc := MUL 32 acc PRIME32_3 in
  N.lxor acc (SHR 16 acc).

(* the whole algorithm; inputs of fewer than 16 bytes start at step 4 with seed + PRIME5 *)
Definition XXH32 (seed : N) (l : list N) : N :=
  let acc := if Nat.ltb (length l) 16 then ADD 32 seed PRIME32_5
             else XXH32_converge (fold_left XXH32_stripe (chunks 16 l) (XXH32_init seed)) in
  let acc := ADD 32 acc (N.of_nat (length l)) in       (* step 4: add input length *)
  XXH32_avalanche (XXH32_consume acc (rest 16 l)).

(* ------------------------------------------------------------------ XXH64 *)
Definition PRIME64_1 : N := 0x9E3779B185EBCA87.
Definition PRIME64_2 : N := 0xC2B2AE3D27D4EB4F.
Definition PRIME64_3 : N := 0x165667B19E3779F9.
Definition PRIME64_4 : N := 0x85EBCA77C2B2AE63.
Definition PRIME64_5 : N := 0x27D4EB2F165667C5.

Definition XXH64_init (seed : N) : XXH_acc :=
  ((seed + PRIME64_1 + PRIME64_2) mod 2^64, (seed + PRIME64_2) mod 2^64,
   seed mod 2^64, (seed + (2^64 - PRIME64_1)) mod 2^64).

Definition XXH64_round (acc lane : N) : N :=
  MUL 64 (ROTL 64 31 (ADD 64 acc (MUL 64 lane PRIME64_2))) PRIME64_1.
Definition lane64 (i : nat) (stripe : list N) : N := LE (firstn 8 (skipn (8 * i) stripe)).
Definition XXH64_stripe (acc : XXH_acc) (stripe : list N) : XXH_acc :=
  let '(a1, a2, a3, a4) := acc in
  (XXH64_round a1 (lane64 0 stripe), XXH64_round a2 (lane64 1 stripe),
   XXH64_round a3 (lane64 2 stripe), XXH64_round a4 (lane64 3 stripe)).

Definition XXH64_merge (acc accN : N) : N :=
  ADD 64 (MUL 64 (N.lxor acc (XXH64_round 0 accN)) PRIME64_1) PRIME64_4.
Definition XXH64_converge (acc : XXH_acc) : N :=
  let '(a1, a2, a3, a4) := acc in
  let a := ADD 64 (ADD 64 (ADD 64 (ROTL 64 1 a1) (ROTL 64 7 a2)) (ROTL 64 12 a3)) (ROTL 64 18 a4) in
  XXH64_merge (XXH64_merge (XXH64_merge (XXH64_merge a a1) a2) a3) a4.

Definition XXH64_dword (acc : N) (w : list N) : N :=
  ADD 64 (MUL 64 (ROTL 64 27 (N.lxor acc (XXH64_round 0 (LE w)))) PRIME64_1) PRIME64_4.
Definition XXH64_word (acc : N) (w : list N) : N :=
  ADD 64 (MUL 64 (ROTL 64 23 (N.lxor acc (MUL 64 (LE w) PRIME64_1))) PRIME64_2) PRIME64_3.
Definition XXH64_byte (acc b : N) : N :=
  MUL 64 (ROTL 64 11 (N.lxor acc (MUL 64 b PRIME64_5))) PRIME64_1.
(* remaining input (fewer than 32 bytes): 8-byte lanes, then 4-byte lanes, then bytes *)
Definition XXH64_consume (acc : N) (tail : list N) : N :=
  let t := rest 8 tail in
  fold_left XXH64_byte (rest 4 t) (fold_left XXH64_word (chunks 4 t)
    (fold_left XXH64_dword (chunks 8 tail) acc)).

Definition XXH64_avalanche (acc : N) : N :=
  let acc := N.lxor acc (SHR 33 acc) in
  let acc := MUL 64 acc PRIME64_2 in
  let acc := N.lxor acc (SHR 29 acc) in
  let acc := MUL 64 acc PRIME64_3 in
  N.lxor acc (SHR 32 acc).

Definition XXH64 (seed : N) (l : list N) : N :=
  let acc := if Nat.ltb (length l) 32 then ADD 64 seed PRIME64_5
             else XXH64_converge (fold_left XXH64_stripe (chunks 32 l) (XXH64_init seed)) in
  let acc := ADD 64 acc (N.of_nat (length l)) in
  XXH64_avalanche (XXH64_consume acc (rest 32 l)).

(* published test vectors *)
Example xxh32_empty : XXH32 0 [] = 0x02CC5D05. Proof. vm_compute. reflexivity. Qed.
Example xxh32_abc : XXH32 0 [97; 98; 99] = 0x32D153FF. Proof. vm_compute. reflexivity. Qed.
Example xxh64_empty : XXH64 0 [] = 0xEF46DB3751D8E999. Proof. vm_compute. reflexivity. Qed.
Example xxh64_abc : XXH64 0 [97; 98; 99] = 0x44BC2CF5AD770999. Proof. vm_compute. reflexivity. Qed.

(* MurmurHash3 (A. Appleby, MurmurHash3.cpp, public domain). *)
From Coq Require Import List Arith NArith.
From Verif Require Import SpecCommon.
Import ListNotations.
Open Scope N_scope.

(* ------------------------------------------------------------------ MurmurHash3_x86_32 *)
Definition Mur32_k (k1 : N) : N := MUL 32 (ROTL 32 15 (MUL 32 k1 0xcc9e2d51)) 0x1b873593.
(* body: one 4-byte block *)
Definition Mur32_block (h1 : N) (block : list N) : N :=
  ADD 32 (MUL 32 (ROTL 32 13 (N.lxor h1 (Mur32_k (LE block)))) 5) 0xe6546b64.
Definition fmix32 (h : N) : N :=
  let h := N.lxor h (SHR 16 h) in
  let h := MUL 32 h 0x85ebca6b in
  let h := N.lxor h (SHR 13 h) in
  let h := MUL 32 h 0xc2b2ae35 in
  N.lxor h (SHR 16 h).
(* tail (at most 3 bytes) and finalization; [len] is the length as passed to the reference
   function (a 32-bit quantity there) *)
Definition Mur32_final (h1 len : N) (tail : list N) : N :=
  fmix32 (N.lxor (N.lxor h1 (Mur32_k (LE tail))) (len mod 2^32)).
Definition MurmurHash3_x86_32 (seed : N) (l : list N) : N :=
  Mur32_final (fold_left Mur32_block (chunks 4 l) seed) (N.of_nat (length l)) (rest 4 l).

(* ------------------------------------------------------------------ MurmurHash3_x64_128 *)
Definition Mur128_k1 (k1 : N) : N := MUL 64 (ROTL 64 31 (MUL 64 k1 0x87c37b91114253d5)) 0x4cf5ad432745937f.
Definition Mur128_k2 (k2 : N) : N := MUL 64 (ROTL 64 33 (MUL 64 k2 0x4cf5ad432745937f)) 0x87c37b91114253d5.
Definition Mur128_block (h : N * N) (block : list N) : N * N :=
  let '(h1, h2) := h in
  let h1 := N.lxor h1 (Mur128_k1 (LE (firstn 8 block))) in
  let h1 := ADD 64 (MUL 64 (ADD 64 (ROTL 64 27 h1) h2) 5) 0x52dce729 in
  let h2 := N.lxor h2 (Mur128_k2 (LE (skipn 8 block))) in
  let h2 := ADD 64 (MUL 64 (ADD 64 (ROTL 64 31 h2) h1) 5) 0x38495ab5 in
  (h1, h2).
Definition fmix64 (k : N) : N :=
  let k := N.lxor k (SHR 33 k) in
  let k := MUL 64 k 0xff51afd7ed558ccd in
  let k := N.lxor k (SHR 33 k) in
  let k := MUL 64 k 0xc4ceb9fe1a85ec53 in
  N.lxor k (SHR 33 k).
(* tail (at most 15 bytes: the first 8 form k1, the others k2) and finalization; the output
   is h1, h2 as 16 little-endian bytes *)
Definition Mur128_final (h : N * N) (len : N) (tail : list N) : list N :=
  let '(h1, h2) := h in
  let h2 := N.lxor h2 (Mur128_k2 (LE (skipn 8 tail))) in
  let h1 := N.lxor h1 (Mur128_k1 (LE (firstn 8 tail))) in
  let h1 := N.lxor h1 len in
  let h2 := N.lxor h2 len in
  let h1 := ADD 64 h1 h2 in
  let h2 := ADD 64 h2 h1 in
  let h1 := fmix64 h1 in
  let h2 := fmix64 h2 in
  let h1 := ADD 64 h1 h2 in
  let h2 := ADD 64 h2 h1 in
  toLE 8 h1 ++ toLE 8 h2.
(* h1 and h2 start as the seed; the generalization to two seeds is the library's *)
Definition MurmurHash3_x64_128 (seed1 seed2 : N) (l : list N) : list N :=
  Mur128_final (fold_left Mur128_block (chunks 16 l) (seed1, seed2)) (N.of_nat (length l)) (rest 16 l).

(* known values *)
Example mur32_empty : MurmurHash3_x86_32 0 [] = 0. Proof. vm_compute. reflexivity. Qed.
Example mur32_test : MurmurHash3_x86_32 0x9747b28c [116;101;115;116] = 0x704b81dc. Proof. vm_compute. reflexivity. Qed.

(* RFC 1321, The MD5 Message-Digest Algorithm. *)
From Coq Require Import List Arith NArith.
From Verif Require Import SpecCommon.
Import ListNotations.
Open Scope N_scope.

Definition MD5_word := (N * N * N * N)%type.

(* RFC 1321 3.4 *)
Definition MD5_F (i : nat) (X Y Z : N) : N :=
  match (i / 16)%nat with
  | 0%nat => N.lor (N.land X Y) (N.land (NOT 32 X) Z)
  | 1%nat => N.lor (N.land X Z) (N.land Y (NOT 32 Z))
  | 2%nat => N.lxor (N.lxor X Y) Z
  | _ => N.lxor Y (N.lor X (NOT 32 Z))
  end.

(* the word index used by step i *)
Definition MD5_k (i : nat) : nat :=
  match (i / 16)%nat with
  | 0%nat => i
  | 1%nat => ((5 * i + 1) mod 16)%nat
  | 2%nat => ((3 * i + 5) mod 16)%nat
  | _ => ((7 * i) mod 16)%nat
  end.

(* the shift amounts, per round, repeating with period 4 *)
Definition MD5_s (i : nat) : N :=
  nth (i mod 4) (nth (i / 16) [[7; 12; 17; 22]; [5; 9; 14; 20]; [4; 11; 16; 23]; [6; 10; 15; 21]] []) 0.

(* T[i+1] = floor( 4294967296 * abs( sin( i + 1 ) ) ), RFC 1321 3.4 and its table *)
Definition MD5_T : list N :=
 [0xd76aa478; 0xe8c7b756; 0x242070db; 0xc1bdceee; 0xf57c0faf; 0x4787c62a; 0xa8304613; 0xfd469501;
  0x698098d8; 0x8b44f7af; 0xffff5bb1; 0x895cd7be; 0x6b901122; 0xfd987193; 0xa679438e; 0x49b40821;
  0xf61e2562; 0xc040b340; 0x265e5a51; 0xe9b6c7aa; 0xd62f105d; 0x02441453; 0xd8a1e681; 0xe7d3fbc8;
  0x21e1cde6; 0xc33707d6; 0xf4d50d87; 0x455a14ed; 0xa9e3e905; 0xfcefa3f8; 0x676f02d9; 0x8d2a4c8a;
  0xfffa3942; 0x8771f681; 0x6d9d6122; 0xfde5380c; 0xa4beea44; 0x4bdecfa9; 0xf6bb4b60; 0xbebfbc70;
  0x289b7ec6; 0xeaa127fa; 0xd4ef3085; 0x04881d05; 0xd9d4d039; 0xe6db99e5; 0x1fa27cf8; 0xc4ac5665;
  0xf4292244; 0x432aff97; 0xab9423a7; 0xfc93a039; 0x655b59c3; 0x8f0ccc92; 0xffeff47d; 0x85845dd1;
  0x6fa87e4f; 0xfe2ce6e0; 0xa3014314; 0x4e0811a1; 0xf7537e82; 0xbd3af235; 0x2ad7d2bb; 0xeb86d391].

(* a = b + ((a + F(b,c,d) + X[k] + T[i]) <<< s), then the roles rotate *)
Definition MD5_step (X : list N) (v : MD5_word) (i : nat) : MD5_word :=
  let '(a, b, c, d) := v in
  (d,
   ADD 32 b (ROTL 32 (MD5_s i)
     (ADD 32 (ADD 32 (ADD 32 a (MD5_F i b c d)) (nth (MD5_k i) X 0)) (nth i MD5_T 0))),
   b, c).

Definition MD5_compress (H : MD5_word) (block : list N) : MD5_word :=
  let X := map LE (chunks 4 block) in
  let '(a, b, c, d) := fold_left (MD5_step X) (seq 0 64) H in
  let '(A, B, C, D) := H in
  (ADD 32 A a, ADD 32 B b, ADD 32 C c, ADD 32 D d).

Definition MD5_IV : MD5_word := (0x67452301, 0xefcdab89, 0x98badcfe, 0x10325476).

(* the bit length is appended modulo 2^64, RFC 1321 3.2 *)
Definition MD5_pad (l : list N) : list N := MDpad 64 8 (toLE 8) l.

Definition MD5_out (H : MD5_word) : list N :=
  let '(A, B, C, D) := H in toLE 4 A ++ toLE 4 B ++ toLE 4 C ++ toLE 4 D.

Definition MD5 (l : list N) : list N :=
  MD5_out (fold_left MD5_compress (chunks 64 (MD5_pad l)) MD5_IV).

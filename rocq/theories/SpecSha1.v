(* RFC 3174 / FIPS 180-4, SHA-1. *)
From Coq Require Import List Arith NArith.
From Verif Require Import SpecCommon.
Import ListNotations.
Open Scope N_scope.

Definition SHA1_word := (N * N * N * N * N)%type.

(* RFC 3174 section 5 *)
Definition SHA1_f (t : nat) (B C D : N) : N :=
  match (t / 20)%nat with
  | 0%nat => N.lor (N.land B C) (N.land (NOT 32 B) D)
  | 2%nat => N.lor (N.lor (N.land B C) (N.land B D)) (N.land C D)
  | _ => N.lxor (N.lxor B C) D
  end.
(* K(t) = floor( 2^30 * sqrt( 2, 3, 5, 10 ) ) *)
Definition SHA1_K (t : nat) : N := N.sqrt (nth (t / 20) [2; 3; 5; 10] 0 * 2^60).

(* RFC 3174 section 6.1 (b): W(t) for t = 16 .. 79 *)
Fixpoint SHA1_extend (n : nat) (W : list N) : list N :=
  match n with
  | O => W
  | S n' => let t := length W in
            SHA1_extend n' (W ++ [ROTL 32 1 (N.lxor (N.lxor (N.lxor
              (nth (t - 3) W 0) (nth (t - 8) W 0)) (nth (t - 14) W 0)) (nth (t - 16) W 0))])
  end.
Definition SHA1_W (block : list N) : list N := SHA1_extend 64 (map BE (chunks 4 block)).

(* TEMP = S^5(A) + f(t;B,C,D) + E + W(t) + K(t); E = D; D = C; C = S^30(B); B = A; A = TEMP *)
Definition SHA1_step (W : list N) (v : SHA1_word) (t : nat) : SHA1_word :=
  let '(A, B, C, D, E) := v in
  (ADD 32 (ADD 32 (ADD 32 (ADD 32 (ROTL 32 5 A) (SHA1_f t B C D)) E) (nth t W 0)) (SHA1_K t),
   A, ROTL 32 30 B, C, D).

Definition SHA1_compress (H : SHA1_word) (block : list N) : SHA1_word :=
  let '(A, B, C, D, E) := fold_left (SHA1_step (SHA1_W block)) (seq 0 80) H in
  let '(H0, H1, H2, H3, H4) := H in
  (ADD 32 H0 A, ADD 32 H1 B, ADD 32 H2 C, ADD 32 H3 D, ADD 32 H4 E).

Definition SHA1_IV : SHA1_word := (0x67452301, 0xEFCDAB89, 0x98BADCFE, 0x10325476, 0xC3D2E1F0).
Definition SHA1_pad (l : list N) : list N := MDpad 64 8 (toBE 8) l.
Definition SHA1_out (H : SHA1_word) : list N :=
  let '(H0, H1, H2, H3, H4) := H in toBE 4 H0 ++ toBE 4 H1 ++ toBE 4 H2 ++ toBE 4 H3 ++ toBE 4 H4.

(* defined by the standard for messages of less than 2^64 bits *)
Definition SHA1 (l : list N) : list N :=
  SHA1_out (fold_left SHA1_compress (chunks 64 (SHA1_pad l)) SHA1_IV).

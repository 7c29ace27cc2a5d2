(* RIPEMD-160 and RIPEMD-128 (Dobbertin, Bosselaers, Preneel: "RIPEMD-160: A Strengthened
   Version of RIPEMD", 1996; ISO/IEC 10118-3). *)
From Coq Require Import List Arith NArith.
From Verif Require Import SpecCommon.
Import ListNotations.
Open Scope N_scope.

(* nonlinear functions, by round 0..4 *)
Definition RMD_f (round : nat) (x y z : N) : N :=
  match round with
  | 0%nat => N.lxor (N.lxor x y) z
  | 1%nat => N.lor (N.land x y) (N.land (NOT 32 x) z)
  | 2%nat => N.lxor (N.lor x (NOT 32 y)) z
  | 3%nat => N.lor (N.land x z) (N.land y (NOT 32 z))
  | _ => N.lxor x (N.lor y (NOT 32 z))
  end.

(* selection of message word: rho^round( i ) on the left, rho^round( pi( i ) ) on the right,
   pi( i ) = 9i + 5 mod 16 *)
Definition rho : list nat := [7; 4; 13; 1; 10; 6; 15; 3; 12; 0; 9; 5; 2; 14; 11; 8]%nat.
Fixpoint rho_pow (n i : nat) : nat :=
  match n with O => i | S n' => nth (rho_pow n' i) rho 0%nat end.
Definition RMD_r (j : nat) : nat := rho_pow (j / 16) (j mod 16).
Definition RMD_r' (j : nat) : nat := rho_pow (j / 16) ((9 * (j mod 16) + 5) mod 16).

(* amount of rotate left, by round and message word (the same for both lines) *)
Definition RMD_shift : list (list N) :=
 [[11; 14; 15; 12;  5;  8;  7;  9; 11; 13; 14; 15;  6;  7;  9;  8];
  [12; 13; 11; 15;  6;  9;  9;  7; 12; 15; 11; 13;  7;  8;  7;  7];
  [13; 15; 14; 11;  7;  7;  6;  8; 13; 14; 13; 12;  5;  5;  6;  9];
  [14; 11; 12; 14;  8;  6;  5;  5; 15; 12; 15; 14;  9;  9;  8;  6];
  [15; 12; 13; 13;  9;  5;  8;  6; 14; 11; 12; 11;  8;  6;  5;  5]].
Definition RMD_s (j : nat) : N := nth (RMD_r j) (nth (j / 16) RMD_shift []) 0.
Definition RMD_s' (j : nat) : N := nth (RMD_r' j) (nth (j / 16) RMD_shift []) 0.

(* added constants: floor( 2^30 * sqrt( 2, 3, 5, 7 ) ) after a first zero on the left;
   floor( 2^30 * cbrt( 2, 3, 5, 7 ) ) before a last zero on the right *)
Definition RMD_K (j : nat) : N := N.sqrt (nth (j / 16) [0; 2; 3; 5; 7] 0 * 2^60).
Definition RMD_K' (lastround j : nat) : N :=
  if Nat.eqb (j / 16) lastround then 0 else icbrt (nth (j / 16) [2; 3; 5; 7] 0 * 2^90).

(* ---------------- RIPEMD-160 ---------------- *)
Definition RMD160_word := (N * N * N * N * N)%type.
(* T = rol_s( A + f( j, B, C, D ) + X[ r ] + K ) + E;
   A = E; E = D; D = rol_10( C ); C = B; B = T *)
Definition RMD160_step (f : N -> N -> N -> N) (x k s : N) (v : RMD160_word) : RMD160_word :=
  let '(A, B, C, D, E) := v in
  let T := ADD 32 (ROTL 32 s (ADD 32 (ADD 32 (ADD 32 A (f B C D)) x) k)) E in
  (E, T, B, ROTL 32 10 C, D).
Definition RMD160_left (X : list N) (v : RMD160_word) (j : nat) : RMD160_word :=
  RMD160_step (RMD_f (j / 16)) (nth (RMD_r j) X 0) (RMD_K j) (RMD_s j) v.
Definition RMD160_right (X : list N) (v : RMD160_word) (j : nat) : RMD160_word :=
  RMD160_step (RMD_f (4 - j / 16)) (nth (RMD_r' j) X 0) (RMD_K' 4 j) (RMD_s' j) v.

Definition RMD160_compress (H : RMD160_word) (block : list N) : RMD160_word :=
  let X := map LE (chunks 4 block) in
  let '(A, B, C, D, E) := fold_left (RMD160_left X) (seq 0 80) H in
  let '(A', B', C', D', E') := fold_left (RMD160_right X) (seq 0 80) H in
  let '(h0, h1, h2, h3, h4) := H in
  (ADD 32 (ADD 32 h1 C) D', ADD 32 (ADD 32 h2 D) E', ADD 32 (ADD 32 h3 E) A',
   ADD 32 (ADD 32 h4 A) B', ADD 32 (ADD 32 h0 B) C').

Definition RMD160_IV : RMD160_word := (0x67452301, 0xEFCDAB89, 0x98BADCFE, 0x10325476, 0xC3D2E1F0).
Definition RMD_pad (l : list N) : list N := MDpad 64 8 (toLE 8) l.
Definition RMD160_out (H : RMD160_word) : list N :=
  let '(h0, h1, h2, h3, h4) := H in toLE 4 h0 ++ toLE 4 h1 ++ toLE 4 h2 ++ toLE 4 h3 ++ toLE 4 h4.
Definition RIPEMD160 (l : list N) : list N :=
  RMD160_out (fold_left RMD160_compress (chunks 64 (RMD_pad l)) RMD160_IV).

(* ---------------- RIPEMD-128 ---------------- *)
Definition RMD128_word := (N * N * N * N)%type.
(* T = rol_s( A + f( j, B, C, D ) + X[ r ] + K ); A = D; D = C; C = B; B = T *)
Definition RMD128_step (f : N -> N -> N -> N) (x k s : N) (v : RMD128_word) : RMD128_word :=
  let '(A, B, C, D) := v in
  let T := ROTL 32 s (ADD 32 (ADD 32 (ADD 32 A (f B C D)) x) k) in
  (D, T, B, C).
Definition RMD128_left (X : list N) (v : RMD128_word) (j : nat) : RMD128_word :=
  RMD128_step (RMD_f (j / 16)) (nth (RMD_r j) X 0) (RMD_K j) (RMD_s j) v.
Definition RMD128_right (X : list N) (v : RMD128_word) (j : nat) : RMD128_word :=
  RMD128_step (RMD_f (3 - j / 16)) (nth (RMD_r' j) X 0) (RMD_K' 3 j) (RMD_s' j) v.

Definition RMD128_compress (H : RMD128_word) (block : list N) : RMD128_word :=
  let X := map LE (chunks 4 block) in
  let '(A, B, C, D) := fold_left (RMD128_left X) (seq 0 64) H in
  let '(A', B', C', D') := fold_left (RMD128_right X) (seq 0 64) H in
  let '(h0, h1, h2, h3) := H in
  (ADD 32 (ADD 32 h1 C) D', ADD 32 (ADD 32 h2 D) A', ADD 32 (ADD 32 h3 A) B',
   ADD 32 (ADD 32 h0 B) C').

Definition RMD128_IV : RMD128_word := (0x67452301, 0xEFCDAB89, 0x98BADCFE, 0x10325476).
Definition RMD128_out (H : RMD128_word) : list N :=
  let '(h0, h1, h2, h3) := H in toLE 4 h0 ++ toLE 4 h1 ++ toLE 4 h2 ++ toLE 4 h3.
Definition RIPEMD128 (l : list N) : list N :=
  RMD128_out (fold_left RMD128_compress (chunks 64 (RMD_pad l)) RMD128_IV).

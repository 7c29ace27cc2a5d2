(* FIPS 180-4: SHA-224, SHA-256, SHA-384, SHA-512, SHA-512/224, SHA-512/256. *)
From Coq Require Import List Arith NArith.
From Verif Require Import SpecCommon.
Import ListNotations.
Open Scope N_scope.

Definition SHA2_word := (N * N * N * N * N * N * N * N)%type.

(* The two families differ in the word width w, the rotation amounts, and the number of rounds. *)
Record SHA2_family := {
  w : N;                      (* word width in bits *)
  wb : nat;                   (* word width in bytes *)
  rounds : nat;
  S0 : N * N * N; S1 : N * N * N;      (* Sigma0, Sigma1: ROTR, ROTR, ROTR *)
  s0 : N * N * N; s1 : N * N * N }.    (* sigma0, sigma1: ROTR, ROTR, SHR *)

(* 4.1.2 *)
Definition F256 : SHA2_family :=
  {| w := 32; wb := 4; rounds := 64;
     S0 := (2, 13, 22); S1 := (6, 11, 25); s0 := (7, 18, 3); s1 := (17, 19, 10) |}.
(* 4.1.3 *)
Definition F512 : SHA2_family :=
  {| w := 64; wb := 8; rounds := 80;
     S0 := (28, 34, 39); S1 := (14, 18, 41); s0 := (1, 8, 7); s1 := (19, 61, 6) |}.

Section Family.
Variable F : SHA2_family.

Definition Ch (x y z : N) : N := N.lxor (N.land x y) (N.land (NOT (w F) x) z).
Definition Maj (x y z : N) : N := N.lxor (N.lxor (N.land x y) (N.land x z)) (N.land y z).
Definition Sigma (r : N * N * N) (x : N) : N :=
  let '(i, j, k) := r in N.lxor (N.lxor (ROTR (w F) i x) (ROTR (w F) j x)) (ROTR (w F) k x).
Definition sigma (r : N * N * N) (x : N) : N :=
  let '(i, j, k) := r in N.lxor (N.lxor (ROTR (w F) i x) (ROTR (w F) j x)) (SHR k x).

(* 4.2.2, 4.2.3: the first w bits of the fractional parts of the cube roots of the first
   [rounds] primes: floor( cbrt( p ) * 2^w ) mod 2^w *)
Definition K : list N :=
  map (fun p => icbrt (p * 2 ^ (3 * w F)) mod 2 ^ (w F)) (firstn (rounds F) (primes_below 410)).

(* 6.2.2 / 6.4.2 step 1 *)
Fixpoint extend (n : nat) (W : list N) : list N :=
  match n with
  | O => W
  | S n' => let t := length W in
            extend n' (W ++ [ADD (w F) (ADD (w F) (ADD (w F)
              (sigma (s1 F) (nth (t - 2) W 0)) (nth (t - 7) W 0))
              (sigma (s0 F) (nth (t - 15) W 0))) (nth (t - 16) W 0)])
  end.
Definition schedule (block : list N) : list N :=
  extend (rounds F - 16) (map BE (chunks (wb F) block)).

(* step 3 *)
Definition step (Kc W : list N) (v : SHA2_word) (t : nat) : SHA2_word :=
  let '(a, b, c, d, e, f, g, h) := v in
  let T1 := ADD (w F) (ADD (w F) (ADD (w F) (ADD (w F) h (Sigma (S1 F) e)) (Ch e f g))
              (nth t Kc 0)) (nth t W 0) in
  let T2 := ADD (w F) (Sigma (S0 F) a) (Maj a b c) in
  (ADD (w F) T1 T2, a, b, c, ADD (w F) d T1, e, f, g).

(* steps 2-4; [Kc] is the table of constants, [K] below *)
Definition compress_with (Kc : list N) (H : SHA2_word) (block : list N) : SHA2_word :=
  let W := schedule block in
  let '(a, b, c, d, e, f, g, h) := fold_left (step Kc W) (seq 0 (rounds F)) H in
  let '(H0, H1, H2, H3, H4, H5, H6, H7) := H in
  (ADD (w F) H0 a, ADD (w F) H1 b, ADD (w F) H2 c, ADD (w F) H3 d,
   ADD (w F) H4 e, ADD (w F) H5 f, ADD (w F) H6 g, ADD (w F) H7 h).
Definition compress := compress_with K.

(* 5.1: padding with a length field of two words *)
Definition pad (l : list N) : list N := MDpad (16 * wb F) (2 * wb F) (toBE (2 * wb F)) l.

Definition out (H : SHA2_word) : list N :=
  let '(H0, H1, H2, H3, H4, H5, H6, H7) := H in
  flat_map (toBE (wb F)) [H0; H1; H2; H3; H4; H5; H6; H7].

Definition SHA2 (IV : SHA2_word) (outlen : nat) (l : list N) : list N :=
  firstn outlen (out (fold_left compress (chunks (16 * wb F) (pad l)) IV)).
End Family.

Definition word8 (l : list N) : SHA2_word :=
  match l with
  | [a; b; c; d; e; f; g; h] => (a, b, c, d, e, f, g, h)
  | _ => (0, 0, 0, 0, 0, 0, 0, 0)
  end.
(* floor( sqrt( p ) * 2^k ) *)
Definition sqrt_bits (k p : N) : N := N.sqrt (p * 2 ^ (2 * k)).
Definition primes1 := firstn 8 (primes_below 410).
Definition primes2 := firstn 8 (skipn 8 (primes_below 410)).

(* 5.3.3: first 32 bits of the fractional parts of the square roots of the first 8 primes *)
Definition IV256 : SHA2_word := word8 (map (fun p => sqrt_bits 32 p mod 2^32) primes1).
(* 5.3.2: second 32 bits of the fractional parts of the square roots of the 9th-16th primes *)
Definition IV224 : SHA2_word := word8 (map (fun p => sqrt_bits 64 p mod 2^32) primes2).
(* 5.3.5 *)
Definition IV512 : SHA2_word := word8 (map (fun p => sqrt_bits 64 p mod 2^64) primes1).
(* 5.3.4 *)
Definition IV384 : SHA2_word := word8 (map (fun p => sqrt_bits 64 p mod 2^64) primes2).
(* 5.3.6: SHA-512/t IV generation: SHA-512 with every word of its IV xored with a5..a5,
   applied to the ASCII string "SHA-512/t" *)
Definition IV512' : SHA2_word :=
  word8 (map (fun p => N.lxor (sqrt_bits 64 p mod 2^64) 0xa5a5a5a5a5a5a5a5) primes1).
Definition IV512t (name : list N) : SHA2_word :=
  fold_left (compress F512) (chunks 128 (pad F512 name)) IV512'.
(* "SHA-512/224", "SHA-512/256" *)
Definition IV512_224 : SHA2_word := IV512t [83; 72; 65; 45; 53; 49; 50; 47; 50; 50; 52].
Definition IV512_256 : SHA2_word := IV512t [83; 72; 65; 45; 53; 49; 50; 47; 50; 53; 54].

(* Section 6; defined by the standard for messages of less than 2^64 (2^128) bits *)
Definition SHA256 := SHA2 F256 IV256 32.
Definition SHA224 := SHA2 F256 IV224 28.
Definition SHA512 := SHA2 F512 IV512 64.
Definition SHA384 := SHA2 F512 IV384 48.
Definition SHA512_224 := SHA2 F512 IV512_224 28.
Definition SHA512_256 := SHA2 F512 IV512_256 32.

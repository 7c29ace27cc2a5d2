(* Vocabulary shared by the specifications (independent of the model). *)
From Coq Require Import List Arith NArith.
Import ListNotations.
Open Scope N_scope.

(* The consecutive [B]-byte blocks of [l]; an incomplete block at the end is dropped. *)
Fixpoint chunks_f {A} (fuel B : nat) (l : list A) : list (list A) :=
  match fuel with
  | O => []
  | S f => if Nat.leb B (length l) then firstn B l :: chunks_f f B (skipn B l) else []
  end.
Definition chunks {A} (B : nat) (l : list A) : list (list A) := chunks_f (length l) B l.

(* The incomplete block at the end. *)
Definition rest {A} (B : nat) (l : list A) : list A := skipn (B * (length l / B)) l.

(* Words of [w] bits. *)
Definition ADD (w a b : N) : N := (a + b) mod 2^w.
Definition MUL (w a b : N) : N := (a * b) mod 2^w.
Definition NOT (w a : N) : N := N.lxor a (N.ones w).
(* FIPS 180-4 section 3.2 / RFC 3174 section 3: (x << n) OR (x >> w - n) *)
Definition ROTL (w n x : N) : N := N.lor ((N.shiftl x n) mod 2^w) (N.shiftr x (w - n)).
Definition ROTR (w n x : N) : N := N.lor (N.shiftr x n) ((N.shiftl x (w - n)) mod 2^w).
Definition SHR (n x : N) : N := N.shiftr x n.

(* Little/big-endian numbers. *)
Fixpoint LE (l : list N) : N := match l with [] => 0 | b :: t => b + 256 * LE t end.
Definition BE (l : list N) : N := LE (rev l).
Fixpoint toLE (k : nat) (v : N) : list N :=
  match k with O => [] | S k' => v mod 256 :: toLE k' (v / 256) end.
Definition toBE (k : nat) (v : N) : list N := rev (toLE k v).

(* Merkle-Damgard padding (RFC 1321 3.1-3.2, FIPS 180-4 5.1, RIPEMD): the byte 0x80, then the
   smallest number of zero bytes so that the total becomes a multiple of the block size [B]
   once the [lb]-byte encoding [enc] of the bit length is appended. *)
Definition MDpad (B lb : nat) (enc : N -> list N) (l : list N) : list N :=
  l ++ [0x80] ++ repeat 0 ((2 * B - 1 - lb - length l mod B) mod B)
    ++ enc (8 * N.of_nat (length l)).

(* Integer cube root: the greatest r with r^3 <= n, found bit by bit below 2^k. *)
Fixpoint icbrt_bits (k : nat) (n r : N) : N :=
  match k with
  | O => r
  | S k' => let r' := r + 2 ^ N.of_nat k' in
            if r' * r' * r' <=? n then icbrt_bits k' n r' else icbrt_bits k' n r
  end.
Definition icbrt (n : N) : N := icbrt_bits (N.to_nat (N.size n)) n 0.

(* Primes, by definition: p > 1 without a divisor in 2 .. p-1. *)
Definition is_prime (p : nat) : bool :=
  Nat.ltb 1 p && forallb (fun d => negb (Nat.eqb (p mod d) 0)) (seq 2 (p - 2)).
Definition primes_below (n : nat) : list N := map N.of_nat (filter is_prime (seq 0 n)).

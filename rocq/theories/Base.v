(* Common vocabulary of the model: outcomes, platforms, pointers, machine words,
   and the byte-level primitives of include/boost/hash2/detail/. *)
From Coq Require Export List Arith NArith ZArith Lia Bool.
Export ListNotations.
Open Scope N_scope.

(* ------------------------------------------------------------------ *)
(* Outcomes. [UB]: undefined behaviour of the C++ program (out-of-range access,
   memcpy from a null pointer, invalid pointer arithmetic).  [AssertFail]: a
   BOOST_ASSERT is false.  [OutOfFuel]: a loop of the model did not finish within its
   fuel (excluded by every theorem). *)
Inductive res (A : Type) : Type :=
| Ok (a : A)
| UB
| AssertFail
| OutOfFuel.
Arguments Ok {A} a.
Arguments UB {A}.
Arguments AssertFail {A}.
Arguments OutOfFuel {A}.

(* no counterpart in /repo: sequencing of statements *)
Definition bind {A B} (x : res A) (f : A -> res B) : res B :=
  match x with
  | Ok a => f a
  | UB => UB
  | AssertFail => AssertFail
  | OutOfFuel => OutOfFuel
  end.

Notation "x <- e ;; f" := (bind e (fun x => f))
  (at level 80, e at next level, right associativity).
Notation "' p <- e ;; f" := (bind e (fun p => f))
  (at level 80, p pattern, e at next level, right associativity).
(* BOOST_ASSERT( b ) *)
(* no counterpart in /repo: Boost.Assert *)
Definition assert_ (b : bool) : res unit := if b then Ok tt else AssertFail.
Notation "'assert!' b ;; f" := (bind (assert_ b) (fun _ => f))
  (at level 80, b at next level, right associativity).

(* no counterpart in /repo: a loop that fills an array *)
Fixpoint mapM {A B} (f : A -> res B) (l : list A) : res (list B) :=
  match l with
  | [] => Ok []
  | a :: t => b <- f a ;; bs <- mapM f t ;; Ok (b :: bs)
  end.

(* ------------------------------------------------------------------ *)
(* The platform: endian.hpp:15-31 (native byte order), detail/is_constant_evaluated.hpp
   (whether the current evaluation is a constant evaluation). *)
Record plat := { p_le : bool;      (* endian::native == endian::little *)
                 p_cx : bool }.    (* detail::is_constant_evaluated() *)

(* ------------------------------------------------------------------ *)
(* Pointers into caller memory: null, or a pointer such that [l] is the list of bytes from
   it up to the end of the object it points into. *)
(* no counterpart in /repo: C++ semantics *)
Inductive ptr := Null | Ptr (l : list N).

(* p + k (C++: defined for k within the object, and for null + 0). *)
(* no counterpart in /repo: C++ semantics *)
Definition padd (p : ptr) (k : nat) : res ptr :=
  match p with
  | Null => if Nat.eqb k 0 then Ok Null else UB
  | Ptr l => if Nat.leb k (length l) then Ok (Ptr (skipn k l)) else UB
  end.

(* p[ i ] *)
(* no counterpart in /repo: C++ semantics *)
Definition deref (p : ptr) (i : nat) : res N :=
  match p with
  | Null => UB
  | Ptr l => match nth_error l i with Some b => Ok b | None => UB end
  end.

(* the k bytes std::memcpy reads at p; std::memcpy with a null source is undefined even
   when k = 0 (C17 7.24.1p2) *)
(* no counterpart in /repo: C semantics *)
Definition memread (p : ptr) (k : nat) : res (list N) :=
  match p with
  | Null => UB
  | Ptr l => if Nat.leb k (length l) then Ok (firstn k l) else UB
  end.

(* write the bytes [w] into the array [d] starting at [off] *)
(* no counterpart in /repo: C++ semantics *)
Definition splice (d : list N) (off : nat) (w : list N) : list N :=
  firstn off d ++ w ++ skipn (off + length w) d.

(* d[ i ] = v *)
(* no counterpart in /repo: C++ semantics *)
Definition store (d : list N) (i : nat) (v : N) : res (list N) :=
  if Nat.ltb i (length d) then Ok (splice d i [v]) else UB.

(* for( i = 0; i < n; ++i ) d[ off + i ] = s[ i ];   (memcpy.hpp:34-37) *)
Fixpoint copy_loop (d : list N) (off : nat) (s : ptr) (i n : nat) : res (list N) :=
  match n with
  | O => Ok d
  | S n' => b <- deref s i ;; d' <- store d (off + i) b ;; copy_loop d' off s (S i) n'
  end.

(* std::memcpy( d + off, s, n ) *)
(* no counterpart in /repo: C semantics *)
Definition std_memcpy (d : list N) (off : nat) (s : ptr) (n : nat) : res (list N) :=
  if Nat.leb (off + n) (length d)
  then w <- memread s n ;; Ok (splice d off w)
  else UB.

(* detail/memcpy.hpp:20-41 *)
Definition memcpy (pf : plat) (d : list N) (off : nat) (s : ptr) (n : nat) : res (list N) :=
  if negb (p_cx pf) then std_memcpy d off s n
  else copy_loop d off s 0 n.

(* for( i = 0; i < n; ++i ) d[ off + i ] = ch;   (memset.hpp:34-37) *)
Fixpoint set_loop (d : list N) (off : nat) (ch : N) (i n : nat) : res (list N) :=
  match n with
  | O => Ok d
  | S n' => d' <- store d (off + i) ch ;; set_loop d' off ch (S i) n'
  end.

(* std::memset( d + off, ch, n ) *)
(* no counterpart in /repo: C semantics *)
Definition std_memset (d : list N) (off : nat) (ch : N) (n : nat) : res (list N) :=
  if Nat.leb (off + n) (length d) then Ok (splice d off (repeat ch n)) else UB.

(* detail/memset.hpp:20-41; every call in the library passes ch = 0 *)
Definition memset (pf : plat) (d : list N) (off : nat) (ch : N) (n : nat) : res (list N) :=
  if negb (p_cx pf) then std_memset d off ch n
  else set_loop d off ch 0 n.

(* The constant-evaluation loop of detail/memcmp.hpp:
   for( i < n ) { if( p[i] != q[i] ) return p[i] - q[i]; } return 0; *)
Fixpoint cmp_loop (s1 s2 : ptr) (i n : nat) : res Z :=
  match n with
  | O => Ok 0%Z
  | S n' => x <- deref s1 i ;; y <- deref s2 i ;;
            if negb (x =? y) then Ok (Z.of_N x - Z.of_N y)%Z
            else cmp_loop s1 s2 (S i) n'
  end.

(* lexicographic comparison as unsigned char, C17 7.24.4.1 *)
(* no counterpart in /repo: C semantics *)
Fixpoint lex (a b : list N) : Z :=
  match a, b with
  | x :: a', y :: b' => if x <? y then (-1)%Z else if y <? x then 1%Z else lex a' b'
  | _, _ => 0%Z
  end.
(* std::memcmp( s1, s2, n ): only the sign of the result is specified; the model
   fixes the magnitude to 1 (no caller looks at it). *)
Definition std_memcmp (s1 s2 : ptr) (n : nat) : res Z :=
  x <- memread s1 n ;; y <- memread s2 n ;; Ok (lex x y).

(* detail/memcmp.hpp:20-43 *)
Definition memcmp (pf : plat) (s1 s2 : ptr) (n : nat) : res Z :=
  if negb (p_cx pf) then std_memcmp s1 s2 n else cmp_loop s1 s2 0 n.

(* ------------------------------------------------------------------ *)
(* Machine words: unsigned arithmetic of the given width. *)
(* no counterpart in /repo: C++ unsigned arithmetic, 2^32 *)
Definition w32 : N := 2^32.
(* no counterpart in /repo: C++ unsigned arithmetic, 2^64 *)
Definition w64 : N := 2^64.
(* uint32_t: a + b *)
Definition add32 (a b : N) : N := (a + b) mod w32.
(* uint32_t: a - b *)
Definition sub32 (a b : N) : N := (a + (w32 - b mod w32)) mod w32.
(* uint32_t: a * b *)
Definition mul32 (a b : N) : N := (a * b) mod w32.
(* uint32_t: ~a *)
Definition not32 (a : N) : N := N.lxor a (w32 - 1).
(* uint32_t: a << k *)
Definition shl32 (a k : N) : N := (N.shiftl a k) mod w32.
(* uint64_t: a + b *)
Definition add64 (a b : N) : N := (a + b) mod w64.
(* uint64_t: a - b *)
Definition sub64 (a b : N) : N := (a + (w64 - b mod w64)) mod w64.
(* uint64_t: a * b *)
Definition mul64 (a b : N) : N := (a * b) mod w64.
(* uint64_t: ~a *)
Definition not64 (a : N) : N := N.lxor a (w64 - 1).
(* uint64_t: a << k *)
Definition shl64 (a k : N) : N := (N.shiftl a k) mod w64.
(* a >> k of an unsigned type *)
Definition shr (a k : N) : N := N.shiftr a k.

(* detail/rot.hpp:19-40.  A shift by the full width or more is undefined
   ("k must not be 0"); such a count yields the poison value 2^width, which no
   variable of the type can hold. *)
Definition rotl32 (v k : N) : N :=
  if (0 <? k) && (k <? 32) then N.lor (shl32 v k) (shr v (32 - k)) else w32.
(* detail/rot.hpp:19-40 *)
Definition rotl64 (v k : N) : N :=
  if (0 <? k) && (k <? 64) then N.lor (shl64 v k) (shr v (64 - k)) else w64.
(* detail/rot.hpp:19-40 *)
Definition rotr32 (v k : N) : N :=
  if (0 <? k) && (k <? 32) then N.lor (shr v k) (shl32 v (32 - k)) else w32.
(* detail/rot.hpp:19-40 *)
Definition rotr64 (v k : N) : N :=
  if (0 <? k) && (k <? 64) then N.lor (shr v k) (shl64 v (64 - k)) else w64.

(* ------------------------------------------------------------------ *)
(* Object representation of an unsigned integer on a little-endian platform (used by
   the std::memcpy( &v, p, sizeof(v) ) branches, which are only taken when the platform is
   little-endian). *)
(* no counterpart in /repo: C++ semantics *)
Fixpoint le_val (l : list N) : N :=
  match l with [] => 0 | b :: t => b + 256 * le_val t end.
(* no counterpart in /repo: C++ semantics *)
Fixpoint le_bytes (k : nat) (v : N) : list N :=
  match k with O => [] | S k' => v mod 256 :: le_bytes k' (v / 256) end.

(* detail/read.hpp:21-37 *)
Definition read32le (pf : plat) (p : ptr) : res N :=
  if negb (p_cx pf) && p_le pf then
    l <- memread p 4 ;; Ok (le_val l)
  else
    b0 <- deref p 0 ;; b1 <- deref p 1 ;; b2 <- deref p 2 ;; b3 <- deref p 3 ;;
    Ok (N.lor (N.lor (N.lor b0 (shl32 b1 8)) (shl32 b2 16)) (shl32 b3 24)).

(* detail/read.hpp:39-59 *)
Definition read64le (pf : plat) (p : ptr) : res N :=
  if negb (p_cx pf) && p_le pf then
    l <- memread p 8 ;; Ok (le_val l)
  else
    b0 <- deref p 0 ;; b1 <- deref p 1 ;; b2 <- deref p 2 ;; b3 <- deref p 3 ;;
    b4 <- deref p 4 ;; b5 <- deref p 5 ;; b6 <- deref p 6 ;; b7 <- deref p 7 ;;
    Ok (N.lor (N.lor (N.lor (N.lor (N.lor (N.lor (N.lor b0
          (shl64 b1 8)) (shl64 b2 16)) (shl64 b3 24)) (shl64 b4 32))
          (shl64 b5 40)) (shl64 b6 48)) (shl64 b7 56)).

(* detail/read.hpp:61-68 *)
Definition read32be (p : ptr) : res N :=
  b3 <- deref p 3 ;; b2 <- deref p 2 ;; b1 <- deref p 1 ;; b0 <- deref p 0 ;;
  Ok (N.lor (N.lor (N.lor b3 (shl32 b2 8)) (shl32 b1 16)) (shl32 b0 24)).

(* detail/read.hpp:70-81 *)
Definition read64be (p : ptr) : res N :=
  b7 <- deref p 7 ;; b6 <- deref p 6 ;; b5 <- deref p 5 ;; b4 <- deref p 4 ;;
  b3 <- deref p 3 ;; b2 <- deref p 2 ;; b1 <- deref p 1 ;; b0 <- deref p 0 ;;
  Ok (N.lor (N.lor (N.lor (N.lor (N.lor (N.lor (N.lor b7
        (shl64 b6 8)) (shl64 b5 16)) (shl64 b4 24)) (shl64 b3 32))
        (shl64 b2 40)) (shl64 b1 48)) (shl64 b0 56)).

(* static_cast<unsigned char>( ( v >> k ) & 0xFF ) *)
(* detail/write.hpp:31-97 *)
Definition byte_at (v k : N) : N := N.land (shr v k) 255 mod 256.

(* detail/write.hpp:24-36.  The write functions fill a destination of exactly 2/4/8
   bytes; the model returns these bytes. *)
Definition write16le (pf : plat) (v : N) : list N :=
  if negb (p_cx pf) && p_le pf then le_bytes 2 v
  else [byte_at v 0; byte_at v 8].
(* detail/write.hpp:38-52 *)
Definition write32le (pf : plat) (v : N) : list N :=
  if negb (p_cx pf) && p_le pf then le_bytes 4 v
  else [byte_at v 0; byte_at v 8; byte_at v 16; byte_at v 24].
(* detail/write.hpp:54-72 *)
Definition write64le (pf : plat) (v : N) : list N :=
  if negb (p_cx pf) && p_le pf then le_bytes 8 v
  else [byte_at v 0; byte_at v 8; byte_at v 16; byte_at v 24;
        byte_at v 32; byte_at v 40; byte_at v 48; byte_at v 56].
(* detail/write.hpp:76-80 *)
Definition write16be (v : N) : list N := [byte_at v 8; byte_at v 0].
(* detail/write.hpp:82-88 *)
Definition write32be (v : N) : list N :=
  [byte_at v 24; byte_at v 16; byte_at v 8; byte_at v 0].
(* detail/write.hpp:90-100 *)
Definition write64be (v : N) : list N :=
  [byte_at v 56; byte_at v 48; byte_at v 40; byte_at v 32;
   byte_at v 24; byte_at v 16; byte_at v 8; byte_at v 0].

(* ------------------------------------------------------------------ *)
(* Member variables common to the block-buffered classes: the chaining state, buffer_, m_
   and n_. *)
(* e.g. md5.hpp:34-41 *)
Record bst (S : Type) := mkB { b_st : S; b_buf : list N; b_m : nat; b_n : N }.
Arguments mkB {S} _ _ _ _.
Arguments b_st {S} _.
Arguments b_buf {S} _.
Arguments b_m {S} _.
Arguments b_n {S} _.

(* the initialiser = {} of an array, e.g. md5.hpp:38 *)
Definition zeros (k : nat) : list N := repeat 0 k.

(* A byte string: every element is a byte. *)
(* no counterpart in /repo: the values of unsigned char *)
Definition bytes (l : list N) : Prop := Forall (fun b => b < 256) l.
(* no counterpart in /repo: decides [bytes] *)
Definition bytesb (l : list N) : bool := forallb (fun b => b <? 256) l.

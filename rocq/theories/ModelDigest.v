(* Model of include/boost/hash2/digest.hpp.  A digest<N> is its array data_[ N ], a list of N
   bytes; characters are their codes. *)
From Verif Require Import Base.
Open Scope N_scope.

(* digest(), digest.hpp:25, 31: data_[ N ] = {} *)
Definition digest_default (n : nat) : list N := zeros n.

(* digest( unsigned char const (&v)[ N ] ), digest.hpp:33-36: data_ is zeroed by its default
   member initialiser, then filled by detail::memcpy *)
Definition digest_ctor (pf : plat) (n : nat) (v : ptr) : res (list N) :=
  memcpy pf (zeros n) 0 v n.

(* data(), begin(), digest.hpp:48-49, 56-57: a pointer to data_ *)
Definition digest_data (d : list N) : ptr := Ptr d.
(* digest.hpp:48-49 *)
Definition digest_begin (d : list N) : ptr := Ptr d.
(* size(), max_size(), digest.hpp:59-60 *)
Definition digest_size (d : list N) : nat := length d.
(* digest.hpp:60 *)
Definition digest_max_size (d : list N) : nat := length d.
(* end(), digest.hpp:51-52: data_ + N *)
Definition digest_end (d : list N) : res ptr := padd (Ptr d) (length d).
(* A loop of the user, for( auto it = d.begin(); it != d.end(); ++it ) visit( *it ), as in a range-based for.  Two pointers
   into the same array are equal if the same number of elements follows.  [k] bounds the number of iterations; a loop that does
   not end within size() iterations has left the array. *)
Definition same_place (p q : ptr) : bool :=
  match p, q with Ptr l, Ptr l' => Nat.eqb (length l) (length l') | Null, Null => true | _, _ => false end.
(* no counterpart in /repo: the user's loop *)
Fixpoint visit_loop (k : nat) (p e : ptr) : res (list N) :=
  if same_place p e then Ok [] else
  match k with
  | O => UB
  | S k => b <- deref p 0 ;; p <- padd p 1 ;; t <- visit_loop k p e ;; Ok (b :: t)
  end.
(* digest.hpp:48-52 *)
Definition digest_visit (d : list N) : res (list N) :=
  e <- digest_end d ;; visit_loop (length d) (digest_begin d) e.

(* operator[], digest.hpp:64-65 *)
Definition digest_get (d : list N) (i : nat) : res N :=
  assert! (Nat.ltb i (length d)) ;; deref (Ptr d) i.
(* d[ i ] = v through the non-const operator[] *)
(* digest.hpp:64 *)
Definition digest_set (d : list N) (i : nat) (v : N) : res (list N) :=
  assert! (Nat.ltb i (length d)) ;; store d i v.
(* front(), back(), digest.hpp:67-71; no assertion: data_[ 0 ], data_[ N-1 ] *)
Definition digest_front (d : list N) : res N := deref (Ptr d) 0.
(* digest.hpp:70-71 *)
Definition digest_back (d : list N) : res N := deref (Ptr d) (length d - 1).

(* d.front() = v, d.back() = v, digest.hpp:67, 70 *)
Definition digest_set_front (d : list N) (v : N) : res (list N) := store d 0 v.
(* digest.hpp:70 *)
Definition digest_set_back (d : list N) (v : N) : res (list N) := store d (length d - 1) v.

(* operator==, digest.hpp:76-79 *)
Definition digest_eq (pf : plat) (a b : list N) : res bool :=
  c <- memcmp pf (digest_data a) (digest_data b) (length a) ;; Ok (c =? 0)%Z.
(* operator!=, digest.hpp:81-84 *)
Definition digest_neq (pf : plat) (a b : list N) : res bool :=
  e <- digest_eq pf a b ;; Ok (negb e).

(* constexpr char digits[] = "0123456789abcdef" (17 elements, the last one is NUL),
   digest.hpp:95 *)
Definition digits : list N :=
  [48;49;50;51;52;53;54;55;56;57;97;98;99;100;101;102;0].

(* for( i = 0; i < N; ++i ) { first[ i*2+0 ] = digits[ v[i] >> 4 ]; first[ i*2+1 ] =
   digits[ v[i] & 0x0F ]; }, digest.hpp:97-101; [k] iterations remain *)
Fixpoint hex_loop (v w : list N) (i k : nat) : res (list N) :=
  match k with
  | O => Ok w
  | S k' =>
      b <- digest_get v i ;;
      h <- deref (Ptr digits) (N.to_nat (shr b 4)) ;;
      w1 <- store w (i * 2 + 0) h ;;
      b' <- digest_get v i ;;
      l <- deref (Ptr digits) (N.to_nat (N.land b' 0x0F)) ;;
      w2 <- store w1 (i * 2 + 1) l ;;
      hex_loop v w2 (S i) k'
  end.

(* to_chars( v, first, last ), digest.hpp:88-104: [w] are the characters from first to the end
   of the array first points into, [room] is last - first.  The result is the returned pointer
   (null, or the offset from first) and the array afterwards. *)
Definition to_chars (v w : list N) (room : nat) : res (option nat * list N) :=
  if Nat.ltb room (2 * length v) then Ok (None, w)
  else
    w' <- hex_loop v w 0 (length v) ;; Ok (Some (length v * 2)%nat, w').

(* to_chars( v, char (&w)[ M ] ), digest.hpp:106-110: *to_chars( v, w, w + M ) = 0 *)
Definition to_chars_array (v w : list N) : res (list N) :=
  r <- to_chars v w (length w) ;;
  match r with
  | (None, _) => UB
  | (Some o, w') => store w' o 0
  end.

(* to_string, digest.hpp:125-131: char tmp[ 2*N+1 ] is uninitialised ([junk]);
   std::string( tmp, 2*N ) *)
Definition to_string (v junk : list N) : res (list N) :=
  w <- to_chars_array v junk ;; memread (Ptr w) (2 * length v).

(* os << tmp appends the characters of tmp up to the first NUL ([fuel]: length of tmp; a missing
   NUL would be an overrun).  Width and fill of the stream are the caller's and not modelled. *)
Fixpoint c_string (w : list N) : res (list N) :=
  match w with
  | [] => UB
  | c :: t => if c =? 0 then Ok [] else s <- c_string t ;; Ok (c :: s)
  end.
(* operator<<, digest.hpp:114-121; [os]: what has been written so far *)
Definition stream_out (os v junk : list N) : res (list N) :=
  w <- to_chars_array v junk ;; s <- c_string w ;; Ok (os ++ s).

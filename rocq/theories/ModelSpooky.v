(* Model of include/boost/hash2/legacy/spooky2.hpp.  None of it is constexpr: [le] is the
   platform's byte order.  n_ is a std::size_t with range [cw] (2^32 or 2^64).  The constructors
   leave buffer_ uninitialized: its initial contents are the parameter [junk], about which
   nothing is assumed except its length. *)
From Verif Require Import Base ModelMurmur.
Open Scope N_scope.

(* spooky2.hpp:28 *)
Definition sp_const : N := 0xdeadbeefdeadbeef.
(* spooky2.hpp:32-33: v_[ 0 ] ... v_[ 11 ] *)
Inductive sp_st := SP (h0 h1 h2 h3 h4 h5 h6 h7 h8 h9 h10 h11 : N).

(* the references h0, h1, h2, h3 of spooky2.hpp:44, 60 *)
Definition sp_4 : Type := (N * N * N * N)%type.
(* spooky2.hpp:46; the function's lines are separate definitions, composed in order *)
Definition sp_short_mix_0 (x : sp_4) : sp_4 := let '(h0, h1, h2, h3) := x in
  let h2 := rotl64 h2 50 in let h2 := add64 h2 h3 in let h0 := N.lxor h0 h2 in (h0, h1, h2, h3).
(* spooky2.hpp:47 *)
Definition sp_short_mix_1 (x : sp_4) : sp_4 := let '(h0, h1, h2, h3) := x in
  let h3 := rotl64 h3 52 in let h3 := add64 h3 h0 in let h1 := N.lxor h1 h3 in (h0, h1, h2, h3).
(* spooky2.hpp:48 *)
Definition sp_short_mix_2 (x : sp_4) : sp_4 := let '(h0, h1, h2, h3) := x in
  let h0 := rotl64 h0 30 in let h0 := add64 h0 h1 in let h2 := N.lxor h2 h0 in (h0, h1, h2, h3).
(* spooky2.hpp:49 *)
Definition sp_short_mix_3 (x : sp_4) : sp_4 := let '(h0, h1, h2, h3) := x in
  let h1 := rotl64 h1 41 in let h1 := add64 h1 h2 in let h3 := N.lxor h3 h1 in (h0, h1, h2, h3).
(* spooky2.hpp:50 *)
Definition sp_short_mix_4 (x : sp_4) : sp_4 := let '(h0, h1, h2, h3) := x in
  let h2 := rotl64 h2 54 in let h2 := add64 h2 h3 in let h0 := N.lxor h0 h2 in (h0, h1, h2, h3).
(* spooky2.hpp:51 *)
Definition sp_short_mix_5 (x : sp_4) : sp_4 := let '(h0, h1, h2, h3) := x in
  let h3 := rotl64 h3 48 in let h3 := add64 h3 h0 in let h1 := N.lxor h1 h3 in (h0, h1, h2, h3).
(* spooky2.hpp:52 *)
Definition sp_short_mix_6 (x : sp_4) : sp_4 := let '(h0, h1, h2, h3) := x in
  let h0 := rotl64 h0 38 in let h0 := add64 h0 h1 in let h2 := N.lxor h2 h0 in (h0, h1, h2, h3).
(* spooky2.hpp:53 *)
Definition sp_short_mix_7 (x : sp_4) : sp_4 := let '(h0, h1, h2, h3) := x in
  let h1 := rotl64 h1 37 in let h1 := add64 h1 h2 in let h3 := N.lxor h3 h1 in (h0, h1, h2, h3).
(* spooky2.hpp:54 *)
Definition sp_short_mix_8 (x : sp_4) : sp_4 := let '(h0, h1, h2, h3) := x in
  let h2 := rotl64 h2 62 in let h2 := add64 h2 h3 in let h0 := N.lxor h0 h2 in (h0, h1, h2, h3).
(* spooky2.hpp:55 *)
Definition sp_short_mix_9 (x : sp_4) : sp_4 := let '(h0, h1, h2, h3) := x in
  let h3 := rotl64 h3 34 in let h3 := add64 h3 h0 in let h1 := N.lxor h1 h3 in (h0, h1, h2, h3).
(* spooky2.hpp:56 *)
Definition sp_short_mix_10 (x : sp_4) : sp_4 := let '(h0, h1, h2, h3) := x in
  let h0 := rotl64 h0 5 in let h0 := add64 h0 h1 in let h2 := N.lxor h2 h0 in (h0, h1, h2, h3).
(* spooky2.hpp:57 *)
Definition sp_short_mix_11 (x : sp_4) : sp_4 := let '(h0, h1, h2, h3) := x in
  let h1 := rotl64 h1 36 in let h1 := add64 h1 h2 in let h3 := N.lxor h3 h1 in (h0, h1, h2, h3).
(* spooky2.hpp:44-58 *)
Definition sp_short_mix (h0 h1 h2 h3 : N) : sp_4 :=
  let x := (h0, h1, h2, h3) in
  let x := sp_short_mix_0 x in let x := sp_short_mix_1 x in let x := sp_short_mix_2 x in let x := sp_short_mix_3 x in let x := sp_short_mix_4 x in let x := sp_short_mix_5 x in let x := sp_short_mix_6 x in let x := sp_short_mix_7 x in let x := sp_short_mix_8 x in let x := sp_short_mix_9 x in let x := sp_short_mix_10 x in let x := sp_short_mix_11 x in x.

(* spooky2.hpp:62; short_end, line by line *)
Definition sp_short_end_0 (x : sp_4) : sp_4 := let '(h0, h1, h2, h3) := x in
  let h3 := N.lxor h3 h2 in let h2 := rotl64 h2 15 in let h3 := add64 h3 h2 in (h0, h1, h2, h3).
(* spooky2.hpp:63 *)
Definition sp_short_end_1 (x : sp_4) : sp_4 := let '(h0, h1, h2, h3) := x in
  let h0 := N.lxor h0 h3 in let h3 := rotl64 h3 52 in let h0 := add64 h0 h3 in (h0, h1, h2, h3).
(* spooky2.hpp:64 *)
Definition sp_short_end_2 (x : sp_4) : sp_4 := let '(h0, h1, h2, h3) := x in
  let h1 := N.lxor h1 h0 in let h0 := rotl64 h0 26 in let h1 := add64 h1 h0 in (h0, h1, h2, h3).
(* spooky2.hpp:65 *)
Definition sp_short_end_3 (x : sp_4) : sp_4 := let '(h0, h1, h2, h3) := x in
  let h2 := N.lxor h2 h1 in let h1 := rotl64 h1 51 in let h2 := add64 h2 h1 in (h0, h1, h2, h3).
(* spooky2.hpp:66 *)
Definition sp_short_end_4 (x : sp_4) : sp_4 := let '(h0, h1, h2, h3) := x in
  let h3 := N.lxor h3 h2 in let h2 := rotl64 h2 28 in let h3 := add64 h3 h2 in (h0, h1, h2, h3).
(* spooky2.hpp:67 *)
Definition sp_short_end_5 (x : sp_4) : sp_4 := let '(h0, h1, h2, h3) := x in
  let h0 := N.lxor h0 h3 in let h3 := rotl64 h3 9 in let h0 := add64 h0 h3 in (h0, h1, h2, h3).
(* spooky2.hpp:68 *)
Definition sp_short_end_6 (x : sp_4) : sp_4 := let '(h0, h1, h2, h3) := x in
  let h1 := N.lxor h1 h0 in let h0 := rotl64 h0 47 in let h1 := add64 h1 h0 in (h0, h1, h2, h3).
(* spooky2.hpp:69 *)
Definition sp_short_end_7 (x : sp_4) : sp_4 := let '(h0, h1, h2, h3) := x in
  let h2 := N.lxor h2 h1 in let h1 := rotl64 h1 54 in let h2 := add64 h2 h1 in (h0, h1, h2, h3).
(* spooky2.hpp:70 *)
Definition sp_short_end_8 (x : sp_4) : sp_4 := let '(h0, h1, h2, h3) := x in
  let h3 := N.lxor h3 h2 in let h2 := rotl64 h2 32 in let h3 := add64 h3 h2 in (h0, h1, h2, h3).
(* spooky2.hpp:71 *)
Definition sp_short_end_9 (x : sp_4) : sp_4 := let '(h0, h1, h2, h3) := x in
  let h0 := N.lxor h0 h3 in let h3 := rotl64 h3 25 in let h0 := add64 h0 h3 in (h0, h1, h2, h3).
(* spooky2.hpp:72 *)
Definition sp_short_end_10 (x : sp_4) : sp_4 := let '(h0, h1, h2, h3) := x in
  let h1 := N.lxor h1 h0 in let h0 := rotl64 h0 63 in let h1 := add64 h1 h0 in (h0, h1, h2, h3).
(* spooky2.hpp:60-73 *)
Definition sp_short_end (h0 h1 h2 h3 : N) : sp_4 :=
  let x := (h0, h1, h2, h3) in
  let x := sp_short_end_0 x in let x := sp_short_end_1 x in let x := sp_short_end_2 x in let x := sp_short_end_3 x in let x := sp_short_end_4 x in let x := sp_short_end_5 x in let x := sp_short_end_6 x in let x := sp_short_end_7 x in let x := sp_short_end_8 x in let x := sp_short_end_9 x in let x := sp_short_end_10 x in x.

(* spooky2.hpp:84-96, the while loop of short_hash *)
Fixpoint sp_short_loop (le : bool) (fuel : nat) (a b c d : N) (p : ptr) (m : nat)
    : res (N * N * N * N * ptr * nat) :=
  if Nat.leb 32 m then
    match fuel with
    | O => OutOfFuel
    | S f =>
      p0 <- padd p 0 ;; k <- read64le (rt le) p0 ;; let c := add64 c k in
      p8 <- padd p 8 ;; k <- read64le (rt le) p8 ;; let d := add64 d k in
      let '(a, b, c, d) := sp_short_mix a b c d in
      p16 <- padd p 16 ;; k <- read64le (rt le) p16 ;; let a := add64 a k in
      p24 <- padd p 24 ;; k <- read64le (rt le) p24 ;; let b := add64 b k in
      p <- padd p 32 ;;
      sp_short_loop le f a b c d p (m - 32)
    end
  else Ok (a, b, c, d, p, m).

(* spooky2.hpp:75-131 *)
Definition sp_short_hash (le : bool) (p : ptr) (n : nat) (hash1 hash2 : N) : res (N * N) :=
  '(a, b, c, d, p, m) <- sp_short_loop le n hash1 hash2 sp_const sp_const p n ;;
  '(a, b, c, d, p, m) <-
    (if Nat.leb 16 m then
       p0 <- padd p 0 ;; k <- read64le (rt le) p0 ;; let c := add64 c k in
       p8 <- padd p 8 ;; k <- read64le (rt le) p8 ;; let d := add64 d k in
       let '(a, b, c, d) := sp_short_mix a b c d in
       p <- padd p 16 ;;
       Ok (a, b, c, d, p, (m - 16)%nat)
     else Ok (a, b, c, d, p, m)) ;;
  '(c, d) <-
    (if Nat.eqb m 0 then Ok (add64 c sp_const, add64 d sp_const)
     else
       assert! (Nat.ltb m 16) ;;
       tmp <- std_memcpy (zeros 16) 0 p m ;;
       t0 <- padd (Ptr tmp) 0 ;; k <- read64le (rt le) t0 ;; let c := add64 c k in
       t8 <- padd (Ptr tmp) 8 ;; k <- read64le (rt le) t8 ;; let d := add64 d k in
       Ok (c, d)) ;;
  let d := add64 d (shl64 (N.of_nat n) 56) in
  let '(a, b, c, d) := sp_short_end a b c d in
  Ok (a, b).

(* p + 8 * i for i = 0 ... 11, read (the reads of mix and end, hoisted) *)
(* spooky2.hpp:140-151, 212-223 *)
Definition sp_read12 (le : bool) (p : ptr) : res (list N) :=
  mapM (fun i => q <- padd p (8 * i) ;; read64le (rt le) q) (seq 0 12).

(* spooky2.hpp:140; mix, line by line; k_i is detail::read64le( p + 8 * i ) *)
Definition sp_mix_0 (k : N) (st : sp_st) : sp_st := let '(SP s0 s1 s2 s3 s4 s5 s6 s7 s8 s9 s10 s11) := st in
  let s0 := add64 s0 k in let s2 := N.lxor s2 s10 in let s11 := N.lxor s11 s0 in let s0 := rotl64 s0 11 in let s11 := add64 s11 s1 in
  SP s0 s1 s2 s3 s4 s5 s6 s7 s8 s9 s10 s11.
(* spooky2.hpp:141 *)
Definition sp_mix_1 (k : N) (st : sp_st) : sp_st := let '(SP s0 s1 s2 s3 s4 s5 s6 s7 s8 s9 s10 s11) := st in
  let s1 := add64 s1 k in let s3 := N.lxor s3 s11 in let s0 := N.lxor s0 s1 in let s1 := rotl64 s1 32 in let s0 := add64 s0 s2 in
  SP s0 s1 s2 s3 s4 s5 s6 s7 s8 s9 s10 s11.
(* spooky2.hpp:142 *)
Definition sp_mix_2 (k : N) (st : sp_st) : sp_st := let '(SP s0 s1 s2 s3 s4 s5 s6 s7 s8 s9 s10 s11) := st in
  let s2 := add64 s2 k in let s4 := N.lxor s4 s0 in let s1 := N.lxor s1 s2 in let s2 := rotl64 s2 43 in let s1 := add64 s1 s3 in
  SP s0 s1 s2 s3 s4 s5 s6 s7 s8 s9 s10 s11.
(* spooky2.hpp:143 *)
Definition sp_mix_3 (k : N) (st : sp_st) : sp_st := let '(SP s0 s1 s2 s3 s4 s5 s6 s7 s8 s9 s10 s11) := st in
  let s3 := add64 s3 k in let s5 := N.lxor s5 s1 in let s2 := N.lxor s2 s3 in let s3 := rotl64 s3 31 in let s2 := add64 s2 s4 in
  SP s0 s1 s2 s3 s4 s5 s6 s7 s8 s9 s10 s11.
(* spooky2.hpp:144 *)
Definition sp_mix_4 (k : N) (st : sp_st) : sp_st := let '(SP s0 s1 s2 s3 s4 s5 s6 s7 s8 s9 s10 s11) := st in
  let s4 := add64 s4 k in let s6 := N.lxor s6 s2 in let s3 := N.lxor s3 s4 in let s4 := rotl64 s4 17 in let s3 := add64 s3 s5 in
  SP s0 s1 s2 s3 s4 s5 s6 s7 s8 s9 s10 s11.
(* spooky2.hpp:145 *)
Definition sp_mix_5 (k : N) (st : sp_st) : sp_st := let '(SP s0 s1 s2 s3 s4 s5 s6 s7 s8 s9 s10 s11) := st in
  let s5 := add64 s5 k in let s7 := N.lxor s7 s3 in let s4 := N.lxor s4 s5 in let s5 := rotl64 s5 28 in let s4 := add64 s4 s6 in
  SP s0 s1 s2 s3 s4 s5 s6 s7 s8 s9 s10 s11.
(* spooky2.hpp:146 *)
Definition sp_mix_6 (k : N) (st : sp_st) : sp_st := let '(SP s0 s1 s2 s3 s4 s5 s6 s7 s8 s9 s10 s11) := st in
  let s6 := add64 s6 k in let s8 := N.lxor s8 s4 in let s5 := N.lxor s5 s6 in let s6 := rotl64 s6 39 in let s5 := add64 s5 s7 in
  SP s0 s1 s2 s3 s4 s5 s6 s7 s8 s9 s10 s11.
(* spooky2.hpp:147 *)
Definition sp_mix_7 (k : N) (st : sp_st) : sp_st := let '(SP s0 s1 s2 s3 s4 s5 s6 s7 s8 s9 s10 s11) := st in
  let s7 := add64 s7 k in let s9 := N.lxor s9 s5 in let s6 := N.lxor s6 s7 in let s7 := rotl64 s7 57 in let s6 := add64 s6 s8 in
  SP s0 s1 s2 s3 s4 s5 s6 s7 s8 s9 s10 s11.
(* spooky2.hpp:148 *)
Definition sp_mix_8 (k : N) (st : sp_st) : sp_st := let '(SP s0 s1 s2 s3 s4 s5 s6 s7 s8 s9 s10 s11) := st in
  let s8 := add64 s8 k in let s10 := N.lxor s10 s6 in let s7 := N.lxor s7 s8 in let s8 := rotl64 s8 55 in let s7 := add64 s7 s9 in
  SP s0 s1 s2 s3 s4 s5 s6 s7 s8 s9 s10 s11.
(* spooky2.hpp:149 *)
Definition sp_mix_9 (k : N) (st : sp_st) : sp_st := let '(SP s0 s1 s2 s3 s4 s5 s6 s7 s8 s9 s10 s11) := st in
  let s9 := add64 s9 k in let s11 := N.lxor s11 s7 in let s8 := N.lxor s8 s9 in let s9 := rotl64 s9 54 in let s8 := add64 s8 s10 in
  SP s0 s1 s2 s3 s4 s5 s6 s7 s8 s9 s10 s11.
(* spooky2.hpp:150 *)
Definition sp_mix_10 (k : N) (st : sp_st) : sp_st := let '(SP s0 s1 s2 s3 s4 s5 s6 s7 s8 s9 s10 s11) := st in
  let s10 := add64 s10 k in let s0 := N.lxor s0 s8 in let s9 := N.lxor s9 s10 in let s10 := rotl64 s10 22 in let s9 := add64 s9 s11 in
  SP s0 s1 s2 s3 s4 s5 s6 s7 s8 s9 s10 s11.
(* spooky2.hpp:151 *)
Definition sp_mix_11 (k : N) (st : sp_st) : sp_st := let '(SP s0 s1 s2 s3 s4 s5 s6 s7 s8 s9 s10 s11) := st in
  let s11 := add64 s11 k in let s1 := N.lxor s1 s9 in let s10 := N.lxor s10 s11 in let s11 := rotl64 s11 46 in let s10 := add64 s10 s0 in
  SP s0 s1 s2 s3 s4 s5 s6 s7 s8 s9 s10 s11.
(* spooky2.hpp:140-151 *)
Definition sp_mix_ (k0 k1 k2 k3 k4 k5 k6 k7 k8 k9 k10 k11 : N) (st : sp_st) : sp_st :=
  let st := sp_mix_0 k0 st in let st := sp_mix_1 k1 st in let st := sp_mix_2 k2 st in let st := sp_mix_3 k3 st in let st := sp_mix_4 k4 st in let st := sp_mix_5 k5 st in let st := sp_mix_6 k6 st in let st := sp_mix_7 k7 st in let st := sp_mix_8 k8 st in let st := sp_mix_9 k9 st in let st := sp_mix_10 k10 st in let st := sp_mix_11 k11 st in st.
(* spooky2.hpp:135-152 *)
Definition sp_mix (le : bool) (p : ptr) (st : sp_st) : res sp_st :=
  k <- sp_read12 le p ;;
  match k with
  | [k0; k1; k2; k3; k4; k5; k6; k7; k8; k9; k10; k11] => Ok (sp_mix_ k0 k1 k2 k3 k4 k5 k6 k7 k8 k9 k10 k11 st)
  | _ => UB
  end.

(* spooky2.hpp:154-186 *)
Fixpoint sp_update_ (le : bool) (st : sp_st) (p : ptr) (k : nat) : res sp_st :=
  match k with
  | O => Ok st
  | S k' => st <- sp_mix le p st ;; p <- padd p 96 ;; sp_update_ le st p k'
  end.

(* spooky2.hpp:193; end_partial, line by line *)
Definition sp_end_partial_0 (st : sp_st) : sp_st := let '(SP h0 h1 h2 h3 h4 h5 h6 h7 h8 h9 h10 h11) := st in
  let h11 := add64 h11 h1 in let h2 := N.lxor h2 h11 in let h1 := rotl64 h1 44 in
  SP h0 h1 h2 h3 h4 h5 h6 h7 h8 h9 h10 h11.
(* spooky2.hpp:194 *)
Definition sp_end_partial_1 (st : sp_st) : sp_st := let '(SP h0 h1 h2 h3 h4 h5 h6 h7 h8 h9 h10 h11) := st in
  let h0 := add64 h0 h2 in let h3 := N.lxor h3 h0 in let h2 := rotl64 h2 15 in
  SP h0 h1 h2 h3 h4 h5 h6 h7 h8 h9 h10 h11.
(* spooky2.hpp:195 *)
Definition sp_end_partial_2 (st : sp_st) : sp_st := let '(SP h0 h1 h2 h3 h4 h5 h6 h7 h8 h9 h10 h11) := st in
  let h1 := add64 h1 h3 in let h4 := N.lxor h4 h1 in let h3 := rotl64 h3 34 in
  SP h0 h1 h2 h3 h4 h5 h6 h7 h8 h9 h10 h11.
(* spooky2.hpp:196 *)
Definition sp_end_partial_3 (st : sp_st) : sp_st := let '(SP h0 h1 h2 h3 h4 h5 h6 h7 h8 h9 h10 h11) := st in
  let h2 := add64 h2 h4 in let h5 := N.lxor h5 h2 in let h4 := rotl64 h4 21 in
  SP h0 h1 h2 h3 h4 h5 h6 h7 h8 h9 h10 h11.
(* spooky2.hpp:197 *)
Definition sp_end_partial_4 (st : sp_st) : sp_st := let '(SP h0 h1 h2 h3 h4 h5 h6 h7 h8 h9 h10 h11) := st in
  let h3 := add64 h3 h5 in let h6 := N.lxor h6 h3 in let h5 := rotl64 h5 38 in
  SP h0 h1 h2 h3 h4 h5 h6 h7 h8 h9 h10 h11.
(* spooky2.hpp:198 *)
Definition sp_end_partial_5 (st : sp_st) : sp_st := let '(SP h0 h1 h2 h3 h4 h5 h6 h7 h8 h9 h10 h11) := st in
  let h4 := add64 h4 h6 in let h7 := N.lxor h7 h4 in let h6 := rotl64 h6 33 in
  SP h0 h1 h2 h3 h4 h5 h6 h7 h8 h9 h10 h11.
(* spooky2.hpp:199 *)
Definition sp_end_partial_6 (st : sp_st) : sp_st := let '(SP h0 h1 h2 h3 h4 h5 h6 h7 h8 h9 h10 h11) := st in
  let h5 := add64 h5 h7 in let h8 := N.lxor h8 h5 in let h7 := rotl64 h7 10 in
  SP h0 h1 h2 h3 h4 h5 h6 h7 h8 h9 h10 h11.
(* spooky2.hpp:200 *)
Definition sp_end_partial_7 (st : sp_st) : sp_st := let '(SP h0 h1 h2 h3 h4 h5 h6 h7 h8 h9 h10 h11) := st in
  let h6 := add64 h6 h8 in let h9 := N.lxor h9 h6 in let h8 := rotl64 h8 13 in
  SP h0 h1 h2 h3 h4 h5 h6 h7 h8 h9 h10 h11.
(* spooky2.hpp:201 *)
Definition sp_end_partial_8 (st : sp_st) : sp_st := let '(SP h0 h1 h2 h3 h4 h5 h6 h7 h8 h9 h10 h11) := st in
  let h7 := add64 h7 h9 in let h10 := N.lxor h10 h7 in let h9 := rotl64 h9 38 in
  SP h0 h1 h2 h3 h4 h5 h6 h7 h8 h9 h10 h11.
(* spooky2.hpp:202 *)
Definition sp_end_partial_9 (st : sp_st) : sp_st := let '(SP h0 h1 h2 h3 h4 h5 h6 h7 h8 h9 h10 h11) := st in
  let h8 := add64 h8 h10 in let h11 := N.lxor h11 h8 in let h10 := rotl64 h10 53 in
  SP h0 h1 h2 h3 h4 h5 h6 h7 h8 h9 h10 h11.
(* spooky2.hpp:203 *)
Definition sp_end_partial_10 (st : sp_st) : sp_st := let '(SP h0 h1 h2 h3 h4 h5 h6 h7 h8 h9 h10 h11) := st in
  let h9 := add64 h9 h11 in let h0 := N.lxor h0 h9 in let h11 := rotl64 h11 42 in
  SP h0 h1 h2 h3 h4 h5 h6 h7 h8 h9 h10 h11.
(* spooky2.hpp:204 *)
Definition sp_end_partial_11 (st : sp_st) : sp_st := let '(SP h0 h1 h2 h3 h4 h5 h6 h7 h8 h9 h10 h11) := st in
  let h10 := add64 h10 h0 in let h1 := N.lxor h1 h10 in let h0 := rotl64 h0 54 in
  SP h0 h1 h2 h3 h4 h5 h6 h7 h8 h9 h10 h11.
(* spooky2.hpp:188-205 *)
Definition sp_end_partial (st : sp_st) : sp_st :=
  let st := sp_end_partial_0 st in let st := sp_end_partial_1 st in let st := sp_end_partial_2 st in let st := sp_end_partial_3 st in let st := sp_end_partial_4 st in let st := sp_end_partial_5 st in let st := sp_end_partial_6 st in let st := sp_end_partial_7 st in let st := sp_end_partial_8 st in let st := sp_end_partial_9 st in let st := sp_end_partial_10 st in let st := sp_end_partial_11 st in st.

(* spooky2.hpp:207-228; k_i is detail::read64le( p + 8 * i ) *)
Definition sp_end_ (k0 k1 k2 k3 k4 k5 k6 k7 k8 k9 k10 k11 : N) (st : sp_st) : sp_st :=
  let '(SP h0 h1 h2 h3 h4 h5 h6 h7 h8 h9 h10 h11) := st in
  let h0 := add64 h0 k0 in
  let h1 := add64 h1 k1 in
  let h2 := add64 h2 k2 in
  let h3 := add64 h3 k3 in
  let h4 := add64 h4 k4 in
  let h5 := add64 h5 k5 in
  let h6 := add64 h6 k6 in
  let h7 := add64 h7 k7 in
  let h8 := add64 h8 k8 in
  let h9 := add64 h9 k9 in
  let h10 := add64 h10 k10 in
  let h11 := add64 h11 k11 in
  sp_end_partial (sp_end_partial (sp_end_partial (SP h0 h1 h2 h3 h4 h5 h6 h7 h8 h9 h10 h11))).
(* spooky2.hpp:207-228 *)
Definition sp_end (le : bool) (p : ptr) (st : sp_st) : res sp_st :=
  k <- sp_read12 le p ;;
  match k with
  | [k0; k1; k2; k3; k4; k5; k6; k7; k8; k9; k10; k11] => Ok (sp_end_ k0 k1 k2 k3 k4 k5 k6 k7 k8 k9 k10 k11 st)
  | _ => UB
  end.

(* spooky2.hpp:230-235 *)
Definition sp_init (seed1 seed2 : N) : sp_st :=
  SP seed1 seed2 sp_const seed1 seed2 sp_const seed1 seed2 sp_const seed1 seed2 sp_const.

(* spooky2.hpp:242-245 *)
Definition sp_seed2 (junk : list N) (seed1 seed2 : N) : bst sp_st := mkB (sp_init seed1 seed2) junk 0 0.
(* spooky2.hpp:242-245 with seed2 = 0 *)
Definition sp_seed (junk : list N) (seed1 : N) : bst sp_st := sp_seed2 junk seed1 0.

(* spooky2.hpp:311-330, from BOOST_ASSERT( m_ == 0 ) to the end *)
Definition sp_update_tail (le : bool) (s : bst sp_st) (p : ptr) (n : nat) : res (bst sp_st) :=
  assert! (Nat.eqb (b_m s) 0) ;;
  '(st, p, n) <- (let k := (n / 192)%nat in
                  st <- sp_update_ le (b_st s) p (k * 2) ;;
                  p <- padd p (k * 192) ;;
                  Ok (st, p, (n - k * 192)%nat)) ;;
  assert! (Nat.ltb n 192) ;;
  '(buf, m) <- (if Nat.ltb 0 n
                then buf <- std_memcpy (b_buf s) 0 p n ;; Ok (buf, n)
                else Ok (b_buf s, b_m s)) ;;
  assert! (N.of_nat m =? b_n s mod 192) ;;
  Ok (mkB st buf m (b_n s)).

(* spooky2.hpp:278-331 *)
Definition sp_update (cw : N) (le : bool) (s : bst sp_st) (p : ptr) (n : nat) : res (bst sp_st) :=
  assert! (N.of_nat (b_m s) =? b_n s mod 192) ;;
  if Nat.eqb n 0 then Ok s else
  let n_ := (b_n s + N.of_nat n) mod cw in
  if Nat.ltb 0 (b_m s) then
    let k := (192 - b_m s)%nat in
    let k := if Nat.ltb n k then n else k in
    buf <- std_memcpy (b_buf s) (b_m s) p k ;;
    p <- padd p k ;;
    let n := (n - k)%nat in
    let m := (b_m s + k)%nat in
    if Nat.ltb m 192 then Ok (mkB (b_st s) buf m n_) else
    assert! (Nat.eqb m 192) ;;
    st <- sp_update_ le (b_st s) (Ptr buf) 2 ;;
    sp_update_tail le (mkB st buf 0 n_) p n
  else
    sp_update_tail le (mkB (b_st s) (b_buf s) (b_m s) n_) p n.

(* spooky2.hpp:333-405; [off] is the offset of p in buffer_ *)
Definition sp_result (cw : N) (le : bool) (s : bst sp_st) : res (list N * bst sp_st) :=
  assert! (N.of_nat (b_m s) =? b_n s mod 192) ;;
  let '(SP h0 h1 h2 h3 h4 h5 h6 h7 h8 h9 h10 h11) := b_st s in
  '(st, buf) <-
    (if b_n s <? 192 then
       '(h0, h1) <- sp_short_hash le (Ptr (b_buf s)) (N.to_nat (b_n s)) h0 h1 ;;
       Ok (SP h0 h1 h2 h3 h4 h5 h6 h7 h8 h9 h10 h11, b_buf s)
     else
       '(st, off, m) <-
         (if Nat.leb 96 (b_m s) then
            st <- sp_mix le (Ptr (b_buf s)) (b_st s) ;;
            Ok (st, 96%nat, (b_m s - 96)%nat)
          else Ok (b_st s, 0%nat, b_m s)) ;;
       buf <- std_memset (b_buf s) (off + m) 0 (96 - m) ;;
       buf <- store buf (off + 95) (N.land (N.of_nat m) 255 mod 256) ;;
       p <- padd (Ptr buf) off ;;
       st <- sp_end le p st ;;
       Ok (st, buf)) ;;
  let n_ := (b_n s + N.of_nat (192 - b_m s)) mod cw in
  let n_ := if n_ <? 192 then 0 else n_ in
  buf <- std_memset buf 0 0 192 ;;
  let '(SP h0 h1 _ _ _ _ _ _ _ _ _ _) := st in
  Ok (write64le (rt le) h0 ++ write64le (rt le) h1, mkB st buf 0 n_).

(* spooky2.hpp:247-276 *)
Definition sp_bytes (cw : N) (le : bool) (junk : list N) (p : ptr) (n : nat) : res (bst sp_st) :=
  if Nat.eqb n 0 then Ok (mkB (sp_init 0 0) junk 0 0)
  else if Nat.leb n 16 then
    q <- std_memcpy (zeros 18) 0 p n ;;
    q0 <- padd (Ptr q) 0 ;; seed1 <- read64le (rt le) q0 ;;
    q8 <- padd (Ptr q) 8 ;; seed2 <- read64le (rt le) q8 ;;
    Ok (mkB (sp_init seed1 seed2) junk 0 0)
  else
    p0 <- padd p 0 ;; seed1 <- read64le (rt le) p0 ;;
    p8 <- padd p 8 ;; seed2 <- read64le (rt le) p8 ;;
    p <- padd p 16 ;;
    let n := (n - 16)%nat in
    s <- sp_update cw le (mkB (sp_init seed1 seed2) junk 0 0) p n ;;
    '(_, s) <- sp_result cw le s ;;
    Ok s.

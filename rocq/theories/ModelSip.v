(* Model of include/boost/hash2/siphash.hpp. *)
From Verif Require Import Base.
Open Scope N_scope.

(* ------------------------------------------------------------------ siphash_64 *)
(* siphash.hpp:29-32 *)
Definition sip64_st : Type := (N * N * N * N)%type.       (* v0, v1, v2, v3 *)

(* siphash.hpp:41-57 *)
Definition sip64_sipround (st : sip64_st) : sip64_st :=
  let '(v0, v1, v2, v3) := st in
  let v0 := add64 v0 v1 in
  let v1 := rotl64 v1 13 in
  let v1 := N.lxor v1 v0 in
  let v0 := rotl64 v0 32 in
  let v2 := add64 v2 v3 in
  let v3 := rotl64 v3 16 in
  let v3 := N.lxor v3 v2 in
  let v0 := add64 v0 v3 in
  let v3 := rotl64 v3 21 in
  let v3 := N.lxor v3 v0 in
  let v2 := add64 v2 v1 in
  let v1 := rotl64 v1 17 in
  let v1 := N.lxor v1 v2 in
  let v2 := rotl64 v2 32 in
  (v0, v1, v2, v3).

(* siphash.hpp:59-69 *)
Definition sip64_update_ (pf : plat) (st : sip64_st) (p : ptr) : res sip64_st :=
  m <- read64le pf p ;;
  let '(v0, v1, v2, v3) := st in
  let v3 := N.lxor v3 m in
  let '(v0, v1, v2, v3) := sip64_sipround (v0, v1, v2, v3) in
  let '(v0, v1, v2, v3) := sip64_sipround (v0, v1, v2, v3) in
  let v0 := N.lxor v0 m in
  Ok (v0, v1, v2, v3).

(* siphash.hpp:102-155, loop "while( n >= 8 )" *)
Fixpoint sip64_blocks (pf : plat) (fuel : nat) (st : sip64_st) (p : ptr) (n : nat)
  : res (sip64_st * ptr * nat) :=
  if Nat.leb 8 n then
    match fuel with
    | O => OutOfFuel
    | S fuel' => st <- sip64_update_ pf st p ;;
                 p <- padd p 8 ;;
                 sip64_blocks pf fuel' st p (n - 8)
    end
  else Ok (st, p, n).

(* siphash.hpp:102-155, from BOOST_ASSERT( m_ == 0 ) to the end *)
Definition sip64_update_tail (pf : plat) (s : bst sip64_st) (p : ptr) (n : nat) : res (bst sip64_st) :=
  assert! (Nat.eqb (b_m s) 0) ;;
  '(st, p, n) <- sip64_blocks pf n (b_st s) p n ;;
  assert! (Nat.ltb n 8) ;;
  '(buf, m) <- (if Nat.ltb 0 n
                then buf <- memcpy pf (b_buf s) 0 p n ;; Ok (buf, n)
                else Ok (b_buf s, b_m s)) ;;
  assert! (N.of_nat m =? b_n s mod 8) ;;
  Ok (mkB st buf m (b_n s)).

(* siphash.hpp:102-155 *)
Definition sip64_update (pf : plat) (s : bst sip64_st) (p : ptr) (n : nat) : res (bst sip64_st) :=
  assert! (N.of_nat (b_m s) =? b_n s mod 8) ;;
  if Nat.eqb n 0 then Ok s else
  let n_ := (b_n s + N.of_nat n) mod 2^64 in
  if Nat.ltb 0 (b_m s) then
    let k := (8 - b_m s)%nat in
    let k := if Nat.ltb n k then n else k in
    buf <- memcpy pf (b_buf s) (b_m s) p k ;;
    p <- padd p k ;;
    let n := (n - k)%nat in
    let m := (b_m s + k)%nat in
    if Nat.ltb m 8 then Ok (mkB (b_st s) buf m n_) else
    assert! (Nat.eqb m 8) ;;
    st <- sip64_update_ pf (b_st s) (Ptr buf) ;;
    buf <- memset pf buf 0 0 8 ;;
    sip64_update_tail pf (mkB st buf 0 n_) p n
  else
    sip64_update_tail pf (mkB (b_st s) (b_buf s) (b_m s) n_) p n.

(* siphash.hpp:163-187 *)
Definition sip64_result (pf : plat) (s : bst sip64_st) : res (N * bst sip64_st) :=
  assert! (N.of_nat (b_m s) =? b_n s mod 8) ;;
  buf <- memset pf (b_buf s) (b_m s) 0 (8 - b_m s) ;;
  buf <- store buf 7 (N.land (b_n s) 0xFF) ;;
  st <- sip64_update_ pf (b_st s) (Ptr buf) ;;
  let '(v0, v1, v2, v3) := st in
  let v2 := N.lxor v2 0xFF in
  let '(v0, v1, v2, v3) :=
    sip64_sipround (sip64_sipround (sip64_sipround (sip64_sipround (v0, v1, v2, v3)))) in
  let n_ := add64 (b_n s) (N.of_nat (8 - b_m s)) in
  buf <- memset pf buf 0 0 8 ;;
  Ok (N.lxor (N.lxor (N.lxor v0 v1) v2) v3, mkB (v0, v1, v2, v3) buf 0 n_).

(* siphash.hpp:29-37,75 *)
Definition sip64_init : bst sip64_st :=
  mkB (0x736f6d6570736575, 0x646f72616e646f6d, 0x6c7967656e657261, 0x7465646279746573) (zeros 8) 0 0.

(* v0 ^= k0; v1 ^= k1; v2 ^= k0; v3 ^= k1;   (siphash.hpp:90-93) *)
Definition sip64_key (s : bst sip64_st) (k0 k1 : N) : bst sip64_st :=
  let '(v0, v1, v2, v3) := b_st s in
  mkB (N.lxor v0 k0, N.lxor v1 k1, N.lxor v2 k0, N.lxor v3 k1) (b_buf s) (b_m s) (b_n s).

(* siphash.hpp:77-81 *)
Definition sip64_seed (seed : N) : res (bst sip64_st) :=
  let '(v0, v1, v2, v3) := b_st sip64_init in
  Ok (mkB (N.lxor v0 seed, v1, N.lxor v2 seed, v3) (zeros 8) 0 0).

(* siphash.hpp:83-100 *)
Definition sip64_bytes (pf : plat) (p : ptr) (n : nat) : res (bst sip64_st) :=
  if Nat.eqb n 16 then
    p0 <- padd p 0 ;; k0 <- read64le pf p0 ;;
    p1 <- padd p 8 ;; k1 <- read64le pf p1 ;;
    Ok (sip64_key sip64_init k0 k1)
  else if negb (Nat.eqb n 0) then
    s <- sip64_update pf sip64_init p n ;;
    '(_, s) <- sip64_result pf s ;;
    Ok s
  else Ok sip64_init.

(* ------------------------------------------------------------------ siphash_32 *)
(* siphash.hpp:194-197 *)
Definition sip32_st : Type := (N * N * N * N)%type.       (* v0, v1, v2, v3 *)

(* siphash.hpp:206-222 *)
Definition sip32_sipround (st : sip32_st) : sip32_st :=
  let '(v0, v1, v2, v3) := st in
  let v0 := add32 v0 v1 in
  let v1 := rotl32 v1 5 in
  let v1 := N.lxor v1 v0 in
  let v0 := rotl32 v0 16 in
  let v2 := add32 v2 v3 in
  let v3 := rotl32 v3 8 in
  let v3 := N.lxor v3 v2 in
  let v0 := add32 v0 v3 in
  let v3 := rotl32 v3 7 in
  let v3 := N.lxor v3 v0 in
  let v2 := add32 v2 v1 in
  let v1 := rotl32 v1 13 in
  let v1 := N.lxor v1 v2 in
  let v2 := rotl32 v2 16 in
  (v0, v1, v2, v3).

(* siphash.hpp:224-234 *)
Definition sip32_update_ (pf : plat) (st : sip32_st) (p : ptr) : res sip32_st :=
  m <- read32le pf p ;;
  let '(v0, v1, v2, v3) := st in
  let v3 := N.lxor v3 m in
  let '(v0, v1, v2, v3) := sip32_sipround (v0, v1, v2, v3) in
  let '(v0, v1, v2, v3) := sip32_sipround (v0, v1, v2, v3) in
  let v0 := N.lxor v0 m in
  Ok (v0, v1, v2, v3).

(* siphash.hpp:272-325, loop "while( n >= 4 )" *)
Fixpoint sip32_blocks (pf : plat) (fuel : nat) (st : sip32_st) (p : ptr) (n : nat)
  : res (sip32_st * ptr * nat) :=
  if Nat.leb 4 n then
    match fuel with
    | O => OutOfFuel
    | S fuel' => st <- sip32_update_ pf st p ;;
                 p <- padd p 4 ;;
                 sip32_blocks pf fuel' st p (n - 4)
    end
  else Ok (st, p, n).

(* siphash.hpp:272-325, from BOOST_ASSERT( m_ == 0 ) to the end *)
Definition sip32_update_tail (pf : plat) (s : bst sip32_st) (p : ptr) (n : nat) : res (bst sip32_st) :=
  assert! (Nat.eqb (b_m s) 0) ;;
  '(st, p, n) <- sip32_blocks pf n (b_st s) p n ;;
  assert! (Nat.ltb n 4) ;;
  '(buf, m) <- (if Nat.ltb 0 n
                then buf <- memcpy pf (b_buf s) 0 p n ;; Ok (buf, n)
                else Ok (b_buf s, b_m s)) ;;
  assert! (N.of_nat m =? b_n s mod 4) ;;
  Ok (mkB st buf m (b_n s)).

(* siphash.hpp:272-325.  k and m_ are uint32_t here; the casts are exact because
   the value is below 4. *)
Definition sip32_update (pf : plat) (s : bst sip32_st) (p : ptr) (n : nat) : res (bst sip32_st) :=
  assert! (N.of_nat (b_m s) =? b_n s mod 4) ;;
  if Nat.eqb n 0 then Ok s else
  let n_ := add32 (b_n s) (N.of_nat n mod 2^32) in
  if Nat.ltb 0 (b_m s) then
    let k := (4 - b_m s)%nat in
    let k := if Nat.ltb n k then n else k in
    buf <- memcpy pf (b_buf s) (b_m s) p k ;;
    p <- padd p k ;;
    let n := (n - k)%nat in
    let m := (b_m s + k)%nat in
    if Nat.ltb m 4 then Ok (mkB (b_st s) buf m n_) else
    assert! (Nat.eqb m 4) ;;
    st <- sip32_update_ pf (b_st s) (Ptr buf) ;;
    buf <- memset pf buf 0 0 4 ;;
    sip32_update_tail pf (mkB st buf 0 n_) p n
  else
    sip32_update_tail pf (mkB (b_st s) (b_buf s) (b_m s) n_) p n.

(* siphash.hpp:333-357 *)
Definition sip32_result (pf : plat) (s : bst sip32_st) : res (N * bst sip32_st) :=
  assert! (N.of_nat (b_m s) =? b_n s mod 4) ;;
  buf <- memset pf (b_buf s) (b_m s) 0 (4 - b_m s) ;;
  buf <- store buf 3 (N.land (b_n s) 0xFF) ;;
  st <- sip32_update_ pf (b_st s) (Ptr buf) ;;
  let '(v0, v1, v2, v3) := st in
  let v2 := N.lxor v2 0xFF in
  let '(v0, v1, v2, v3) :=
    sip32_sipround (sip32_sipround (sip32_sipround (sip32_sipround (v0, v1, v2, v3)))) in
  let n_ := add32 (b_n s) (N.of_nat (4 - b_m s)) in
  buf <- memset pf buf 0 0 4 ;;
  Ok (N.lxor v1 v3, mkB (v0, v1, v2, v3) buf 0 n_).

(* siphash.hpp:194-202,240 *)
Definition sip32_init : bst sip32_st :=
  mkB (0, 0, 0x6c796765, 0x74656462) (zeros 4) 0 0.

(* v0 ^= k0; v1 ^= k1; v2 ^= k0; v3 ^= k1;   (siphash.hpp:247-250,260-263) *)
Definition sip32_key (s : bst sip32_st) (k0 k1 : N) : bst sip32_st :=
  let '(v0, v1, v2, v3) := b_st s in
  mkB (N.lxor v0 k0, N.lxor v1 k1, N.lxor v2 k0, N.lxor v3 k1) (b_buf s) (b_m s) (b_n s).

(* siphash.hpp:242-251 *)
Definition sip32_seed (seed : N) : res (bst sip32_st) :=
  let k0 := seed mod 2^32 in
  let k1 := shr seed 32 mod 2^32 in
  Ok (sip32_key sip32_init k0 k1).

(* siphash.hpp:253-270 *)
Definition sip32_bytes (pf : plat) (p : ptr) (n : nat) : res (bst sip32_st) :=
  if Nat.eqb n 8 then
    p0 <- padd p 0 ;; k0 <- read32le pf p0 ;;
    p1 <- padd p 4 ;; k1 <- read32le pf p1 ;;
    Ok (sip32_key sip32_init k0 k1)
  else if negb (Nat.eqb n 0) then
    s <- sip32_update pf sip32_init p n ;;
    '(_, s) <- sip32_result pf s ;;
    Ok s
  else Ok sip32_init.

(* Model of include/boost/hash2/legacy/murmur3.hpp.  None of it is constexpr: [le] is the
   platform's byte order, [rt le] the platform at run time.  n_ is a std::size_t with range
   [cw] (2^32 or 2^64).  The constructors leave buffer_ uninitialized: its initial contents are
   the parameter [junk], about which nothing is assumed except its length (not even that its
   elements are byte values). *)
From Verif Require Import Base.
Open Scope N_scope.

(* no counterpart in /repo: the platform at run time *)
Definition rt (le : bool) : plat := {| p_le := le; p_cx := false |}.

(* ------------------------------------------------------------------ murmur3_32 *)
(* legacy/murmur3.hpp:28 *)
Definition mur32_st : Type := N.        (* h_ *)
(* legacy/murmur3.hpp:37-38 *)
Definition mur32_c1 : N := 0xcc9e2d51.
(* legacy/murmur3.hpp:38 *)
Definition mur32_c2 : N := 0x1b873593.

(* legacy/murmur3.hpp:42-51 *)
Definition mur32_mix (h k : N) : N :=
  let k := mul32 k mur32_c1 in
  let k := rotl32 k 15 in
  let k := mul32 k mur32_c2 in
  let h := N.lxor h k in
  let h := rotl32 h 13 in
  add32 (mul32 h 5) 0xe6546b64.

(* legacy/murmur3.hpp:57-61, loop body *)
Definition mur32_step (le : bool) (h : mur32_st) (p : ptr) : res mur32_st :=
  k <- read32le (rt le) p ;; Ok (mur32_mix h k).

(* legacy/murmur3.hpp:53-64 *)
Fixpoint mur32_update_ (le : bool) (st : mur32_st) (p : ptr) (k : nat) : res mur32_st :=
  match k with
  | O => Ok st
  | S k' => st <- mur32_step le st p ;;
            p <- padd p 4 ;;
            mur32_update_ le st p k'
  end.

(* legacy/murmur3.hpp:108-161, from BOOST_ASSERT( m_ == 0 ) to the end *)
Definition mur32_update_tail (le : bool) (s : bst mur32_st) (p : ptr) (n : nat) : res (bst mur32_st) :=
  assert! (Nat.eqb (b_m s) 0) ;;
  '(st, p, n) <- (let k := (n / 4)%nat in
                  st <- mur32_update_ le (b_st s) p k ;;
                  p <- padd p (4 * k) ;;
                  Ok (st, p, (n - 4 * k)%nat)) ;;
  assert! (Nat.ltb n 4) ;;
  '(buf, m) <- (if Nat.ltb 0 n
                then buf <- std_memcpy (b_buf s) 0 p n ;; Ok (buf, n)
                else Ok (b_buf s, b_m s)) ;;
  assert! (N.of_nat m =? b_n s mod 4) ;;
  Ok (mkB st buf m (b_n s)).

(* legacy/murmur3.hpp:108-161 *)
Definition mur32_update (cw : N) (le : bool) (s : bst mur32_st) (p : ptr) (n : nat) : res (bst mur32_st) :=
  assert! (N.of_nat (b_m s) =? b_n s mod 4) ;;
  if Nat.eqb n 0 then Ok s else
  let n_ := (b_n s + N.of_nat n) mod cw in
  if Nat.ltb 0 (b_m s) then
    let k := (4 - b_m s)%nat in
    let k := if Nat.ltb n k then n else k in
    buf <- std_memcpy (b_buf s) (b_m s) p k ;;
    p <- padd p k ;;
    let n := (n - k)%nat in
    let m := (b_m s + k)%nat in
    if Nat.ltb m 4 then Ok (mkB (b_st s) buf m n_) else
    assert! (Nat.eqb m 4) ;;
    st <- mur32_update_ le (b_st s) (Ptr buf) 1 ;;
    mur32_update_tail le (mkB st buf 0 n_) p n
  else
    mur32_update_tail le (mkB (b_st s) (b_buf s) (b_m s) n_) p n.

(* legacy/murmur3.hpp:172-188 *)
Definition mur32_switch (m : nat) (buf : list N) : res N :=
  match m with
  | 1%nat => b0 <- deref (Ptr buf) 0 ;; Ok b0
  | 2%nat => b0 <- deref (Ptr buf) 0 ;; b1 <- deref (Ptr buf) 1 ;;
             Ok ((b0 + N.shiftl b1 8) mod 2^32)
  | 3%nat => b0 <- deref (Ptr buf) 0 ;; b1 <- deref (Ptr buf) 1 ;; b2 <- deref (Ptr buf) 2 ;;
             Ok ((b0 + N.shiftl b1 8 + N.shiftl b2 16) mod 2^32)
  | _ => Ok 0
  end.

(* legacy/murmur3.hpp:163-212 *)
Definition mur32_result (cw : N) (s : bst mur32_st) : res (N * bst mur32_st) :=
  assert! (N.of_nat (b_m s) =? b_n s mod 4) ;;
  k <- mur32_switch (b_m s) (b_buf s) ;;
  let k := mul32 k mur32_c1 in
  let k := rotl32 k 15 in
  let k := mul32 k mur32_c2 in
  let h := b_st s in
  let h := N.lxor h k in
  let h := N.lxor h (b_n s mod 2^32) in
  let h := N.lxor h (shr h 16) in
  let h := mul32 h 0x85ebca6b in
  let h := N.lxor h (shr h 13) in
  let h := mul32 h 0xc2b2ae35 in
  let h := N.lxor h (shr h 16) in
  let n_ := (b_n s + N.of_nat (4 - b_m s)) mod cw in
  buf <- std_memset (b_buf s) 0 0 4 ;;
  Ok (h, mkB (b_st s) buf 0 n_).

(* legacy/murmur3.hpp:71-81 *)
Definition mur32_seed (junk : list N) (seed : N) : bst mur32_st :=
  let h := seed mod 2^32 in
  let k := shr seed 32 mod 2^32 in
  let h := if negb (k =? 0) then mur32_mix h k else h in
  mkB h junk 0 0.

(* legacy/murmur3.hpp:83-106 *)
Definition mur32_bytes (cw : N) (le : bool) (junk : list N) (p : ptr) (n : nat) : res (bst mur32_st) :=
  if Nat.eqb n 0 then Ok (mkB 0 junk 0 0)
  else if Nat.leb n 4 then
    q <- std_memcpy (zeros 4) 0 p n ;;
    h <- read32le (rt le) (Ptr q) ;;
    Ok (mkB h junk 0 0)
  else
    h <- read32le (rt le) p ;;
    p <- padd p 4 ;;
    let n := (n - 4)%nat in
    s <- mur32_update cw le (mkB h junk 0 0) p n ;;
    '(_, s) <- mur32_result cw s ;;
    Ok s.

(* ------------------------------------------------------------------ murmur3_128 *)
(* legacy/murmur3.hpp:219 *)
Definition mur128_st : Type := (N * N)%type.        (* h1_, h2_ *)
(* legacy/murmur3.hpp:228-229 *)
Definition mur128_c1 : N := 0x87c37b91114253d5.
(* legacy/murmur3.hpp:229 *)
Definition mur128_c2 : N := 0x4cf5ad432745937f.

(* legacy/murmur3.hpp:237-249, loop body *)
Definition mur128_step (le : bool) (st : mur128_st) (p : ptr) : res mur128_st :=
  let '(h1, h2) := st in
  p0 <- padd p 0 ;; k1 <- read64le (rt le) p0 ;;
  p1 <- padd p 8 ;; k2 <- read64le (rt le) p1 ;;
  let k1 := mul64 k1 mur128_c1 in let k1 := rotl64 k1 31 in let k1 := mul64 k1 mur128_c2 in
  let h1 := N.lxor h1 k1 in
  let h1 := rotl64 h1 27 in let h1 := add64 h1 h2 in let h1 := add64 (mul64 h1 5) 0x52dce729 in
  let k2 := mul64 k2 mur128_c2 in let k2 := rotl64 k2 33 in let k2 := mul64 k2 mur128_c1 in
  let h2 := N.lxor h2 k2 in
  let h2 := rotl64 h2 31 in let h2 := add64 h2 h1 in let h2 := add64 (mul64 h2 5) 0x38495ab5 in
  Ok (h1, h2).

(* legacy/murmur3.hpp:233-252 *)
Fixpoint mur128_update_ (le : bool) (st : mur128_st) (p : ptr) (k : nat) : res mur128_st :=
  match k with
  | O => Ok st
  | S k' => st <- mur128_step le st p ;;
            p <- padd p 16 ;;
            mur128_update_ le st p k'
  end.

(* legacy/murmur3.hpp:316-369, from BOOST_ASSERT( m_ == 0 ) to the end *)
Definition mur128_update_tail (le : bool) (s : bst mur128_st) (p : ptr) (n : nat) : res (bst mur128_st) :=
  assert! (Nat.eqb (b_m s) 0) ;;
  '(st, p, n) <- (let k := (n / 16)%nat in
                  st <- mur128_update_ le (b_st s) p k ;;
                  p <- padd p (16 * k) ;;
                  Ok (st, p, (n - 16 * k)%nat)) ;;
  assert! (Nat.ltb n 16) ;;
  '(buf, m) <- (if Nat.ltb 0 n
                then buf <- std_memcpy (b_buf s) 0 p n ;; Ok (buf, n)
                else Ok (b_buf s, b_m s)) ;;
  assert! (N.of_nat m =? b_n s mod 16) ;;
  Ok (mkB st buf m (b_n s)).

(* legacy/murmur3.hpp:316-369 *)
Definition mur128_update (cw : N) (le : bool) (s : bst mur128_st) (p : ptr) (n : nat) : res (bst mur128_st) :=
  assert! (N.of_nat (b_m s) =? b_n s mod 16) ;;
  if Nat.eqb n 0 then Ok s else
  let n_ := (b_n s + N.of_nat n) mod cw in
  if Nat.ltb 0 (b_m s) then
    let k := (16 - b_m s)%nat in
    let k := if Nat.ltb n k then n else k in
    buf <- std_memcpy (b_buf s) (b_m s) p k ;;
    p <- padd p k ;;
    let n := (n - k)%nat in
    let m := (b_m s + k)%nat in
    if Nat.ltb m 16 then Ok (mkB (b_st s) buf m n_) else
    assert! (Nat.eqb m 16) ;;
    st <- mur128_update_ le (b_st s) (Ptr buf) 1 ;;
    mur128_update_tail le (mkB st buf 0 n_) p n
  else
    mur128_update_tail le (mkB (b_st s) (b_buf s) (b_m s) n_) p n.

(* legacy/murmur3.hpp:254-263 *)
Definition mur128_fmix (k : N) : N :=
  let k := N.lxor k (shr k 33) in
  let k := mul64 k 0xff51afd7ed558ccd in
  let k := N.lxor k (shr k 33) in
  let k := mul64 k 0xc4ceb9fe1a85ec53 in
  N.lxor k (shr k 33).

(* legacy/murmur3.hpp:371-409 *)
Definition mur128_result (cw : N) (le : bool) (s : bst mur128_st) : res (list N * bst mur128_st) :=
  assert! (N.of_nat (b_m s) =? b_n s mod 16) ;;
  buf <- std_memset (b_buf s) (b_m s) 0 (16 - b_m s) ;;
  let '(h1, h2) := b_st s in
  p0 <- padd (Ptr buf) 0 ;; k1 <- read64le (rt le) p0 ;;
  p1 <- padd (Ptr buf) 8 ;; k2 <- read64le (rt le) p1 ;;
  let k1 := mul64 k1 mur128_c1 in let k1 := rotl64 k1 31 in let k1 := mul64 k1 mur128_c2 in
  let h1 := N.lxor h1 k1 in
  let k2 := mul64 k2 mur128_c2 in let k2 := rotl64 k2 33 in let k2 := mul64 k2 mur128_c1 in
  let h2 := N.lxor h2 k2 in
  let h1 := N.lxor h1 (b_n s) in
  let h2 := N.lxor h2 (b_n s) in
  let h1 := add64 h1 h2 in
  let h2 := add64 h2 h1 in
  let h1 := mur128_fmix h1 in
  let h2 := mur128_fmix h2 in
  let h1 := add64 h1 h2 in
  let h2 := add64 h2 h1 in
  let n_ := (b_n s + N.of_nat (16 - b_m s)) mod cw in
  buf <- std_memset buf 0 0 16 ;;
  Ok (write64le (rt le) h1 ++ write64le (rt le) h2, mkB (b_st s) buf 0 n_).

(* legacy/murmur3.hpp:270-274 *)
Definition mur128_seed (junk : list N) (seed : N) : bst mur128_st := mkB (seed, seed) junk 0 0.
(* legacy/murmur3.hpp:276-280 *)
Definition mur128_seed2 (junk : list N) (seed1 seed2 : N) : bst mur128_st := mkB (seed1, seed2) junk 0 0.

(* legacy/murmur3.hpp:282-314 *)
Definition mur128_bytes (cw : N) (le : bool) (junk : list N) (p : ptr) (n : nat) : res (bst mur128_st) :=
  if Nat.eqb n 0 then Ok (mkB (0, 0) junk 0 0)
  else if Nat.leb n 8 then
    q <- std_memcpy (zeros 8) 0 p n ;;
    h <- read64le (rt le) (Ptr q) ;;
    Ok (mkB (h, h) junk 0 0)
  else if Nat.leb n 16 then
    q <- std_memcpy (zeros 18) 0 p n ;;
    q0 <- padd (Ptr q) 0 ;; h1 <- read64le (rt le) q0 ;;
    q8 <- padd (Ptr q) 8 ;; h2 <- read64le (rt le) q8 ;;
    Ok (mkB (h1, h2) junk 0 0)
  else
    p0 <- padd p 0 ;; h1 <- read64le (rt le) p0 ;;
    p8 <- padd p 8 ;; h2 <- read64le (rt le) p8 ;;
    p <- padd p 16 ;;
    let n := (n - 16)%nat in
    s <- mur128_update cw le (mkB (h1, h2) junk 0 0) p n ;;
    '(_, s) <- mur128_result cw le s ;;
    Ok s.

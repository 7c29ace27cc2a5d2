(* Model of include/boost/hash2/xxhash.hpp.  n_ of xxhash_32 is a std::size_t; its range
   (2^32 or 2^64) is the parameter [cw]. *)
From Verif Require Import Base.
Open Scope N_scope.

(* ------------------------------------------------------------------ xxhash_32 *)
(* xxhash.hpp:42-45 *)
Definition xx32_st : Type := (N * N * N * N)%type.       (* v1_, v2_, v3_, v4_ *)

(* xxhash.hpp:34-38 *)
Definition xx32_P1 : N := 2654435761.
(* xxhash.hpp:35 *)
Definition xx32_P2 : N := 2246822519.
(* xxhash.hpp:36 *)
Definition xx32_P3 : N := 3266489917.
(* xxhash.hpp:37 *)
Definition xx32_P4 : N := 668265263.
(* xxhash.hpp:38 *)
Definition xx32_P5 : N := 374761393.

(* xxhash.hpp:42-50,95 (default member initializers) *)
Definition xx32_init : bst xx32_st :=
  mkB (add32 xx32_P1 xx32_P2, xx32_P2, 0, sub32 0 xx32_P1) (zeros 16) 0 0.

(* xxhash.hpp:54-60 *)
Definition xx32_init_ (seed : N) : xx32_st :=
  (add32 (add32 seed xx32_P1) xx32_P2, add32 seed xx32_P2, seed, sub32 seed xx32_P1).

(* xxhash.hpp:62-68 *)
Definition xx32_round (seed input : N) : N :=
  let seed := add32 seed (mul32 input xx32_P2) in
  let seed := rotl32 seed 13 in
  mul32 seed xx32_P1.

(* xxhash.hpp:70-89, one iteration of the loop body *)
Definition xx32_step (pf : plat) (st : xx32_st) (p : ptr) : res xx32_st :=
  let '(v1, v2, v3, v4) := st in
  p0 <- padd p 0 ;; k0 <- read32le pf p0 ;;
  let v1 := xx32_round v1 k0 in
  p1 <- padd p 4 ;; k1 <- read32le pf p1 ;;
  let v2 := xx32_round v2 k1 in
  p2 <- padd p 8 ;; k2 <- read32le pf p2 ;;
  let v3 := xx32_round v3 k2 in
  p3 <- padd p 12 ;; k3 <- read32le pf p3 ;;
  let v4 := xx32_round v4 k3 in
  Ok (v1, v2, v3, v4).

(* xxhash.hpp:70-89 *)
Fixpoint xx32_update_ (pf : plat) (st : xx32_st) (p : ptr) (k : nat) : res xx32_st :=
  match k with
  | O => Ok st
  | S k' => st <- xx32_step pf st p ;;
            p <- padd p 16 ;;
            xx32_update_ pf st p k'
  end.

(* xxhash.hpp:122-173, from the first BOOST_ASSERT( m_ == 0 ) to the end *)
Definition xx32_update_tail (pf : plat) (s : bst xx32_st) (p : ptr) (n : nat) : res (bst xx32_st) :=
  assert! (Nat.eqb (b_m s) 0) ;;
  '(st, p, n) <- (let k := (n / 16)%nat in
                  st <- xx32_update_ pf (b_st s) p k ;;
                  p <- padd p (16 * k) ;;
                  Ok (st, p, (n - 16 * k)%nat)) ;;
  assert! (Nat.ltb n 16) ;;
  '(buf, m) <- (if Nat.ltb 0 n
                then buf <- memcpy pf (b_buf s) 0 p n ;; Ok (buf, n)
                else Ok (b_buf s, b_m s)) ;;
  assert! (N.of_nat m =? b_n s mod 16) ;;
  Ok (mkB st buf m (b_n s)).

(* xxhash.hpp:122-173 *)
Definition xx32_update (cw : N) (pf : plat) (s : bst xx32_st) (p : ptr) (n : nat) : res (bst xx32_st) :=
  assert! (N.of_nat (b_m s) =? b_n s mod 16) ;;
  if Nat.eqb n 0 then Ok s else
  let n_ := (b_n s + N.of_nat n) mod cw in
  if Nat.ltb 0 (b_m s) then
    let k := (16 - b_m s)%nat in
    let k := if Nat.ltb n k then n else k in
    buf <- memcpy pf (b_buf s) (b_m s) p k ;;
    p <- padd p k ;;
    let n := (n - k)%nat in
    let m := (b_m s + k)%nat in
    if Nat.ltb m 16 then Ok (mkB (b_st s) buf m n_) else
    assert! (Nat.eqb m 16) ;;
    st <- xx32_update_ pf (b_st s) (Ptr buf) 1 ;;
    xx32_update_tail pf (mkB st buf 0 n_) p n
  else
    xx32_update_tail pf (mkB (b_st s) (b_buf s) (b_m s) n_) p n.

(* xxhash.hpp:202-209, loop "while( m >= 4 )" *)
Fixpoint xx32_loop4 (pf : plat) (fuel : nat) (h : N) (p : ptr) (m : nat) : res (N * ptr * nat) :=
  if Nat.leb 4 m then
    match fuel with
    | O => OutOfFuel
    | S fuel' => k <- read32le pf p ;;
                 let h := add32 h (mul32 k xx32_P3) in
                 let h := mul32 (rotl32 h 17) xx32_P4 in
                 p <- padd p 4 ;;
                 xx32_loop4 pf fuel' h p (m - 4)
    end
  else Ok (h, p, m).

(* xxhash.hpp:211-218, loop "while( m > 0 )" *)
Fixpoint xx32_loop1 (pf : plat) (fuel : nat) (h : N) (p : ptr) (m : nat) : res (N * ptr * nat) :=
  if Nat.ltb 0 m then
    match fuel with
    | O => OutOfFuel
    | S fuel' => b <- deref p 0 ;;
                 let h := add32 h (mul32 b xx32_P5) in
                 let h := mul32 (rotl32 h 11) xx32_P1 in
                 p <- padd p 1 ;;
                 xx32_loop1 pf fuel' h p (m - 1)
    end
  else Ok (h, p, m).

(* xxhash.hpp:232-237, "apply final mix" *)
Definition xx32_mix (h : N) : N :=
  let h := N.lxor h (shr h 15) in
  let h := mul32 h xx32_P2 in
  let h := N.lxor h (shr h 13) in
  let h := mul32 h xx32_P3 in
  N.lxor h (shr h 16).

(* xxhash.hpp:181-240 *)
Definition xx32_result (cw : N) (pf : plat) (s : bst xx32_st) : res (N * bst xx32_st) :=
  assert! (N.of_nat (b_m s) =? b_n s mod 16) ;;
  let '(v1, v2, v3, v4) := b_st s in
  let h :=
    if 16 <=? b_n s then
      let h := add32 (add32 (add32 (rotl32 v1 1) (rotl32 v2 7)) (rotl32 v3 12)) (rotl32 v4 18) in
      h
    else add32 v3 xx32_P5 in
  let h := add32 h (b_n s mod 2^32) in
  let p := Ptr (b_buf s) in
  let m := b_m s in
  '(h, p, m) <- xx32_loop4 pf m h p m ;;
  '(h, p, m) <- xx32_loop1 pf m h p m ;;
  let n_ := (b_n s + N.of_nat (16 - b_m s)) mod cw in
  buf <- memset pf (b_buf s) 0 0 16 ;;
  let v1 := add32 v1 h in
  let v2 := add32 v2 h in
  let v3 := sub32 v3 h in
  let v4 := sub32 v4 h in
  Ok (xx32_mix h, mkB (v1, v2, v3, v4) buf 0 n_).

(* xxhash.hpp:97-111 *)
Definition xx32_seed (seed : N) : res (bst xx32_st) :=
  let s0 := seed mod 2^32 in
  let s1 := shr seed 32 mod 2^32 in
  let '(v1, v2, v3, v4) := xx32_init_ s0 in
  let st := if negb (s1 =? 0)
            then (xx32_round v1 s1, xx32_round v2 s1, xx32_round v3 s1, xx32_round v4 s1)
            else (v1, v2, v3, v4) in
  Ok (mkB st (zeros 16) 0 0).

(* xxhash.hpp:113-120 *)
Definition xx32_bytes (cw : N) (pf : plat) (p : ptr) (n : nat) : res (bst xx32_st) :=
  if negb (Nat.eqb n 0) then
    s <- xx32_update cw pf xx32_init p n ;;
    '(_, s) <- xx32_result cw pf s ;;
    Ok s
  else Ok xx32_init.

(* ------------------------------------------------------------------ xxhash_64 *)
(* xxhash.hpp:255-258 *)
Definition xx64_st : Type := (N * N * N * N)%type.       (* v1_, v2_, v3_, v4_ *)

(* xxhash.hpp:247-251 *)
Definition xx64_P1 : N := 11400714785074694791.
(* xxhash.hpp:248 *)
Definition xx64_P2 : N := 14029467366897019727.
(* xxhash.hpp:249 *)
Definition xx64_P3 : N := 1609587929392839161.
(* xxhash.hpp:250 *)
Definition xx64_P4 : N := 9650029242287828579.
(* xxhash.hpp:251 *)
Definition xx64_P5 : N := 2870177450012600261.

(* xxhash.hpp:255-263,316 (default member initializers) *)
Definition xx64_init : bst xx64_st :=
  mkB (add64 xx64_P1 xx64_P2, xx64_P2, 0, sub64 0 xx64_P1) (zeros 32) 0 0.

(* xxhash.hpp:267-273 *)
Definition xx64_init_ (seed : N) : xx64_st :=
  (add64 (add64 seed xx64_P1) xx64_P2, add64 seed xx64_P2, seed, sub64 seed xx64_P1).

(* xxhash.hpp:275-281 *)
Definition xx64_round (seed input : N) : N :=
  let seed := add64 seed (mul64 input xx64_P2) in
  let seed := rotl64 seed 31 in
  mul64 seed xx64_P1.

(* xxhash.hpp:283-289 *)
Definition xx64_merge_round (acc val : N) : N :=
  let val := xx64_round 0 val in
  let acc := N.lxor acc val in
  add64 (mul64 acc xx64_P1) xx64_P4.

(* xxhash.hpp:291-310, one iteration of the loop body *)
Definition xx64_step (pf : plat) (st : xx64_st) (p : ptr) : res xx64_st :=
  let '(v1, v2, v3, v4) := st in
  p0 <- padd p 0 ;; k0 <- read64le pf p0 ;;
  let v1 := xx64_round v1 k0 in
  p1 <- padd p 8 ;; k1 <- read64le pf p1 ;;
  let v2 := xx64_round v2 k1 in
  p2 <- padd p 16 ;; k2 <- read64le pf p2 ;;
  let v3 := xx64_round v3 k2 in
  p3 <- padd p 24 ;; k3 <- read64le pf p3 ;;
  let v4 := xx64_round v4 k3 in
  Ok (v1, v2, v3, v4).

(* xxhash.hpp:291-310 *)
Fixpoint xx64_update_ (pf : plat) (st : xx64_st) (p : ptr) (k : nat) : res xx64_st :=
  match k with
  | O => Ok st
  | S k' => st <- xx64_step pf st p ;;
            p <- padd p 32 ;;
            xx64_update_ pf st p k'
  end.

(* xxhash.hpp:332-383, from the first BOOST_ASSERT( m_ == 0 ) to the end *)
Definition xx64_update_tail (pf : plat) (s : bst xx64_st) (p : ptr) (n : nat) : res (bst xx64_st) :=
  assert! (Nat.eqb (b_m s) 0) ;;
  '(st, p, n) <- (let k := (n / 32)%nat in
                  st <- xx64_update_ pf (b_st s) p k ;;
                  p <- padd p (32 * k) ;;
                  Ok (st, p, (n - 32 * k)%nat)) ;;
  assert! (Nat.ltb n 32) ;;
  '(buf, m) <- (if Nat.ltb 0 n
                then buf <- memcpy pf (b_buf s) 0 p n ;; Ok (buf, n)
                else Ok (b_buf s, b_m s)) ;;
  assert! (N.of_nat m =? b_n s mod 32) ;;
  Ok (mkB st buf m (b_n s)).

(* xxhash.hpp:332-383 *)
Definition xx64_update (cw : N) (pf : plat) (s : bst xx64_st) (p : ptr) (n : nat) : res (bst xx64_st) :=
  assert! (N.of_nat (b_m s) =? b_n s mod 32) ;;
  if Nat.eqb n 0 then Ok s else
  let n_ := (b_n s + N.of_nat n) mod cw in
  if Nat.ltb 0 (b_m s) then
    let k := (32 - b_m s)%nat in
    let k := if Nat.ltb n k then n else k in
    buf <- memcpy pf (b_buf s) (b_m s) p k ;;
    p <- padd p k ;;
    let n := (n - k)%nat in
    let m := (b_m s + k)%nat in
    if Nat.ltb m 32 then Ok (mkB (b_st s) buf m n_) else
    assert! (Nat.eqb m 32) ;;
    st <- xx64_update_ pf (b_st s) (Ptr buf) 1 ;;
    xx64_update_tail pf (mkB st buf 0 n_) p n
  else
    xx64_update_tail pf (mkB (b_st s) (b_buf s) (b_m s) n_) p n.

(* xxhash.hpp:417-426, loop "while( m >= 8 )" *)
Fixpoint xx64_loop8 (pf : plat) (fuel : nat) (h : N) (p : ptr) (m : nat) : res (N * ptr * nat) :=
  if Nat.leb 8 m then
    match fuel with
    | O => OutOfFuel
    | S fuel' => k <- read64le pf p ;;
                 let k1 := xx64_round 0 k in
                 let h := N.lxor h k1 in
                 let h := add64 (mul64 (rotl64 h 27) xx64_P1) xx64_P4 in
                 p <- padd p 8 ;;
                 xx64_loop8 pf fuel' h p (m - 8)
    end
  else Ok (h, p, m).

(* xxhash.hpp:428-435, loop "while( m >= 4 )" *)
Fixpoint xx64_loop4 (pf : plat) (fuel : nat) (h : N) (p : ptr) (m : nat) : res (N * ptr * nat) :=
  if Nat.leb 4 m then
    match fuel with
    | O => OutOfFuel
    | S fuel' => k <- read32le pf p ;;
                 let h := N.lxor h (mul64 k xx64_P1) in
                 let h := add64 (mul64 (rotl64 h 23) xx64_P2) xx64_P3 in
                 p <- padd p 4 ;;
                 xx64_loop4 pf fuel' h p (m - 4)
    end
  else Ok (h, p, m).

(* xxhash.hpp:437-444, loop "while( m > 0 )" *)
Fixpoint xx64_loop1 (pf : plat) (fuel : nat) (h : N) (p : ptr) (m : nat) : res (N * ptr * nat) :=
  if Nat.ltb 0 m then
    match fuel with
    | O => OutOfFuel
    | S fuel' => b <- deref p 0 ;;
                 let h := N.lxor h (mul64 b xx64_P5) in
                 let h := mul64 (rotl64 h 11) xx64_P1 in
                 p <- padd p 1 ;;
                 xx64_loop1 pf fuel' h p (m - 1)
    end
  else Ok (h, p, m).

(* xxhash.hpp:458-463, "apply final mix" *)
Definition xx64_mix (h : N) : N :=
  let h := N.lxor h (shr h 33) in
  let h := mul64 h xx64_P2 in
  let h := N.lxor h (shr h 29) in
  let h := mul64 h xx64_P3 in
  N.lxor h (shr h 32).

(* xxhash.hpp:391-466 *)
Definition xx64_result (cw : N) (pf : plat) (s : bst xx64_st) : res (N * bst xx64_st) :=
  assert! (N.of_nat (b_m s) =? b_n s mod 32) ;;
  let '(v1, v2, v3, v4) := b_st s in
  let h :=
    if 32 <=? b_n s then
      let h := add64 (add64 (add64 (rotl64 v1 1) (rotl64 v2 7)) (rotl64 v3 12)) (rotl64 v4 18) in
      let h := xx64_merge_round h v1 in
      let h := xx64_merge_round h v2 in
      let h := xx64_merge_round h v3 in
      let h := xx64_merge_round h v4 in
      h
    else add64 v3 xx64_P5 in
  let h := add64 h (b_n s) in
  let p := Ptr (b_buf s) in
  let m := b_m s in
  '(h, p, m) <- xx64_loop8 pf m h p m ;;
  '(h, p, m) <- xx64_loop4 pf m h p m ;;
  '(h, p, m) <- xx64_loop1 pf m h p m ;;
  let n_ := (b_n s + N.of_nat (32 - b_m s)) mod cw in
  buf <- memset pf (b_buf s) 0 0 32 ;;
  let v1 := add64 v1 h in
  let v2 := add64 v2 h in
  let v3 := sub64 v3 h in
  let v4 := sub64 v4 h in
  Ok (xx64_mix h, mkB (v1, v2, v3, v4) buf 0 n_).

(* xxhash.hpp:318-321 *)
Definition xx64_seed (seed : N) : res (bst xx64_st) :=
  Ok (mkB (xx64_init_ seed) (zeros 32) 0 0).

(* xxhash.hpp:323-330 *)
Definition xx64_bytes (cw : N) (pf : plat) (p : ptr) (n : nat) : res (bst xx64_st) :=
  if negb (Nat.eqb n 0) then
    s <- xx64_update cw pf xx64_init p n ;;
    '(_, s) <- xx64_result cw pf s ;;
    Ok s
  else Ok xx64_init.

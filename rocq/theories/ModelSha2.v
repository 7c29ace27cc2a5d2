(* Model of include/boost/hash2/sha2.hpp.  Generated text is transcribed line by line from the C++ source. *)
From Verif Require Import Base.
Open Scope N_scope.

(* array access; out of range is UB *)
(* sha2.hpp:199-247, 282-330: K[ t ], W[ t ] *)
Definition aget (w : list N) (i : nat) : res N :=
  match nth_error w i with Some v => Ok v | None => UB end.

(* for( int t = a; t < a + cnt; ++t ) W[ t ] = f( W, t ); *)
(* sha2.hpp:199-247, 282-330: the loops that fill W *)
Fixpoint wloop (f : list N -> nat -> res N) (t cnt : nat) (W : list N) : res (list N) :=
  match cnt with
  | O => Ok W
  | S cnt' => v <- f W t ;; W <- store W t v ;; wloop f (S t) cnt' W
  end.

(* ------------------------------------------------------------------ sha2_256_base *)
(* sha2.hpp:109-119 *)
Definition sha256_K : list N :=
  [ 0x428a2f98; 0x71374491; 0xb5c0fbcf; 0xe9b5dba5; 0x3956c25b; 0x59f111f1; 0x923f82a4; 0xab1c5ed5; 0xd807aa98; 0x12835b01; 0x243185be; 0x550c7dc3; 0x72be5d74; 0x80deb1fe; 0x9bdc06a7; 0xc19bf174; 0xe49b69c1; 0xefbe4786; 0x0fc19dc6; 0x240ca1cc; 0x2de92c6f; 0x4a7484aa; 0x5cb0a9dc; 0x76f988da; 0x983e5152; 0xa831c66d; 0xb00327c8; 0xbf597fc7; 0xc6e00bf3; 0xd5a79147; 0x06ca6351; 0x14292967; 0x27b70a85; 0x2e1b2138; 0x4d2c6dfc; 0x53380d13; 0x650a7354; 0x766a0abb; 0x81c2c92e; 0x92722c85; 0xa2bfe8a1; 0xa81a664b; 0xc24b8b70; 0xc76c51a3; 0xd192e819; 0xd6990624; 0xf40e3585; 0x106aa070; 0x19a4c116; 0x1e376c08; 0x2748774c; 0x34b0bcb5; 0x391c0cb3; 0x4ed8aa4a; 0x5b9cca4f; 0x682e6ff3; 0x748f82ee; 0x78a5636f; 0x84c87814; 0x8cc70208; 0x90befffa; 0xa4506ceb; 0xbef9a3f7; 0xc67178f2 ].

(* sha2.hpp:35 *)
Definition sha256_st : Type := (N * N * N * N * N * N * N * N)%type.   (* state_[ 8 ] *)

(* sha2.hpp:169-172 *)
Definition sha256_Sigma0 (x : N) : N := N.lxor (N.lxor (rotr32 x 2) (rotr32 x 13)) (rotr32 x 22).
(* sha2.hpp:174-177 *)
Definition sha256_Sigma1 (x : N) : N := N.lxor (N.lxor (rotr32 x 6) (rotr32 x 11)) (rotr32 x 25).
(* sha2.hpp:179-182 *)
Definition sha256_sigma0 (x : N) : N := N.lxor (N.lxor (rotr32 x 7) (rotr32 x 18)) (shr x 3).
(* sha2.hpp:184-187 *)
Definition sha256_sigma1 (x : N) : N := N.lxor (N.lxor (rotr32 x 17) (rotr32 x 19)) (shr x 10).
(* sha2.hpp:189-192 *)
Definition sha256_Ch (x y z : N) : N := N.lxor (N.land x y) (N.land (not32 x) z).
(* sha2.hpp:194-197 *)
Definition sha256_Maj (x y z : N) : N := N.lxor (N.lxor (N.land x y) (N.land x z)) (N.land y z).

(* sha2.hpp:199-247: the body of the loop over t *)
Definition sha256_round (W : list N) (v : sha256_st) (t : nat) : res sha256_st :=
  let '(a, b, c, d, e, f, g, h) := v in
  Kt <- aget sha256_K t ;;
  Wt <- aget W t ;;
  let T1 := add32 (add32 (add32 (add32 h (sha256_Sigma1 e)) (sha256_Ch e f g)) Kt) Wt in
  let T2 := add32 (sha256_Sigma0 a) (sha256_Maj a b c) in
  let h := g in
  let g := f in
  let f := e in
  let e := add32 d T1 in
  let d := c in
  let c := b in
  let b := a in
  let a := add32 T1 T2 in
  Ok (a, b, c, d, e, f, g, h).

(* sha2.hpp:199-247: the loop over t *)
Fixpoint sha256_rounds (W : list N) (t cnt : nat) (v : sha256_st) : res sha256_st :=
  match cnt with
  | O => Ok v
  | S cnt' => v <- sha256_round W v t ;; sha256_rounds W (S t) cnt' v
  end.

(* sha2.hpp:199-247; read32be does not depend on the platform *)
Definition sha256_transform (pf : plat) (st : sha256_st) (block : ptr) : res sha256_st :=
  W <- wloop (fun _ t => q <- padd block (t * 4) ;; read32be q) 0 16 (zeros 64) ;;
  W <- wloop (fun W t =>
         w2 <- aget W (t - 2) ;; w7 <- aget W (t - 7) ;;
         w15 <- aget W (t - 15) ;; w16 <- aget W (t - 16) ;;
         Ok (add32 (add32 (add32 (sha256_sigma1 w2) w7) (sha256_sigma0 w15)) w16)) 16 48 W ;;
  v <- sha256_rounds W 0 64 st ;;
  let '(a, b, c, d, e, f, g, h) := v in
  let '(s0, s1, s2, s3, s4, s5, s6, s7) := st in
  Ok (add32 s0 a, add32 s1 b, add32 s2 c, add32 s3 d, add32 s4 e, add32 s5 f, add32 s6 g, add32 s7 h).

(* sha2.hpp:52-103, loop "while( n >= N )" *)
Fixpoint sha256_blocks (pf : plat) (fuel : nat) (st : sha256_st) (p : ptr) (n : nat)
  : res (sha256_st * ptr * nat) :=
  if Nat.leb 64 n then
    match fuel with
    | O => OutOfFuel
    | S fuel' => st <- sha256_transform pf st p ;;
                 p <- padd p 64 ;;
                 sha256_blocks pf fuel' st p (n - 64)
    end
  else Ok (st, p, n).

(* sha2.hpp:52-103, from BOOST_ASSERT( m_ == 0 ) to the end *)
Definition sha256_update_tail (pf : plat) (s : bst sha256_st) (p : ptr) (n : nat) : res (bst sha256_st) :=
  assert! (Nat.eqb (b_m s) 0) ;;
  '(st, p, n) <- sha256_blocks pf n (b_st s) p n ;;
  assert! (Nat.ltb n 64) ;;
  '(buf, m) <- (if Nat.ltb 0 n
                then buf <- memcpy pf (b_buf s) 0 p n ;; Ok (buf, n)
                else Ok (b_buf s, b_m s)) ;;
  assert! (N.of_nat m =? b_n s mod 64) ;;
  Ok (mkB st buf m (b_n s)).

(* sha2.hpp:52-103.  Unlike the other classes there is no early return for n == 0. *)
Definition sha256_update (pf : plat) (s : bst sha256_st) (p : ptr) (n : nat) : res (bst sha256_st) :=
  assert! (N.of_nat (b_m s) =? b_n s mod 64) ;;
  let n_ := (b_n s + N.of_nat n) mod 2^64 in
  if Nat.ltb 0 (b_m s) then
    let k := (64 - b_m s)%nat in
    let k := if Nat.ltb n k then n else k in
    buf <- memcpy pf (b_buf s) (b_m s) p k ;;
    p <- padd p k ;;
    let n := (n - k)%nat in
    let m := (b_m s + k)%nat in
    if Nat.ltb m 64 then Ok (mkB (b_st s) buf m n_) else
    assert! (Nat.eqb m 64) ;;
    st <- sha256_transform pf (b_st s) (Ptr buf) ;;
    buf <- memset pf buf 0 0 64 ;;
    sha256_update_tail pf (mkB st buf 0 n_) p n
  else
    sha256_update_tail pf (mkB (b_st s) (b_buf s) (b_m s) n_) p n.

(* ------------------------------------------------------------------ sha2_512_base *)
(* sha2.hpp:125-147 *)
Definition sha512_K : list N :=
  [ 0x428a2f98d728ae22; 0x7137449123ef65cd; 0xb5c0fbcfec4d3b2f; 0xe9b5dba58189dbbc; 0x3956c25bf348b538; 0x59f111f1b605d019; 0x923f82a4af194f9b; 0xab1c5ed5da6d8118; 0xd807aa98a3030242; 0x12835b0145706fbe; 0x243185be4ee4b28c; 0x550c7dc3d5ffb4e2; 0x72be5d74f27b896f; 0x80deb1fe3b1696b1; 0x9bdc06a725c71235; 0xc19bf174cf692694; 0xe49b69c19ef14ad2; 0xefbe4786384f25e3; 0x0fc19dc68b8cd5b5; 0x240ca1cc77ac9c65; 0x2de92c6f592b0275; 0x4a7484aa6ea6e483; 0x5cb0a9dcbd41fbd4; 0x76f988da831153b5; 0x983e5152ee66dfab; 0xa831c66d2db43210; 0xb00327c898fb213f; 0xbf597fc7beef0ee4; 0xc6e00bf33da88fc2; 0xd5a79147930aa725; 0x06ca6351e003826f; 0x142929670a0e6e70; 0x27b70a8546d22ffc; 0x2e1b21385c26c926; 0x4d2c6dfc5ac42aed; 0x53380d139d95b3df; 0x650a73548baf63de; 0x766a0abb3c77b2a8; 0x81c2c92e47edaee6; 0x92722c851482353b; 0xa2bfe8a14cf10364; 0xa81a664bbc423001; 0xc24b8b70d0f89791; 0xc76c51a30654be30; 0xd192e819d6ef5218; 0xd69906245565a910; 0xf40e35855771202a; 0x106aa07032bbd1b8; 0x19a4c116b8d2d0c8; 0x1e376c085141ab53; 0x2748774cdf8eeb99; 0x34b0bcb5e19b48a8; 0x391c0cb3c5c95a63; 0x4ed8aa4ae3418acb; 0x5b9cca4f7763e373; 0x682e6ff3d6b2b8a3; 0x748f82ee5defb2fc; 0x78a5636f43172f60; 0x84c87814a1f0ab72; 0x8cc702081a6439ec; 0x90befffa23631e28; 0xa4506cebde82bde9; 0xbef9a3f7b2c67915; 0xc67178f2e372532b; 0xca273eceea26619c; 0xd186b8c721c0c207; 0xeada7dd6cde0eb1e; 0xf57d4f7fee6ed178; 0x06f067aa72176fba; 0x0a637dc5a2c898a6; 0x113f9804bef90dae; 0x1b710b35131c471b; 0x28db77f523047d84; 0x32caab7b40c72493; 0x3c9ebe0a15c9bebc; 0x431d67c49c100d4c; 0x4cc5d4becb3e42b6; 0x597f299cfc657e2a; 0x5fcb6fab3ad6faec; 0x6c44198c4a475817 ].

(* sha2.hpp:35 *)
Definition sha512_st : Type := (N * N * N * N * N * N * N * N)%type.   (* state_[ 8 ] *)

(* sha2.hpp:262-265 *)
Definition sha512_Sigma0 (x : N) : N := N.lxor (N.lxor (rotr64 x 28) (rotr64 x 34)) (rotr64 x 39).
(* sha2.hpp:267-270 *)
Definition sha512_Sigma1 (x : N) : N := N.lxor (N.lxor (rotr64 x 14) (rotr64 x 18)) (rotr64 x 41).
(* sha2.hpp:272-275 *)
Definition sha512_sigma0 (x : N) : N := N.lxor (N.lxor (rotr64 x 1) (rotr64 x 8)) (shr x 7).
(* sha2.hpp:277-280 *)
Definition sha512_sigma1 (x : N) : N := N.lxor (N.lxor (rotr64 x 19) (rotr64 x 61)) (shr x 6).
(* sha2.hpp:252-255 *)
Definition sha512_Ch (x y z : N) : N := N.lxor (N.land x y) (N.land (not64 x) z).
(* sha2.hpp:257-260 *)
Definition sha512_Maj (x y z : N) : N := N.lxor (N.lxor (N.land x y) (N.land x z)) (N.land y z).

(* sha2.hpp:282-330: the body of the loop over t *)
Definition sha512_round (W : list N) (v : sha512_st) (t : nat) : res sha512_st :=
  let '(a, b, c, d, e, f, g, h) := v in
  Kt <- aget sha512_K t ;;
  Wt <- aget W t ;;
  let T1 := add64 (add64 (add64 (add64 h (sha512_Sigma1 e)) (sha512_Ch e f g)) Kt) Wt in
  let T2 := add64 (sha512_Sigma0 a) (sha512_Maj a b c) in
  let h := g in
  let g := f in
  let f := e in
  let e := add64 d T1 in
  let d := c in
  let c := b in
  let b := a in
  let a := add64 T1 T2 in
  Ok (a, b, c, d, e, f, g, h).

(* sha2.hpp:282-330: the loop over t *)
Fixpoint sha512_rounds (W : list N) (t cnt : nat) (v : sha512_st) : res sha512_st :=
  match cnt with
  | O => Ok v
  | S cnt' => v <- sha512_round W v t ;; sha512_rounds W (S t) cnt' v
  end.

(* sha2.hpp:282-330; read64be does not depend on the platform *)
Definition sha512_transform (pf : plat) (st : sha512_st) (block : ptr) : res sha512_st :=
  W <- wloop (fun _ t => q <- padd block (t * 8) ;; read64be q) 0 16 (zeros 80) ;;
  W <- wloop (fun W t =>
         w2 <- aget W (t - 2) ;; w7 <- aget W (t - 7) ;;
         w15 <- aget W (t - 15) ;; w16 <- aget W (t - 16) ;;
         Ok (add64 (add64 (add64 (sha512_sigma1 w2) w7) (sha512_sigma0 w15)) w16)) 16 64 W ;;
  v <- sha512_rounds W 0 80 st ;;
  let '(a, b, c, d, e, f, g, h) := v in
  let '(s0, s1, s2, s3, s4, s5, s6, s7) := st in
  Ok (add64 s0 a, add64 s1 b, add64 s2 c, add64 s3 d, add64 s4 e, add64 s5 f, add64 s6 g, add64 s7 h).

(* sha2.hpp:52-103, loop "while( n >= N )" *)
Fixpoint sha512_blocks (pf : plat) (fuel : nat) (st : sha512_st) (p : ptr) (n : nat)
  : res (sha512_st * ptr * nat) :=
  if Nat.leb 128 n then
    match fuel with
    | O => OutOfFuel
    | S fuel' => st <- sha512_transform pf st p ;;
                 p <- padd p 128 ;;
                 sha512_blocks pf fuel' st p (n - 128)
    end
  else Ok (st, p, n).

(* sha2.hpp:52-103, from BOOST_ASSERT( m_ == 0 ) to the end *)
Definition sha512_update_tail (pf : plat) (s : bst sha512_st) (p : ptr) (n : nat) : res (bst sha512_st) :=
  assert! (Nat.eqb (b_m s) 0) ;;
  '(st, p, n) <- sha512_blocks pf n (b_st s) p n ;;
  assert! (Nat.ltb n 128) ;;
  '(buf, m) <- (if Nat.ltb 0 n
                then buf <- memcpy pf (b_buf s) 0 p n ;; Ok (buf, n)
                else Ok (b_buf s, b_m s)) ;;
  assert! (N.of_nat m =? b_n s mod 128) ;;
  Ok (mkB st buf m (b_n s)).

(* sha2.hpp:52-103.  Unlike the other classes there is no early return for n == 0. *)
Definition sha512_update (pf : plat) (s : bst sha512_st) (p : ptr) (n : nat) : res (bst sha512_st) :=
  assert! (N.of_nat (b_m s) =? b_n s mod 128) ;;
  let n_ := (b_n s + N.of_nat n) mod 2^64 in
  if Nat.ltb 0 (b_m s) then
    let k := (128 - b_m s)%nat in
    let k := if Nat.ltb n k then n else k in
    buf <- memcpy pf (b_buf s) (b_m s) p k ;;
    p <- padd p k ;;
    let n := (n - k)%nat in
    let m := (b_m s + k)%nat in
    if Nat.ltb m 128 then Ok (mkB (b_st s) buf m n_) else
    assert! (Nat.eqb m 128) ;;
    st <- sha512_transform pf (b_st s) (Ptr buf) ;;
    buf <- memset pf buf 0 0 128 ;;
    sha512_update_tail pf (mkB st buf 0 n_) p n
  else
    sha512_update_tail pf (mkB (b_st s) (b_buf s) (b_m s) n_) p n.

(* ------------------------------------------------------------------ sha2_256 *)
(* sha2.hpp:389-408 *)
Definition sha2_256_result (pf : plat) (s : bst sha256_st) : res (list N * bst sha256_st) :=
  let bits := write64be (mul64 (b_n s) 8) in
  let k := (if Nat.ltb (b_m s) 56 then 56 - b_m s else 64 + 56 - b_m s)%nat in
  let padding := 0x80 :: zeros 63 in
  s <- sha256_update pf s (Ptr padding) k ;;
  s <- sha256_update pf s (Ptr bits) 8 ;;
  assert! (Nat.eqb (b_m s) 0) ;;
  let '(s0, s1, s2, s3, s4, s5, s6, s7) := b_st s in
  Ok (concat (map write32be [s0; s1; s2; s3; s4; s5; s6; s7]), s).

(* sha2.hpp:339-349, 357-360: default constructor *)
Definition sha2_256_init : bst sha256_st := 
  mkB (0x6a09e667, 0xbb67ae85, 0x3c6ef372, 0xa54ff53a, 0x510e527f, 0x9b05688c, 0x1f83d9ab, 0x5be0cd19) (zeros 64) 0 0.

(* sha2.hpp:362-374: constructor from a 64-bit seed *)
Definition sha2_256_seed (pf : plat) (seed : N) : res (bst sha256_st) :=
  if negb (seed =? 0) then
    let tmp := write64le pf seed in
    s <- sha256_update pf sha2_256_init (Ptr tmp) 8 ;;
    '(_, s) <- sha2_256_result pf s ;;
    Ok s
  else Ok sha2_256_init.

(* sha2.hpp:376-385: constructor from a byte sequence *)
Definition sha2_256_bytes (pf : plat) (p : ptr) (n : nat) : res (bst sha256_st) :=
  if negb (Nat.eqb n 0) then
    s <- sha256_update pf sha2_256_init p n ;;
    '(_, s) <- sha2_256_result pf s ;;
    Ok s
  else Ok sha2_256_init.

(* ------------------------------------------------------------------ sha2_224 *)
(* sha2.hpp:466-484 *)
Definition sha2_224_result (pf : plat) (s : bst sha256_st) : res (list N * bst sha256_st) :=
  let bits := write64be (mul64 (b_n s) 8) in
  let k := (if Nat.ltb (b_m s) 56 then 56 - b_m s else 64 + 56 - b_m s)%nat in
  let padding := 0x80 :: zeros 63 in
  s <- sha256_update pf s (Ptr padding) k ;;
  s <- sha256_update pf s (Ptr bits) 8 ;;
  assert! (Nat.eqb (b_m s) 0) ;;
  let '(s0, s1, s2, s3, s4, s5, s6, s7) := b_st s in
  Ok (concat (map write32be [s0; s1; s2; s3; s4; s5; s6]), s).

(* sha2.hpp:415-425, 433-436: default constructor *)
Definition sha2_224_init : bst sha256_st := 
  mkB (0xc1059ed8, 0x367cd507, 0x3070dd17, 0xf70e5939, 0xffc00b31, 0x68581511, 0x64f98fa7, 0xbefa4fa4) (zeros 64) 0 0.

(* sha2.hpp:438-450: constructor from a 64-bit seed *)
Definition sha2_224_seed (pf : plat) (seed : N) : res (bst sha256_st) :=
  if negb (seed =? 0) then
    let tmp := write64le pf seed in
    s <- sha256_update pf sha2_224_init (Ptr tmp) 8 ;;
    '(_, s) <- sha2_224_result pf s ;;
    Ok s
  else Ok sha2_224_init.

(* sha2.hpp:452-461: constructor from a byte sequence *)
Definition sha2_224_bytes (pf : plat) (p : ptr) (n : nat) : res (bst sha256_st) :=
  if negb (Nat.eqb n 0) then
    s <- sha256_update pf sha2_224_init p n ;;
    '(_, s) <- sha2_224_result pf s ;;
    Ok s
  else Ok sha2_224_init.

(* ------------------------------------------------------------------ sha2_512 *)
(* sha2.hpp:541-560 *)
Definition sha2_512_result (pf : plat) (s : bst sha512_st) : res (list N * bst sha512_st) :=
  let bits := zeros 8 ++ write64be (mul64 (b_n s) 8) in
  let k := (if Nat.ltb (b_m s) 112 then 112 - b_m s else 128 + 112 - b_m s)%nat in
  let padding := 0x80 :: zeros 127 in
  s <- sha512_update pf s (Ptr padding) k ;;
  s <- sha512_update pf s (Ptr bits) 16 ;;
  assert! (Nat.eqb (b_m s) 0) ;;
  let '(s0, s1, s2, s3, s4, s5, s6, s7) := b_st s in
  Ok (concat (map write64be [s0; s1; s2; s3; s4; s5; s6; s7]), s).

(* sha2.hpp:491-501, 511-514: default constructor *)
Definition sha2_512_init : bst sha512_st := 
  mkB (0x6a09e667f3bcc908, 0xbb67ae8584caa73b, 0x3c6ef372fe94f82b, 0xa54ff53a5f1d36f1, 0x510e527fade682d1, 0x9b05688c2b3e6c1f, 0x1f83d9abfb41bd6b, 0x5be0cd19137e2179) (zeros 128) 0 0.

(* sha2.hpp:516-528: constructor from a 64-bit seed *)
Definition sha2_512_seed (pf : plat) (seed : N) : res (bst sha512_st) :=
  if negb (seed =? 0) then
    let tmp := write64le pf seed in
    s <- sha512_update pf sha2_512_init (Ptr tmp) 8 ;;
    '(_, s) <- sha2_512_result pf s ;;
    Ok s
  else Ok sha2_512_init.

(* sha2.hpp:530-539: constructor from a byte sequence *)
Definition sha2_512_bytes (pf : plat) (p : ptr) (n : nat) : res (bst sha512_st) :=
  if negb (Nat.eqb n 0) then
    s <- sha512_update pf sha2_512_init p n ;;
    '(_, s) <- sha2_512_result pf s ;;
    Ok s
  else Ok sha2_512_init.

(* ------------------------------------------------------------------ sha2_384 *)
(* sha2.hpp:617-636 *)
Definition sha2_384_result (pf : plat) (s : bst sha512_st) : res (list N * bst sha512_st) :=
  let bits := zeros 8 ++ write64be (mul64 (b_n s) 8) in
  let k := (if Nat.ltb (b_m s) 112 then 112 - b_m s else 128 + 112 - b_m s)%nat in
  let padding := 0x80 :: zeros 127 in
  s <- sha512_update pf s (Ptr padding) k ;;
  s <- sha512_update pf s (Ptr bits) 16 ;;
  assert! (Nat.eqb (b_m s) 0) ;;
  let '(s0, s1, s2, s3, s4, s5, s6, s7) := b_st s in
  Ok (concat (map write64be [s0; s1; s2; s3; s4; s5]), s).

(* sha2.hpp:567-577, 587-590: default constructor *)
Definition sha2_384_init : bst sha512_st := 
  mkB (0xcbbb9d5dc1059ed8, 0x629a292a367cd507, 0x9159015a3070dd17, 0x152fecd8f70e5939, 0x67332667ffc00b31, 0x8eb44a8768581511, 0xdb0c2e0d64f98fa7, 0x47b5481dbefa4fa4) (zeros 128) 0 0.

(* sha2.hpp:592-604: constructor from a 64-bit seed *)
Definition sha2_384_seed (pf : plat) (seed : N) : res (bst sha512_st) :=
  if negb (seed =? 0) then
    let tmp := write64le pf seed in
    s <- sha512_update pf sha2_384_init (Ptr tmp) 8 ;;
    '(_, s) <- sha2_384_result pf s ;;
    Ok s
  else Ok sha2_384_init.

(* sha2.hpp:606-615: constructor from a byte sequence *)
Definition sha2_384_bytes (pf : plat) (p : ptr) (n : nat) : res (bst sha512_st) :=
  if negb (Nat.eqb n 0) then
    s <- sha512_update pf sha2_384_init p n ;;
    '(_, s) <- sha2_384_result pf s ;;
    Ok s
  else Ok sha2_384_init.

(* ------------------------------------------------------------------ sha2_512_224 *)
(* sha2.hpp:694-714 *)
Definition sha2_512_224_result (pf : plat) (s : bst sha512_st) : res (list N * bst sha512_st) :=
  let bits := zeros 8 ++ write64be (mul64 (b_n s) 8) in
  let k := (if Nat.ltb (b_m s) 112 then 112 - b_m s else 128 + 112 - b_m s)%nat in
  let padding := 0x80 :: zeros 127 in
  s <- sha512_update pf s (Ptr padding) k ;;
  s <- sha512_update pf s (Ptr bits) 16 ;;
  assert! (Nat.eqb (b_m s) 0) ;;
  let '(s0, s1, s2, s3, s4, s5, s6, s7) := b_st s in
  Ok (concat (map write64be [s0; s1; s2]) ++ write32be (shr s3 32 mod 2^32), s).

(* sha2.hpp:643-653, 663-666: default constructor *)
Definition sha2_512_224_init : bst sha512_st := 
  mkB (0x8c3d37c819544da2, 0x73e1996689dcd4d6, 0x1dfab7ae32ff9c82, 0x679dd514582f9fcf, 0x0f6d2b697bd44da8, 0x77e36f7304c48942, 0x3f9d85a86a1d36c8, 0x1112e6ad91d692a1) (zeros 128) 0 0.

(* sha2.hpp:668-680: constructor from a 64-bit seed *)
Definition sha2_512_224_seed (pf : plat) (seed : N) : res (bst sha512_st) :=
  if negb (seed =? 0) then
    let tmp := write64le pf seed in
    s <- sha512_update pf sha2_512_224_init (Ptr tmp) 8 ;;
    '(_, s) <- sha2_512_224_result pf s ;;
    Ok s
  else Ok sha2_512_224_init.

(* sha2.hpp:682-691: constructor from a byte sequence *)
Definition sha2_512_224_bytes (pf : plat) (p : ptr) (n : nat) : res (bst sha512_st) :=
  if negb (Nat.eqb n 0) then
    s <- sha512_update pf sha2_512_224_init p n ;;
    '(_, s) <- sha2_512_224_result pf s ;;
    Ok s
  else Ok sha2_512_224_init.

(* ------------------------------------------------------------------ sha2_512_256 *)
(* sha2.hpp:771-790 *)
Definition sha2_512_256_result (pf : plat) (s : bst sha512_st) : res (list N * bst sha512_st) :=
  let bits := zeros 8 ++ write64be (mul64 (b_n s) 8) in
  let k := (if Nat.ltb (b_m s) 112 then 112 - b_m s else 128 + 112 - b_m s)%nat in
  let padding := 0x80 :: zeros 127 in
  s <- sha512_update pf s (Ptr padding) k ;;
  s <- sha512_update pf s (Ptr bits) 16 ;;
  assert! (Nat.eqb (b_m s) 0) ;;
  let '(s0, s1, s2, s3, s4, s5, s6, s7) := b_st s in
  Ok (concat (map write64be [s0; s1; s2; s3]), s).

(* sha2.hpp:721-731, 741-744: default constructor *)
Definition sha2_512_256_init : bst sha512_st := 
  mkB (0x22312194fc2bf72c, 0x9f555fa3c84c64c2, 0x2393b86b6f53b151, 0x963877195940eabd, 0x96283ee2a88effe3, 0xbe5e1e2553863992, 0x2b0199fc2c85b8aa, 0x0eb72ddc81c52ca2) (zeros 128) 0 0.

(* sha2.hpp:746-758: constructor from a 64-bit seed *)
Definition sha2_512_256_seed (pf : plat) (seed : N) : res (bst sha512_st) :=
  if negb (seed =? 0) then
    let tmp := write64le pf seed in
    s <- sha512_update pf sha2_512_256_init (Ptr tmp) 8 ;;
    '(_, s) <- sha2_512_256_result pf s ;;
    Ok s
  else Ok sha2_512_256_init.

(* sha2.hpp:760-769: constructor from a byte sequence *)
Definition sha2_512_256_bytes (pf : plat) (p : ptr) (n : nat) : res (bst sha512_st) :=
  if negb (Nat.eqb n 0) then
    s <- sha512_update pf sha2_512_256_init p n ;;
    '(_, s) <- sha2_512_256_result pf s ;;
    Ok s
  else Ok sha2_512_256_init.

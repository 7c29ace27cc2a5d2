(* Model of include/boost/hash2/md5.hpp.  Generated text is transcribed line by line from the C++ source. *)
From Verif Require Import Base.
Open Scope N_scope.

(* md5.hpp:34 *)
Definition md5_st : Type := (N * N * N * N)%type.       (* state_[ 4 ] *)

(* md5.hpp:45-48 *)
Definition md5_F (x y z : N) : N := N.lor (N.land x y) (N.land (not32 x) z).
(* md5.hpp:50-53 *)
Definition md5_G (x y z : N) : N := N.lor (N.land x z) (N.land y (not32 z)).
(* md5.hpp:55-58 *)
Definition md5_H (x y z : N) : N := N.lxor (N.lxor x y) z.
(* md5.hpp:60-63 *)
Definition md5_I (x y z : N) : N := N.lxor y (N.lor x (not32 z)).

(* The local variables a, b, c, d of transform() *)
(* md5.hpp:112-115 *)
Inductive reg4 := rA | rB | rC | rD.
(* md5.hpp:112-115: reading one of them *)
Definition get4 (s : N * N * N * N) (r : reg4) : N :=
  let '(a, b, c, d) := s in match r with rA => a | rB => b | rC => c | rD => d end.
(* md5.hpp:112-115: writing one of them *)
Definition set4 (s : N * N * N * N) (r : reg4) (v : N) : N * N * N * N :=
  let '(a, b, c, d) := s in
  match r with rA => (v, b, c, d) | rB => (a, v, c, d) | rC => (a, b, v, d) | rD => (a, b, c, v) end.

(* One call FF/GG/HH/II( a, b, c, d, x[ k ], s, ac ) of transform() *)
(* md5.hpp:124-190 *)
Inductive md5_ins :=
| FF (a b c d : reg4) (k : nat) (s : N) (ac : N)
| GG (a b c d : reg4) (k : nat) (s : N) (ac : N)
| HH (a b c d : reg4) (k : nat) (s : N) (ac : N)
| II (a b c d : reg4) (k : nat) (s : N) (ac : N).

(* md5.hpp:65-91:  a += f( b, c, d ) + x + ac;  a = rotl( a, s );  a += b; *)
Definition md5_step (f : N -> N -> N -> N) (a b c d x s ac : N) : N :=
  let a := add32 a (add32 (add32 (f b c d) x) ac) in
  let a := rotl32 a s in
  add32 a b.

(* md5.hpp:65-91: FF, GG, HH, II *)
Definition md5_exec (x : list N) (v : md5_st) (i : md5_ins) : md5_st :=
  match i with
  | FF a b c d k s ac => set4 v a (md5_step md5_F (get4 v a) (get4 v b) (get4 v c) (get4 v d) (nth k x 0) s ac)
  | GG a b c d k s ac => set4 v a (md5_step md5_G (get4 v a) (get4 v b) (get4 v c) (get4 v d) (nth k x 0) s ac)
  | HH a b c d k s ac => set4 v a (md5_step md5_H (get4 v a) (get4 v b) (get4 v c) (get4 v d) (nth k x 0) s ac)
  | II a b c d k s ac => set4 v a (md5_step md5_I (get4 v a) (get4 v b) (get4 v c) (get4 v d) (nth k x 0) s ac)
  end.

(* md5.hpp:93 *)
Definition S11 : N := 7.
(* md5.hpp:94 *)
Definition S12 : N := 12.
(* md5.hpp:95 *)
Definition S13 : N := 17.
(* md5.hpp:96 *)
Definition S14 : N := 22.
(* md5.hpp:97 *)
Definition S21 : N := 5.
(* md5.hpp:98 *)
Definition S22 : N := 9.
(* md5.hpp:99 *)
Definition S23 : N := 14.
(* md5.hpp:100 *)
Definition S24 : N := 20.
(* md5.hpp:101 *)
Definition S31 : N := 4.
(* md5.hpp:102 *)
Definition S32 : N := 11.
(* md5.hpp:103 *)
Definition S33 : N := 16.
(* md5.hpp:104 *)
Definition S34 : N := 23.
(* md5.hpp:105 *)
Definition S41 : N := 6.
(* md5.hpp:106 *)
Definition S42 : N := 10.
(* md5.hpp:107 *)
Definition S43 : N := 15.
(* md5.hpp:108 *)
Definition S44 : N := 21.

(* md5.hpp:124-190, one entry per source line *)
Definition md5_program : list md5_ins :=
  [ FF rA rB rC rD 0 S11 0xd76aa478;
    FF rD rA rB rC 1 S12 0xe8c7b756;
    FF rC rD rA rB 2 S13 0x242070db;
    FF rB rC rD rA 3 S14 0xc1bdceee;
    FF rA rB rC rD 4 S11 0xf57c0faf;
    FF rD rA rB rC 5 S12 0x4787c62a;
    FF rC rD rA rB 6 S13 0xa8304613;
    FF rB rC rD rA 7 S14 0xfd469501;
    FF rA rB rC rD 8 S11 0x698098d8;
    FF rD rA rB rC 9 S12 0x8b44f7af;
    FF rC rD rA rB 10 S13 0xffff5bb1;
    FF rB rC rD rA 11 S14 0x895cd7be;
    FF rA rB rC rD 12 S11 0x6b901122;
    FF rD rA rB rC 13 S12 0xfd987193;
    FF rC rD rA rB 14 S13 0xa679438e;
    FF rB rC rD rA 15 S14 0x49b40821;
    GG rA rB rC rD 1 S21 0xf61e2562;
    GG rD rA rB rC 6 S22 0xc040b340;
    GG rC rD rA rB 11 S23 0x265e5a51;
    GG rB rC rD rA 0 S24 0xe9b6c7aa;
    GG rA rB rC rD 5 S21 0xd62f105d;
    GG rD rA rB rC 10 S22 0x2441453;
    GG rC rD rA rB 15 S23 0xd8a1e681;
    GG rB rC rD rA 4 S24 0xe7d3fbc8;
    GG rA rB rC rD 9 S21 0x21e1cde6;
    GG rD rA rB rC 14 S22 0xc33707d6;
    GG rC rD rA rB 3 S23 0xf4d50d87;
    GG rB rC rD rA 8 S24 0x455a14ed;
    GG rA rB rC rD 13 S21 0xa9e3e905;
    GG rD rA rB rC 2 S22 0xfcefa3f8;
    GG rC rD rA rB 7 S23 0x676f02d9;
    GG rB rC rD rA 12 S24 0x8d2a4c8a;
    HH rA rB rC rD 5 S31 0xfffa3942;
    HH rD rA rB rC 8 S32 0x8771f681;
    HH rC rD rA rB 11 S33 0x6d9d6122;
    HH rB rC rD rA 14 S34 0xfde5380c;
    HH rA rB rC rD 1 S31 0xa4beea44;
    HH rD rA rB rC 4 S32 0x4bdecfa9;
    HH rC rD rA rB 7 S33 0xf6bb4b60;
    HH rB rC rD rA 10 S34 0xbebfbc70;
    HH rA rB rC rD 13 S31 0x289b7ec6;
    HH rD rA rB rC 0 S32 0xeaa127fa;
    HH rC rD rA rB 3 S33 0xd4ef3085;
    HH rB rC rD rA 6 S34 0x4881d05;
    HH rA rB rC rD 9 S31 0xd9d4d039;
    HH rD rA rB rC 12 S32 0xe6db99e5;
    HH rC rD rA rB 15 S33 0x1fa27cf8;
    HH rB rC rD rA 2 S34 0xc4ac5665;
    II rA rB rC rD 0 S41 0xf4292244;
    II rD rA rB rC 7 S42 0x432aff97;
    II rC rD rA rB 14 S43 0xab9423a7;
    II rB rC rD rA 5 S44 0xfc93a039;
    II rA rB rC rD 12 S41 0x655b59c3;
    II rD rA rB rC 3 S42 0x8f0ccc92;
    II rC rD rA rB 10 S43 0xffeff47d;
    II rB rC rD rA 1 S44 0x85845dd1;
    II rA rB rC rD 8 S41 0x6fa87e4f;
    II rD rA rB rC 15 S42 0xfe2ce6e0;
    II rC rD rA rB 6 S43 0xa3014314;
    II rB rC rD rA 13 S44 0x4e0811a1;
    II rA rB rC rD 4 S41 0xf7537e82;
    II rD rA rB rC 11 S42 0xbd3af235;
    II rC rD rA rB 2 S43 0x2ad7d2bb;
    II rB rC rD rA 9 S44 0xeb86d391 ].

(* md5.hpp:110-196 *)
Definition md5_transform (pf : plat) (st : md5_st) (block : ptr) : res md5_st :=
  x <- mapM (fun i => q <- padd block (i * 4) ;; read32le pf q) (seq 0 16) ;;
  let '(a, b, c, d) := fold_left (md5_exec x) md5_program st in
  let '(s0, s1, s2, s3) := st in
  Ok (add32 s0 a, add32 s1 b, add32 s2 c, add32 s3 d).

(* md5.hpp:227-279, loop "while( n >= N )" *)
Fixpoint md5_blocks (pf : plat) (fuel : nat) (st : md5_st) (p : ptr) (n : nat)
  : res (md5_st * ptr * nat) :=
  if Nat.leb 64 n then
    match fuel with
    | O => OutOfFuel
    | S fuel' => st <- md5_transform pf st p ;;
                 p <- padd p 64 ;;
                 md5_blocks pf fuel' st p (n - 64)
    end
  else Ok (st, p, n).

(* md5.hpp:227-279, from BOOST_ASSERT( m_ == 0 ) to the end *)
Definition md5_update_tail (pf : plat) (s : bst md5_st) (p : ptr) (n : nat) : res (bst md5_st) :=
  assert! (Nat.eqb (b_m s) 0) ;;
  '(st, p, n) <- md5_blocks pf n (b_st s) p n ;;
  assert! (Nat.ltb n 64) ;;
  '(buf, m) <- (if Nat.ltb 0 n
                then buf <- memcpy pf (b_buf s) 0 p n ;; Ok (buf, n)
                else Ok (b_buf s, b_m s)) ;;
  assert! (N.of_nat m =? b_n s mod 64) ;;
  Ok (mkB st buf m (b_n s)).

(* md5.hpp:227-279 *)
Definition md5_update (pf : plat) (s : bst md5_st) (p : ptr) (n : nat) : res (bst md5_st) :=
  assert! (N.of_nat (b_m s) =? b_n s mod 64) ;;
  if Nat.eqb n 0 then Ok s else
  let n_ := (b_n s + N.of_nat n) mod 2^64 in
  if Nat.ltb 0 (b_m s) then
    let k := (64 - b_m s)%nat in
    let k := if Nat.ltb n k then n else k in
    buf <- memcpy pf (b_buf s) (b_m s) p k ;;
    p <- padd p k ;;
    let n := (n - k)%nat in
    let m := (b_m s + k)%nat in
    if Nat.ltb m 64 then Ok (mkB (b_st s) buf m n_) else
    assert! (Nat.eqb m 64) ;;
    st <- md5_transform pf (b_st s) (Ptr buf) ;;
    buf <- memset pf buf 0 0 64 ;;
    md5_update_tail pf (mkB st buf 0 n_) p n
  else
    md5_update_tail pf (mkB (b_st s) (b_buf s) (b_m s) n_) p n.

(* md5.hpp:287-313 *)
Definition md5_result (pf : plat) (s : bst md5_st) : res (list N * bst md5_st) :=
  assert! (N.of_nat (b_m s) =? b_n s mod 64) ;;
  let bits := write64le pf (mul64 (b_n s) 8) in
  let k := (if Nat.ltb (b_m s) 56 then 56 - b_m s else 120 - b_m s)%nat in
  let padding := 0x80 :: zeros 63 in
  s <- md5_update pf s (Ptr padding) k ;;
  s <- md5_update pf s (Ptr bits) 8 ;;
  assert! (Nat.eqb (b_m s) 0) ;;
  let '(s0, s1, s2, s3) := b_st s in
  Ok (concat (map (write32le pf) [s0; s1; s2; s3]), s).

(* md5.hpp:34-41, 204: default constructor *)
Definition md5_init : bst md5_st := 
  mkB (0x67452301, 0xefcdab89, 0x98badcfe, 0x10325476) (zeros 64) 0 0.

(* md5.hpp:206-216: constructor from a 64-bit seed *)
Definition md5_seed (pf : plat) (seed : N) : res (bst md5_st) :=
  if negb (seed =? 0) then
    let tmp := write64le pf seed in
    s <- md5_update pf md5_init (Ptr tmp) 8 ;;
    '(_, s) <- md5_result pf s ;;
    Ok s
  else Ok md5_init.

(* md5.hpp:218-225: constructor from a byte sequence *)
Definition md5_bytes (pf : plat) (p : ptr) (n : nat) : res (bst md5_st) :=
  if negb (Nat.eqb n 0) then
    s <- md5_update pf md5_init p n ;;
    '(_, s) <- md5_result pf s ;;
    Ok s
  else Ok md5_init.

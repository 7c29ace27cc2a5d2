(* Model of include/boost/hash2/ripemd.hpp.  Generated text is transcribed line by line from the C++ source. *)
From Verif Require Import Base.
Open Scope N_scope.

(* ripemd.hpp:48, 397 (the two classes define the same F1..F4) *)
Definition rmd_F1 (x y z : N) : N := N.lxor (N.lxor x y) z.
(* ripemd.hpp:49, 398 *)
Definition rmd_F2 (x y z : N) : N := N.lor (N.land x y) (N.land (not32 x) z).
(* ripemd.hpp:50, 399 *)
Definition rmd_F3 (x y z : N) : N := N.lxor (N.lor x (not32 y)) z.
(* ripemd.hpp:51, 400 *)
Definition rmd_F4 (x y z : N) : N := N.lor (N.land x z) (N.land y (not32 z)).
(* ripemd.hpp:401 *)
Definition rmd_F5 (x y z : N) : N := N.lxor x (N.lor y (not32 z)).

(* ------------------------------------------------------------------ ripemd_128 *)
(* ripemd.hpp:37 *)
Definition rmd128_st : Type := (N * N * N * N)%type.       (* state_[ 4 ] *)
(* aa, bb, cc, dd, aaa, bbb, ccc, ddd *)
(* ripemd.hpp:103-111 *)
Inductive reg8 := xA | xB | xC | xD | yA | yB | yC | yD.
(* the values of these variables (ripemd.hpp:103-111) *)
Definition rf8 : Type := (rmd128_st * rmd128_st)%type.
(* ripemd.hpp:103-111: reading one of them *)
Definition get8 (s : rf8) (r : reg8) : N :=
  let '((a, b, c, d), (a', b', c', d')) := s in
  match r with xA => a | xB => b | xC => c | xD => d | yA => a' | yB => b' | yC => c' | yD => d' end.
(* ripemd.hpp:103-111: writing one of them *)
Definition set8 (s : rf8) (r : reg8) (v : N) : rf8 :=
  let '((a, b, c, d), (a', b', c', d')) := s in
  match r with
  | xA => ((v, b, c, d), (a', b', c', d')) | xB => ((a, v, c, d), (a', b', c', d'))
  | xC => ((a, b, v, d), (a', b', c', d')) | xD => ((a, b, c, v), (a', b', c', d'))
  | yA => ((a, b, c, d), (v, b', c', d')) | yB => ((a, b, c, d), (a', v, c', d'))
  | yC => ((a, b, c, d), (a', b', v, d')) | yD => ((a, b, c, d), (a', b', c', v))
  end.

(* a += f + x + K;  a = rotl( a, s );     (ripemd.hpp:53-99).
   R1 and RR4 have no constant; modelled as K = 0 with the sum taken modulo 2^32 once more
   (no effect: F1 + x is already a uint32_t). *)
Definition rmd128_step (f : N -> N -> N -> N) (K : N) (v : rf8) (a b c d : reg8) (x s : N) : rf8 :=
  set8 v a (rotl32 (add32 (get8 v a) (add32 (add32 (f (get8 v b) (get8 v c) (get8 v d)) x) K)) s).

(* ripemd.hpp:121-253: one call R1 ... R4, RR1 ... RR4 *)
Inductive rmd128_ins :=
| JR1 (a b c d : reg8) (k : nat) (s : N)
| JR2 (a b c d : reg8) (k : nat) (s : N)
| JR3 (a b c d : reg8) (k : nat) (s : N)
| JR4 (a b c d : reg8) (k : nat) (s : N)
| JRR1 (a b c d : reg8) (k : nat) (s : N)
| JRR2 (a b c d : reg8) (k : nat) (s : N)
| JRR3 (a b c d : reg8) (k : nat) (s : N)
| JRR4 (a b c d : reg8) (k : nat) (s : N).

(* ripemd.hpp:53-99 *)
Definition rmd128_exec (X : list N) (v : rf8) (i : rmd128_ins) : rf8 :=
  match i with
  | JR1 a b c d k s => rmd128_step rmd_F1 0 v a b c d (nth k X 0) s
  | JR2 a b c d k s => rmd128_step rmd_F2 0x5a827999 v a b c d (nth k X 0) s
  | JR3 a b c d k s => rmd128_step rmd_F3 0x6ed9eba1 v a b c d (nth k X 0) s
  | JR4 a b c d k s => rmd128_step rmd_F4 0x8f1bbcdc v a b c d (nth k X 0) s
  | JRR1 a b c d k s => rmd128_step rmd_F4 0x50a28be6 v a b c d (nth k X 0) s
  | JRR2 a b c d k s => rmd128_step rmd_F3 0x5c4dd124 v a b c d (nth k X 0) s
  | JRR3 a b c d k s => rmd128_step rmd_F2 0x6d703ef3 v a b c d (nth k X 0) s
  | JRR4 a b c d k s => rmd128_step rmd_F1 0 v a b c d (nth k X 0) s
  end.

(* ripemd.hpp:121-253, one entry per source line *)
Definition rmd128_program : list rmd128_ins :=
  [ JR1 xA xB xC xD 0 11;
    JR1 xD xA xB xC 1 14;
    JR1 xC xD xA xB 2 15;
    JR1 xB xC xD xA 3 12;
    JR1 xA xB xC xD 4 5;
    JR1 xD xA xB xC 5 8;
    JR1 xC xD xA xB 6 7;
    JR1 xB xC xD xA 7 9;
    JR1 xA xB xC xD 8 11;
    JR1 xD xA xB xC 9 13;
    JR1 xC xD xA xB 10 14;
    JR1 xB xC xD xA 11 15;
    JR1 xA xB xC xD 12 6;
    JR1 xD xA xB xC 13 7;
    JR1 xC xD xA xB 14 9;
    JR1 xB xC xD xA 15 8;
    JRR1 yA yB yC yD 5 8;
    JRR1 yD yA yB yC 14 9;
    JRR1 yC yD yA yB 7 9;
    JRR1 yB yC yD yA 0 11;
    JRR1 yA yB yC yD 9 13;
    JRR1 yD yA yB yC 2 15;
    JRR1 yC yD yA yB 11 15;
    JRR1 yB yC yD yA 4 5;
    JRR1 yA yB yC yD 13 7;
    JRR1 yD yA yB yC 6 7;
    JRR1 yC yD yA yB 15 8;
    JRR1 yB yC yD yA 8 11;
    JRR1 yA yB yC yD 1 14;
    JRR1 yD yA yB yC 10 14;
    JRR1 yC yD yA yB 3 12;
    JRR1 yB yC yD yA 12 6;
    JR2 xA xB xC xD 7 7;
    JR2 xD xA xB xC 4 6;
    JR2 xC xD xA xB 13 8;
    JR2 xB xC xD xA 1 13;
    JR2 xA xB xC xD 10 11;
    JR2 xD xA xB xC 6 9;
    JR2 xC xD xA xB 15 7;
    JR2 xB xC xD xA 3 15;
    JR2 xA xB xC xD 12 7;
    JR2 xD xA xB xC 0 12;
    JR2 xC xD xA xB 9 15;
    JR2 xB xC xD xA 5 9;
    JR2 xA xB xC xD 2 11;
    JR2 xD xA xB xC 14 7;
    JR2 xC xD xA xB 11 13;
    JR2 xB xC xD xA 8 12;
    JRR2 yA yB yC yD 6 9;
    JRR2 yD yA yB yC 11 13;
    JRR2 yC yD yA yB 3 15;
    JRR2 yB yC yD yA 7 7;
    JRR2 yA yB yC yD 0 12;
    JRR2 yD yA yB yC 13 8;
    JRR2 yC yD yA yB 5 9;
    JRR2 yB yC yD yA 10 11;
    JRR2 yA yB yC yD 14 7;
    JRR2 yD yA yB yC 15 7;
    JRR2 yC yD yA yB 8 12;
    JRR2 yB yC yD yA 12 7;
    JRR2 yA yB yC yD 4 6;
    JRR2 yD yA yB yC 9 15;
    JRR2 yC yD yA yB 1 13;
    JRR2 yB yC yD yA 2 11;
    JR3 xA xB xC xD 3 11;
    JR3 xD xA xB xC 10 13;
    JR3 xC xD xA xB 14 6;
    JR3 xB xC xD xA 4 7;
    JR3 xA xB xC xD 9 14;
    JR3 xD xA xB xC 15 9;
    JR3 xC xD xA xB 8 13;
    JR3 xB xC xD xA 1 15;
    JR3 xA xB xC xD 2 14;
    JR3 xD xA xB xC 7 8;
    JR3 xC xD xA xB 0 13;
    JR3 xB xC xD xA 6 6;
    JR3 xA xB xC xD 13 5;
    JR3 xD xA xB xC 11 12;
    JR3 xC xD xA xB 5 7;
    JR3 xB xC xD xA 12 5;
    JRR3 yA yB yC yD 15 9;
    JRR3 yD yA yB yC 5 7;
    JRR3 yC yD yA yB 1 15;
    JRR3 yB yC yD yA 3 11;
    JRR3 yA yB yC yD 7 8;
    JRR3 yD yA yB yC 14 6;
    JRR3 yC yD yA yB 6 6;
    JRR3 yB yC yD yA 9 14;
    JRR3 yA yB yC yD 11 12;
    JRR3 yD yA yB yC 8 13;
    JRR3 yC yD yA yB 12 5;
    JRR3 yB yC yD yA 2 14;
    JRR3 yA yB yC yD 10 13;
    JRR3 yD yA yB yC 0 13;
    JRR3 yC yD yA yB 4 7;
    JRR3 yB yC yD yA 13 5;
    JR4 xA xB xC xD 1 11;
    JR4 xD xA xB xC 9 12;
    JR4 xC xD xA xB 11 14;
    JR4 xB xC xD xA 10 15;
    JR4 xA xB xC xD 0 14;
    JR4 xD xA xB xC 8 15;
    JR4 xC xD xA xB 12 9;
    JR4 xB xC xD xA 4 8;
    JR4 xA xB xC xD 13 9;
    JR4 xD xA xB xC 3 14;
    JR4 xC xD xA xB 7 5;
    JR4 xB xC xD xA 15 6;
    JR4 xA xB xC xD 14 8;
    JR4 xD xA xB xC 5 6;
    JR4 xC xD xA xB 6 5;
    JR4 xB xC xD xA 2 12;
    JRR4 yA yB yC yD 8 15;
    JRR4 yD yA yB yC 6 5;
    JRR4 yC yD yA yB 4 8;
    JRR4 yB yC yD yA 1 11;
    JRR4 yA yB yC yD 3 14;
    JRR4 yD yA yB yC 11 14;
    JRR4 yC yD yA yB 15 6;
    JRR4 yB yC yD yA 0 14;
    JRR4 yA yB yC yD 5 6;
    JRR4 yD yA yB yC 12 9;
    JRR4 yC yD yA yB 2 12;
    JRR4 yB yC yD yA 13 9;
    JRR4 yA yB yC yD 9 12;
    JRR4 yD yA yB yC 7 5;
    JRR4 yC yD yA yB 10 15;
    JRR4 yB yC yD yA 14 8 ].

(* ripemd.hpp:101-262 *)
Definition rmd128_transform (pf : plat) (st : rmd128_st) (block : ptr) : res rmd128_st :=
  X <- mapM (fun i => q <- padd block (i * 4) ;; read32le pf q) (seq 0 16) ;;
  let '((aa, bb, cc, dd), (aaa, bbb, ccc, ddd)) := fold_left (rmd128_exec X) rmd128_program (st, st) in
  let '(s0, s1, s2, s3) := st in
  let ddd := add32 ddd (add32 cc s1) in
  let s1 := add32 (add32 s2 dd) aaa in
  let s2 := add32 (add32 s3 aa) bbb in
  let s3 := add32 (add32 s0 bb) ccc in
  let s0 := ddd in
  Ok (s0, s1, s2, s3).

(* ripemd.hpp:293-345, loop "while( n >= N )" *)
Fixpoint rmd128_blocks (pf : plat) (fuel : nat) (st : rmd128_st) (p : ptr) (n : nat)
  : res (rmd128_st * ptr * nat) :=
  if Nat.leb 64 n then
    match fuel with
    | O => OutOfFuel
    | S fuel' => st <- rmd128_transform pf st p ;;
                 p <- padd p 64 ;;
                 rmd128_blocks pf fuel' st p (n - 64)
    end
  else Ok (st, p, n).

(* ripemd.hpp:293-345, from BOOST_ASSERT( m_ == 0 ) to the end *)
Definition rmd128_update_tail (pf : plat) (s : bst rmd128_st) (p : ptr) (n : nat) : res (bst rmd128_st) :=
  assert! (Nat.eqb (b_m s) 0) ;;
  '(st, p, n) <- rmd128_blocks pf n (b_st s) p n ;;
  assert! (Nat.ltb n 64) ;;
  '(buf, m) <- (if Nat.ltb 0 n
                then buf <- memcpy pf (b_buf s) 0 p n ;; Ok (buf, n)
                else Ok (b_buf s, b_m s)) ;;
  assert! (N.of_nat m =? b_n s mod 64) ;;
  Ok (mkB st buf m (b_n s)).

(* ripemd.hpp:293-345 *)
Definition rmd128_update (pf : plat) (s : bst rmd128_st) (p : ptr) (n : nat) : res (bst rmd128_st) :=
  assert! (N.of_nat (b_m s) =? b_n s mod 64) ;;
  if Nat.eqb n 0 then Ok s else
  let n_ := (b_n s + N.of_nat n) mod 2^64 in
  if Nat.ltb 0 (b_m s) then
    let k := (64 - b_m s)%nat in
    let k := if Nat.ltb n k then n else k in
    buf <- memcpy pf (b_buf s) (b_m s) p k ;;
    p <- padd p k ;;
    let n := (n - k)%nat in
    let m := (b_m s + k)%nat in
    if Nat.ltb m 64 then Ok (mkB (b_st s) buf m n_) else
    assert! (Nat.eqb m 64) ;;
    st <- rmd128_transform pf (b_st s) (Ptr buf) ;;
    buf <- memset pf buf 0 0 64 ;;
    rmd128_update_tail pf (mkB st buf 0 n_) p n
  else
    rmd128_update_tail pf (mkB (b_st s) (b_buf s) (b_m s) n_) p n.

(* ripemd.hpp:353-379 *)
Definition rmd128_result (pf : plat) (s : bst rmd128_st) : res (list N * bst rmd128_st) :=
  assert! (N.of_nat (b_m s) =? b_n s mod 64) ;;
  let bits := write64le pf (mul64 (b_n s) 8) in
  let k := (if Nat.ltb (b_m s) 56 then 56 - b_m s else 120 - b_m s)%nat in
  let padding := 0x80 :: zeros 63 in
  s <- rmd128_update pf s (Ptr padding) k ;;
  s <- rmd128_update pf s (Ptr bits) 8 ;;
  assert! (Nat.eqb (b_m s) 0) ;;
  let '(s0, s1, s2, s3) := b_st s in
  Ok (concat (map (write32le pf) [s0; s1; s2; s3]), s).

(* ripemd.hpp:37-44, 270: default constructor *)
Definition rmd128_init : bst rmd128_st := 
  mkB (0x67452301, 0xEFCDAB89, 0x98BADCFE, 0x10325476) (zeros 64) 0 0.

(* ripemd.hpp:272-282: constructor from a 64-bit seed *)
Definition rmd128_seed (pf : plat) (seed : N) : res (bst rmd128_st) :=
  if negb (seed =? 0) then
    let tmp := write64le pf seed in
    s <- rmd128_update pf rmd128_init (Ptr tmp) 8 ;;
    '(_, s) <- rmd128_result pf s ;;
    Ok s
  else Ok rmd128_init.

(* ripemd.hpp:284-291: constructor from a byte sequence *)
Definition rmd128_bytes (pf : plat) (p : ptr) (n : nat) : res (bst rmd128_st) :=
  if negb (Nat.eqb n 0) then
    s <- rmd128_update pf rmd128_init p n ;;
    '(_, s) <- rmd128_result pf s ;;
    Ok s
  else Ok rmd128_init.

(* ------------------------------------------------------------------ ripemd_160 *)
(* ripemd.hpp:386 *)
Definition rmd160_st : Type := (N * N * N * N * N)%type.       (* state_[ 5 ] *)
(* aa, bb, cc, dd, ee, aaa, bbb, ccc, ddd, eee *)
(* ripemd.hpp:475-485 *)
Inductive reg10 := zxA | zxB | zxC | zxD | zxE | zyA | zyB | zyC | zyD | zyE.
(* the values of these variables (ripemd.hpp:475-485) *)
Definition rf10 : Type := (rmd160_st * rmd160_st)%type.
(* ripemd.hpp:475-485: reading one of them *)
Definition get10 (s : rf10) (r : reg10) : N :=
  let '((a, b, c, d, e), (a', b', c', d', e')) := s in
  match r with zxA => a | zxB => b | zxC => c | zxD => d | zxE => e | zyA => a' | zyB => b' | zyC => c' | zyD => d' | zyE => e' end.
(* ripemd.hpp:475-485: writing one of them *)
Definition set10 (s : rf10) (r : reg10) (v : N) : rf10 :=
  let '((a, b, c, d, e), (a', b', c', d', e')) := s in
  match r with
  | zxA => ((v, b, c, d, e), (a', b', c', d', e'))
  | zxB => ((a, v, c, d, e), (a', b', c', d', e'))
  | zxC => ((a, b, v, d, e), (a', b', c', d', e'))
  | zxD => ((a, b, c, v, e), (a', b', c', d', e'))
  | zxE => ((a, b, c, d, v), (a', b', c', d', e'))
  | zyA => ((a, b, c, d, e), (v, b', c', d', e'))
  | zyB => ((a, b, c, d, e), (a', v, c', d', e'))
  | zyC => ((a, b, c, d, e), (a', b', v, d', e'))
  | zyD => ((a, b, c, d, e), (a', b', c', v, e'))
  | zyE => ((a, b, c, d, e), (a', b', c', d', v))
  end.

(* a += f + x + K;  a = rotl( a, s ) + e;  c = rotl( c, 10 );     (ripemd.hpp:403-471).
   R1 and RR5 have no constant; modelled as K = 0 (as above). *)
Definition rmd160_step (f : N -> N -> N -> N) (K : N) (v : rf10) (a b c d e : reg10) (x s : N) : rf10 :=
  let v := set10 v a (add32 (get10 v a) (add32 (add32 (f (get10 v b) (get10 v c) (get10 v d)) x) K)) in
  let v := set10 v a (add32 (rotl32 (get10 v a) s) (get10 v e)) in
  set10 v c (rotl32 (get10 v c) 10).

(* ripemd.hpp:506-673: one call R1 ... R5, RR1 ... RR5 *)
Inductive rmd160_ins :=
| KR1 (a b c d e : reg10) (k : nat) (s : N)
| KR2 (a b c d e : reg10) (k : nat) (s : N)
| KR3 (a b c d e : reg10) (k : nat) (s : N)
| KR4 (a b c d e : reg10) (k : nat) (s : N)
| KR5 (a b c d e : reg10) (k : nat) (s : N)
| KRR1 (a b c d e : reg10) (k : nat) (s : N)
| KRR2 (a b c d e : reg10) (k : nat) (s : N)
| KRR3 (a b c d e : reg10) (k : nat) (s : N)
| KRR4 (a b c d e : reg10) (k : nat) (s : N)
| KRR5 (a b c d e : reg10) (k : nat) (s : N).

(* ripemd.hpp:403-471 *)
Definition rmd160_exec (X : list N) (v : rf10) (i : rmd160_ins) : rf10 :=
  match i with
  | KR1 a b c d e k s => rmd160_step rmd_F1 0 v a b c d e (nth k X 0) s
  | KR2 a b c d e k s => rmd160_step rmd_F2 0x5a827999 v a b c d e (nth k X 0) s
  | KR3 a b c d e k s => rmd160_step rmd_F3 0x6ed9eba1 v a b c d e (nth k X 0) s
  | KR4 a b c d e k s => rmd160_step rmd_F4 0x8f1bbcdc v a b c d e (nth k X 0) s
  | KR5 a b c d e k s => rmd160_step rmd_F5 0xa953fd4e v a b c d e (nth k X 0) s
  | KRR1 a b c d e k s => rmd160_step rmd_F5 0x50a28be6 v a b c d e (nth k X 0) s
  | KRR2 a b c d e k s => rmd160_step rmd_F4 0x5c4dd124 v a b c d e (nth k X 0) s
  | KRR3 a b c d e k s => rmd160_step rmd_F3 0x6d703ef3 v a b c d e (nth k X 0) s
  | KRR4 a b c d e k s => rmd160_step rmd_F2 0x7a6d76e9 v a b c d e (nth k X 0) s
  | KRR5 a b c d e k s => rmd160_step rmd_F1 0 v a b c d e (nth k X 0) s
  end.

(* ripemd.hpp:506-673, one entry per source line *)
Definition rmd160_program : list rmd160_ins :=
  [ KR1 zxA zxB zxC zxD zxE 0 11;
    KR1 zxE zxA zxB zxC zxD 1 14;
    KR1 zxD zxE zxA zxB zxC 2 15;
    KR1 zxC zxD zxE zxA zxB 3 12;
    KR1 zxB zxC zxD zxE zxA 4 5;
    KR1 zxA zxB zxC zxD zxE 5 8;
    KR1 zxE zxA zxB zxC zxD 6 7;
    KR1 zxD zxE zxA zxB zxC 7 9;
    KR1 zxC zxD zxE zxA zxB 8 11;
    KR1 zxB zxC zxD zxE zxA 9 13;
    KR1 zxA zxB zxC zxD zxE 10 14;
    KR1 zxE zxA zxB zxC zxD 11 15;
    KR1 zxD zxE zxA zxB zxC 12 6;
    KR1 zxC zxD zxE zxA zxB 13 7;
    KR1 zxB zxC zxD zxE zxA 14 9;
    KR1 zxA zxB zxC zxD zxE 15 8;
    KRR1 zyA zyB zyC zyD zyE 5 8;
    KRR1 zyE zyA zyB zyC zyD 14 9;
    KRR1 zyD zyE zyA zyB zyC 7 9;
    KRR1 zyC zyD zyE zyA zyB 0 11;
    KRR1 zyB zyC zyD zyE zyA 9 13;
    KRR1 zyA zyB zyC zyD zyE 2 15;
    KRR1 zyE zyA zyB zyC zyD 11 15;
    KRR1 zyD zyE zyA zyB zyC 4 5;
    KRR1 zyC zyD zyE zyA zyB 13 7;
    KRR1 zyB zyC zyD zyE zyA 6 7;
    KRR1 zyA zyB zyC zyD zyE 15 8;
    KRR1 zyE zyA zyB zyC zyD 8 11;
    KRR1 zyD zyE zyA zyB zyC 1 14;
    KRR1 zyC zyD zyE zyA zyB 10 14;
    KRR1 zyB zyC zyD zyE zyA 3 12;
    KRR1 zyA zyB zyC zyD zyE 12 6;
    KR2 zxE zxA zxB zxC zxD 7 7;
    KR2 zxD zxE zxA zxB zxC 4 6;
    KR2 zxC zxD zxE zxA zxB 13 8;
    KR2 zxB zxC zxD zxE zxA 1 13;
    KR2 zxA zxB zxC zxD zxE 10 11;
    KR2 zxE zxA zxB zxC zxD 6 9;
    KR2 zxD zxE zxA zxB zxC 15 7;
    KR2 zxC zxD zxE zxA zxB 3 15;
    KR2 zxB zxC zxD zxE zxA 12 7;
    KR2 zxA zxB zxC zxD zxE 0 12;
    KR2 zxE zxA zxB zxC zxD 9 15;
    KR2 zxD zxE zxA zxB zxC 5 9;
    KR2 zxC zxD zxE zxA zxB 2 11;
    KR2 zxB zxC zxD zxE zxA 14 7;
    KR2 zxA zxB zxC zxD zxE 11 13;
    KR2 zxE zxA zxB zxC zxD 8 12;
    KRR2 zyE zyA zyB zyC zyD 6 9;
    KRR2 zyD zyE zyA zyB zyC 11 13;
    KRR2 zyC zyD zyE zyA zyB 3 15;
    KRR2 zyB zyC zyD zyE zyA 7 7;
    KRR2 zyA zyB zyC zyD zyE 0 12;
    KRR2 zyE zyA zyB zyC zyD 13 8;
    KRR2 zyD zyE zyA zyB zyC 5 9;
    KRR2 zyC zyD zyE zyA zyB 10 11;
    KRR2 zyB zyC zyD zyE zyA 14 7;
    KRR2 zyA zyB zyC zyD zyE 15 7;
    KRR2 zyE zyA zyB zyC zyD 8 12;
    KRR2 zyD zyE zyA zyB zyC 12 7;
    KRR2 zyC zyD zyE zyA zyB 4 6;
    KRR2 zyB zyC zyD zyE zyA 9 15;
    KRR2 zyA zyB zyC zyD zyE 1 13;
    KRR2 zyE zyA zyB zyC zyD 2 11;
    KR3 zxD zxE zxA zxB zxC 3 11;
    KR3 zxC zxD zxE zxA zxB 10 13;
    KR3 zxB zxC zxD zxE zxA 14 6;
    KR3 zxA zxB zxC zxD zxE 4 7;
    KR3 zxE zxA zxB zxC zxD 9 14;
    KR3 zxD zxE zxA zxB zxC 15 9;
    KR3 zxC zxD zxE zxA zxB 8 13;
    KR3 zxB zxC zxD zxE zxA 1 15;
    KR3 zxA zxB zxC zxD zxE 2 14;
    KR3 zxE zxA zxB zxC zxD 7 8;
    KR3 zxD zxE zxA zxB zxC 0 13;
    KR3 zxC zxD zxE zxA zxB 6 6;
    KR3 zxB zxC zxD zxE zxA 13 5;
    KR3 zxA zxB zxC zxD zxE 11 12;
    KR3 zxE zxA zxB zxC zxD 5 7;
    KR3 zxD zxE zxA zxB zxC 12 5;
    KRR3 zyD zyE zyA zyB zyC 15 9;
    KRR3 zyC zyD zyE zyA zyB 5 7;
    KRR3 zyB zyC zyD zyE zyA 1 15;
    KRR3 zyA zyB zyC zyD zyE 3 11;
    KRR3 zyE zyA zyB zyC zyD 7 8;
    KRR3 zyD zyE zyA zyB zyC 14 6;
    KRR3 zyC zyD zyE zyA zyB 6 6;
    KRR3 zyB zyC zyD zyE zyA 9 14;
    KRR3 zyA zyB zyC zyD zyE 11 12;
    KRR3 zyE zyA zyB zyC zyD 8 13;
    KRR3 zyD zyE zyA zyB zyC 12 5;
    KRR3 zyC zyD zyE zyA zyB 2 14;
    KRR3 zyB zyC zyD zyE zyA 10 13;
    KRR3 zyA zyB zyC zyD zyE 0 13;
    KRR3 zyE zyA zyB zyC zyD 4 7;
    KRR3 zyD zyE zyA zyB zyC 13 5;
    KR4 zxC zxD zxE zxA zxB 1 11;
    KR4 zxB zxC zxD zxE zxA 9 12;
    KR4 zxA zxB zxC zxD zxE 11 14;
    KR4 zxE zxA zxB zxC zxD 10 15;
    KR4 zxD zxE zxA zxB zxC 0 14;
    KR4 zxC zxD zxE zxA zxB 8 15;
    KR4 zxB zxC zxD zxE zxA 12 9;
    KR4 zxA zxB zxC zxD zxE 4 8;
    KR4 zxE zxA zxB zxC zxD 13 9;
    KR4 zxD zxE zxA zxB zxC 3 14;
    KR4 zxC zxD zxE zxA zxB 7 5;
    KR4 zxB zxC zxD zxE zxA 15 6;
    KR4 zxA zxB zxC zxD zxE 14 8;
    KR4 zxE zxA zxB zxC zxD 5 6;
    KR4 zxD zxE zxA zxB zxC 6 5;
    KR4 zxC zxD zxE zxA zxB 2 12;
    KRR4 zyC zyD zyE zyA zyB 8 15;
    KRR4 zyB zyC zyD zyE zyA 6 5;
    KRR4 zyA zyB zyC zyD zyE 4 8;
    KRR4 zyE zyA zyB zyC zyD 1 11;
    KRR4 zyD zyE zyA zyB zyC 3 14;
    KRR4 zyC zyD zyE zyA zyB 11 14;
    KRR4 zyB zyC zyD zyE zyA 15 6;
    KRR4 zyA zyB zyC zyD zyE 0 14;
    KRR4 zyE zyA zyB zyC zyD 5 6;
    KRR4 zyD zyE zyA zyB zyC 12 9;
    KRR4 zyC zyD zyE zyA zyB 2 12;
    KRR4 zyB zyC zyD zyE zyA 13 9;
    KRR4 zyA zyB zyC zyD zyE 9 12;
    KRR4 zyE zyA zyB zyC zyD 7 5;
    KRR4 zyD zyE zyA zyB zyC 10 15;
    KRR4 zyC zyD zyE zyA zyB 14 8;
    KR5 zxB zxC zxD zxE zxA 4 9;
    KR5 zxA zxB zxC zxD zxE 0 15;
    KR5 zxE zxA zxB zxC zxD 5 5;
    KR5 zxD zxE zxA zxB zxC 9 11;
    KR5 zxC zxD zxE zxA zxB 7 6;
    KR5 zxB zxC zxD zxE zxA 12 8;
    KR5 zxA zxB zxC zxD zxE 2 13;
    KR5 zxE zxA zxB zxC zxD 10 12;
    KR5 zxD zxE zxA zxB zxC 14 5;
    KR5 zxC zxD zxE zxA zxB 1 12;
    KR5 zxB zxC zxD zxE zxA 3 13;
    KR5 zxA zxB zxC zxD zxE 8 14;
    KR5 zxE zxA zxB zxC zxD 11 11;
    KR5 zxD zxE zxA zxB zxC 6 8;
    KR5 zxC zxD zxE zxA zxB 15 5;
    KR5 zxB zxC zxD zxE zxA 13 6;
    KRR5 zyB zyC zyD zyE zyA 12 8;
    KRR5 zyA zyB zyC zyD zyE 15 5;
    KRR5 zyE zyA zyB zyC zyD 10 12;
    KRR5 zyD zyE zyA zyB zyC 4 9;
    KRR5 zyC zyD zyE zyA zyB 1 12;
    KRR5 zyB zyC zyD zyE zyA 5 5;
    KRR5 zyA zyB zyC zyD zyE 8 14;
    KRR5 zyE zyA zyB zyC zyD 7 6;
    KRR5 zyD zyE zyA zyB zyC 6 8;
    KRR5 zyC zyD zyE zyA zyB 2 13;
    KRR5 zyB zyC zyD zyE zyA 13 6;
    KRR5 zyA zyB zyC zyD zyE 14 5;
    KRR5 zyE zyA zyB zyC zyD 0 15;
    KRR5 zyD zyE zyA zyB zyC 3 13;
    KRR5 zyC zyD zyE zyA zyB 9 11;
    KRR5 zyB zyC zyD zyE zyA 11 11 ].

(* ripemd.hpp:473-682 *)
Definition rmd160_transform (pf : plat) (st : rmd160_st) (block : ptr) : res rmd160_st :=
  X <- mapM (fun i => q <- padd block (i * 4) ;; read32le pf q) (seq 0 16) ;;
  let '((aa, bb, cc, dd, ee), (aaa, bbb, ccc, ddd, eee)) :=
    fold_left (rmd160_exec X) rmd160_program (st, st) in
  let '(s0, s1, s2, s3, s4) := st in
  let ddd := add32 ddd (add32 cc s1) in
  let s1 := add32 (add32 s2 dd) eee in
  let s2 := add32 (add32 s3 ee) aaa in
  let s3 := add32 (add32 s4 aa) bbb in
  let s4 := add32 (add32 s0 bb) ccc in
  let s0 := ddd in
  Ok (s0, s1, s2, s3, s4).

(* ripemd.hpp:713-765, loop "while( n >= N )" *)
Fixpoint rmd160_blocks (pf : plat) (fuel : nat) (st : rmd160_st) (p : ptr) (n : nat)
  : res (rmd160_st * ptr * nat) :=
  if Nat.leb 64 n then
    match fuel with
    | O => OutOfFuel
    | S fuel' => st <- rmd160_transform pf st p ;;
                 p <- padd p 64 ;;
                 rmd160_blocks pf fuel' st p (n - 64)
    end
  else Ok (st, p, n).

(* ripemd.hpp:713-765, from BOOST_ASSERT( m_ == 0 ) to the end *)
Definition rmd160_update_tail (pf : plat) (s : bst rmd160_st) (p : ptr) (n : nat) : res (bst rmd160_st) :=
  assert! (Nat.eqb (b_m s) 0) ;;
  '(st, p, n) <- rmd160_blocks pf n (b_st s) p n ;;
  assert! (Nat.ltb n 64) ;;
  '(buf, m) <- (if Nat.ltb 0 n
                then buf <- memcpy pf (b_buf s) 0 p n ;; Ok (buf, n)
                else Ok (b_buf s, b_m s)) ;;
  assert! (N.of_nat m =? b_n s mod 64) ;;
  Ok (mkB st buf m (b_n s)).

(* ripemd.hpp:713-765 *)
Definition rmd160_update (pf : plat) (s : bst rmd160_st) (p : ptr) (n : nat) : res (bst rmd160_st) :=
  assert! (N.of_nat (b_m s) =? b_n s mod 64) ;;
  if Nat.eqb n 0 then Ok s else
  let n_ := (b_n s + N.of_nat n) mod 2^64 in
  if Nat.ltb 0 (b_m s) then
    let k := (64 - b_m s)%nat in
    let k := if Nat.ltb n k then n else k in
    buf <- memcpy pf (b_buf s) (b_m s) p k ;;
    p <- padd p k ;;
    let n := (n - k)%nat in
    let m := (b_m s + k)%nat in
    if Nat.ltb m 64 then Ok (mkB (b_st s) buf m n_) else
    assert! (Nat.eqb m 64) ;;
    st <- rmd160_transform pf (b_st s) (Ptr buf) ;;
    buf <- memset pf buf 0 0 64 ;;
    rmd160_update_tail pf (mkB st buf 0 n_) p n
  else
    rmd160_update_tail pf (mkB (b_st s) (b_buf s) (b_m s) n_) p n.

(* ripemd.hpp:773-799 *)
Definition rmd160_result (pf : plat) (s : bst rmd160_st) : res (list N * bst rmd160_st) :=
  assert! (N.of_nat (b_m s) =? b_n s mod 64) ;;
  let bits := write64le pf (mul64 (b_n s) 8) in
  let k := (if Nat.ltb (b_m s) 56 then 56 - b_m s else 120 - b_m s)%nat in
  let padding := 0x80 :: zeros 63 in
  s <- rmd160_update pf s (Ptr padding) k ;;
  s <- rmd160_update pf s (Ptr bits) 8 ;;
  assert! (Nat.eqb (b_m s) 0) ;;
  let '(s0, s1, s2, s3, s4) := b_st s in
  Ok (concat (map (write32le pf) [s0; s1; s2; s3; s4]), s).

(* ripemd.hpp:386-393, 690: default constructor *)
Definition rmd160_init : bst rmd160_st := 
  mkB (0x67452301, 0xefcdab89, 0x98badcfe, 0x10325476, 0xc3d2e1f0) (zeros 64) 0 0.

(* ripemd.hpp:692-702: constructor from a 64-bit seed *)
Definition rmd160_seed (pf : plat) (seed : N) : res (bst rmd160_st) :=
  if negb (seed =? 0) then
    let tmp := write64le pf seed in
    s <- rmd160_update pf rmd160_init (Ptr tmp) 8 ;;
    '(_, s) <- rmd160_result pf s ;;
    Ok s
  else Ok rmd160_init.

(* ripemd.hpp:704-711: constructor from a byte sequence *)
Definition rmd160_bytes (pf : plat) (p : ptr) (n : nat) : res (bst rmd160_st) :=
  if negb (Nat.eqb n 0) then
    s <- rmd160_update pf rmd160_init p n ;;
    '(_, s) <- rmd160_result pf s ;;
    Ok s
  else Ok rmd160_init.

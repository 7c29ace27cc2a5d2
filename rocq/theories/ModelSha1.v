(* Model of include/boost/hash2/sha1.hpp.  Generated text is transcribed line by line from the C++ source. *)
From Verif Require Import Base.
Open Scope N_scope.

(* sha1.hpp:33 *)
Definition sha1_st : Type := (N * N * N * N * N)%type.       (* state_[ 5 ] *)

(* The local variables a, b, c, d, e of transform() *)
(* sha1.hpp:93-97 *)
Inductive reg5 := qA | qB | qC | qD | qE.
(* sha1.hpp:93-97: reading one of them *)
Definition get5 (s : N * N * N * N * N) (r : reg5) : N :=
  let '(a, b, c, d, e) := s in
  match r with qA => a | qB => b | qC => c | qD => d | qE => e end.
(* sha1.hpp:93-97: writing one of them *)
Definition set5 (s : N * N * N * N * N) (r : reg5) (v : N) : N * N * N * N * N :=
  let '(a, b, c, d, e) := s in
  match r with
  | qA => (v, b, c, d, e) | qB => (a, v, c, d, e) | qC => (a, b, v, d, e)
  | qD => (a, b, c, v, e) | qE => (a, b, c, d, v)
  end.

(* One call R1( a, b, c, d, e, w, block, i ) or R2..R5( a, b, c, d, e, w, i ) *)
(* sha1.hpp:101-184 *)
Inductive sha1_ins :=
| SR1 (a b c d e : reg5) (i : nat)
| SR2 (a b c d e : reg5) (i : nat)
| SR3 (a b c d e : reg5) (i : nat)
| SR4 (a b c d e : reg5) (i : nat)
| SR5 (a b c d e : reg5) (i : nat).

(* the functions of b, c, d in R1/R2, R3, R4, R5 (sha1.hpp:48, 61, 69, 77, 85) *)
Definition sha1_f1 (b c d : N) : N := N.lor (N.land b c) (N.land (not32 b) d).
(* sha1.hpp:69 *)
Definition sha1_f3 (b c d : N) : N := N.lxor (N.lxor b c) d.
(* sha1.hpp:77 *)
Definition sha1_f4 (b c d : N) : N := N.lor (N.lor (N.land b c) (N.land b d)) (N.land c d).
(* sha1.hpp:85 *)
Definition sha1_f5 (b c d : N) : N := N.lxor (N.lxor b c) d.

(* w[ i ] for an array of 80 words; out of range is UB *)
(* sha1.hpp:46-56 *)
Definition arr_get (w : list N) (i : nat) : res N :=
  match nth_error w i with Some v => Ok v | None => UB end.

(* sha1.hpp:54-57.  The indices i - 3, ..., i - 16 are ints; a negative one is UB. *)
Definition sha1_W (w : list N) (i : nat) : res (N * list N) :=
  if Nat.ltb i 16 then UB else
  w3 <- arr_get w (i - 3) ;; w8 <- arr_get w (i - 8) ;;
  w14 <- arr_get w (i - 14) ;; w16 <- arr_get w (i - 16) ;;
  let v := rotl32 (N.lxor (N.lxor (N.lxor w3 w8) w14) w16) 1 in
  w <- store w i v ;;
  Ok (v, w).

(* e += rotl( a, 5 ) + f + K + wi;  b = rotl( b, 30 );   (sha1.hpp:50-51 etc.) *)
Definition sha1_step (v : sha1_st) (a b c d e : reg5) (f : N -> N -> N -> N) (K wi : N) : sha1_st :=
  let fv := f (get5 v b) (get5 v c) (get5 v d) in
  let v := set5 v e (add32 (get5 v e) (add32 (add32 (add32 (rotl32 (get5 v a) 5) fv) K) wi)) in
  set5 v b (rotl32 (get5 v b) 30).

(* sha1.hpp:44-89 *)
Definition sha1_exec (block : ptr) (vw : sha1_st * list N) (i : sha1_ins) : res (sha1_st * list N) :=
  let '(v, w) := vw in
  match i with
  | SR1 a b c d e i =>
      q <- padd block (i * 4) ;;
      x <- read32be q ;;
      w <- store w i x ;;
      wi <- arr_get w i ;;
      Ok (sha1_step v a b c d e sha1_f1 0x5A827999 wi, w)
  | SR2 a b c d e i => '(wi, w) <- sha1_W w i ;; Ok (sha1_step v a b c d e sha1_f1 0x5A827999 wi, w)
  | SR3 a b c d e i => '(wi, w) <- sha1_W w i ;; Ok (sha1_step v a b c d e sha1_f3 0x6ED9EBA1 wi, w)
  | SR4 a b c d e i => '(wi, w) <- sha1_W w i ;; Ok (sha1_step v a b c d e sha1_f4 0x8F1BBCDC wi, w)
  | SR5 a b c d e i => '(wi, w) <- sha1_W w i ;; Ok (sha1_step v a b c d e sha1_f5 0xCA62C1D6 wi, w)
  end.

(* sha1.hpp:101-184: the calls, in order *)
Fixpoint sha1_run (block : ptr) (prog : list sha1_ins) (vw : sha1_st * list N)
  : res (sha1_st * list N) :=
  match prog with
  | [] => Ok vw
  | i :: prog => vw <- sha1_exec block vw i ;; sha1_run block prog vw
  end.

(* sha1.hpp:101-184, one entry per source line *)
Definition sha1_program : list sha1_ins :=
  [ SR1 qA qB qC qD qE 0;
    SR1 qE qA qB qC qD 1;
    SR1 qD qE qA qB qC 2;
    SR1 qC qD qE qA qB 3;
    SR1 qB qC qD qE qA 4;
    SR1 qA qB qC qD qE 5;
    SR1 qE qA qB qC qD 6;
    SR1 qD qE qA qB qC 7;
    SR1 qC qD qE qA qB 8;
    SR1 qB qC qD qE qA 9;
    SR1 qA qB qC qD qE 10;
    SR1 qE qA qB qC qD 11;
    SR1 qD qE qA qB qC 12;
    SR1 qC qD qE qA qB 13;
    SR1 qB qC qD qE qA 14;
    SR1 qA qB qC qD qE 15;
    SR2 qE qA qB qC qD 16;
    SR2 qD qE qA qB qC 17;
    SR2 qC qD qE qA qB 18;
    SR2 qB qC qD qE qA 19;
    SR3 qA qB qC qD qE 20;
    SR3 qE qA qB qC qD 21;
    SR3 qD qE qA qB qC 22;
    SR3 qC qD qE qA qB 23;
    SR3 qB qC qD qE qA 24;
    SR3 qA qB qC qD qE 25;
    SR3 qE qA qB qC qD 26;
    SR3 qD qE qA qB qC 27;
    SR3 qC qD qE qA qB 28;
    SR3 qB qC qD qE qA 29;
    SR3 qA qB qC qD qE 30;
    SR3 qE qA qB qC qD 31;
    SR3 qD qE qA qB qC 32;
    SR3 qC qD qE qA qB 33;
    SR3 qB qC qD qE qA 34;
    SR3 qA qB qC qD qE 35;
    SR3 qE qA qB qC qD 36;
    SR3 qD qE qA qB qC 37;
    SR3 qC qD qE qA qB 38;
    SR3 qB qC qD qE qA 39;
    SR4 qA qB qC qD qE 40;
    SR4 qE qA qB qC qD 41;
    SR4 qD qE qA qB qC 42;
    SR4 qC qD qE qA qB 43;
    SR4 qB qC qD qE qA 44;
    SR4 qA qB qC qD qE 45;
    SR4 qE qA qB qC qD 46;
    SR4 qD qE qA qB qC 47;
    SR4 qC qD qE qA qB 48;
    SR4 qB qC qD qE qA 49;
    SR4 qA qB qC qD qE 50;
    SR4 qE qA qB qC qD 51;
    SR4 qD qE qA qB qC 52;
    SR4 qC qD qE qA qB 53;
    SR4 qB qC qD qE qA 54;
    SR4 qA qB qC qD qE 55;
    SR4 qE qA qB qC qD 56;
    SR4 qD qE qA qB qC 57;
    SR4 qC qD qE qA qB 58;
    SR4 qB qC qD qE qA 59;
    SR5 qA qB qC qD qE 60;
    SR5 qE qA qB qC qD 61;
    SR5 qD qE qA qB qC 62;
    SR5 qC qD qE qA qB 63;
    SR5 qB qC qD qE qA 64;
    SR5 qA qB qC qD qE 65;
    SR5 qE qA qB qC qD 66;
    SR5 qD qE qA qB qC 67;
    SR5 qC qD qE qA qB 68;
    SR5 qB qC qD qE qA 69;
    SR5 qA qB qC qD qE 70;
    SR5 qE qA qB qC qD 71;
    SR5 qD qE qA qB qC 72;
    SR5 qC qD qE qA qB 73;
    SR5 qB qC qD qE qA 74;
    SR5 qA qB qC qD qE 75;
    SR5 qE qA qB qC qD 76;
    SR5 qD qE qA qB qC 77;
    SR5 qC qD qE qA qB 78;
    SR5 qB qC qD qE qA 79 ].

(* sha1.hpp:91-191; read32be does not depend on the platform *)
Definition sha1_transform (pf : plat) (st : sha1_st) (block : ptr) : res sha1_st :=
  '(v, _) <- sha1_run block sha1_program (st, zeros 80) ;;
  let '(a, b, c, d, e) := v in
  let '(s0, s1, s2, s3, s4) := st in
  Ok (add32 s0 a, add32 s1 b, add32 s2 c, add32 s3 d, add32 s4 e).

(* sha1.hpp:222-274, loop "while( n >= N )" *)
Fixpoint sha1_blocks (pf : plat) (fuel : nat) (st : sha1_st) (p : ptr) (n : nat)
  : res (sha1_st * ptr * nat) :=
  if Nat.leb 64 n then
    match fuel with
    | O => OutOfFuel
    | S fuel' => st <- sha1_transform pf st p ;;
                 p <- padd p 64 ;;
                 sha1_blocks pf fuel' st p (n - 64)
    end
  else Ok (st, p, n).

(* sha1.hpp:222-274, from BOOST_ASSERT( m_ == 0 ) to the end *)
Definition sha1_update_tail (pf : plat) (s : bst sha1_st) (p : ptr) (n : nat) : res (bst sha1_st) :=
  assert! (Nat.eqb (b_m s) 0) ;;
  '(st, p, n) <- sha1_blocks pf n (b_st s) p n ;;
  assert! (Nat.ltb n 64) ;;
  '(buf, m) <- (if Nat.ltb 0 n
                then buf <- memcpy pf (b_buf s) 0 p n ;; Ok (buf, n)
                else Ok (b_buf s, b_m s)) ;;
  assert! (N.of_nat m =? b_n s mod 64) ;;
  Ok (mkB st buf m (b_n s)).

(* sha1.hpp:222-274 *)
Definition sha1_update (pf : plat) (s : bst sha1_st) (p : ptr) (n : nat) : res (bst sha1_st) :=
  assert! (N.of_nat (b_m s) =? b_n s mod 64) ;;
  if Nat.eqb n 0 then Ok s else
  let n_ := (b_n s + N.of_nat n) mod 2^64 in
  if Nat.ltb 0 (b_m s) then
    let k := (64 - b_m s)%nat in
    let k := if Nat.ltb n k then n else k in
    buf <- memcpy pf (b_buf s) (b_m s) p k ;;
    p <- padd p k ;;
    let n := (n - k)%nat in
    let m := (b_m s + k)%nat in
    if Nat.ltb m 64 then Ok (mkB (b_st s) buf m n_) else
    assert! (Nat.eqb m 64) ;;
    st <- sha1_transform pf (b_st s) (Ptr buf) ;;
    buf <- memset pf buf 0 0 64 ;;
    sha1_update_tail pf (mkB st buf 0 n_) p n
  else
    sha1_update_tail pf (mkB (b_st s) (b_buf s) (b_m s) n_) p n.

(* sha1.hpp:282-308 *)
Definition sha1_result (pf : plat) (s : bst sha1_st) : res (list N * bst sha1_st) :=
  assert! (N.of_nat (b_m s) =? b_n s mod 64) ;;
  let bits := write64be (mul64 (b_n s) 8) in
  let k := (if Nat.ltb (b_m s) 56 then 56 - b_m s else 120 - b_m s)%nat in
  let padding := 0x80 :: zeros 63 in
  s <- sha1_update pf s (Ptr padding) k ;;
  s <- sha1_update pf s (Ptr bits) 8 ;;
  assert! (Nat.eqb (b_m s) 0) ;;
  let '(s0, s1, s2, s3, s4) := b_st s in
  Ok (concat (map write32be [s0; s1; s2; s3; s4]), s).

(* sha1.hpp:33-40, 199: default constructor *)
Definition sha1_init : bst sha1_st := 
  mkB (0x67452301, 0xefcdab89, 0x98badcfe, 0x10325476, 0xc3d2e1f0) (zeros 64) 0 0.

(* sha1.hpp:201-211: constructor from a 64-bit seed *)
Definition sha1_seed (pf : plat) (seed : N) : res (bst sha1_st) :=
  if negb (seed =? 0) then
    let tmp := write64le pf seed in
    s <- sha1_update pf sha1_init (Ptr tmp) 8 ;;
    '(_, s) <- sha1_result pf s ;;
    Ok s
  else Ok sha1_init.

(* sha1.hpp:213-220: constructor from a byte sequence *)
Definition sha1_bytes (pf : plat) (p : ptr) (n : nat) : res (bst sha1_st) :=
  if negb (Nat.eqb n 0) then
    s <- sha1_update pf sha1_init p n ;;
    '(_, s) <- sha1_result pf s ;;
    Ok s
  else Ok sha1_init.

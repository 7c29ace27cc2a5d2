(* Model of include/boost/hash2/get_integral_result.hpp. *)
From Verif Require Import Base.
From Verif Require Import Types.
Open Scope N_scope.

(* std::numeric_limits<U>::digits (get_integral_result.hpp:147) *)
Definition ibits (s : isz) : N := 8 * N.of_nat (ibytes s).

(* get_result_multiplier<U, R>, get_integral_result.hpp:23-128; U: unsigned type of the size
   of the target, R: the (unsigned) result type.  Only defined for the listed pairs, which are
   all pairs of sizes. *)
Definition multiplier (u r : isz) : N :=
  match r, u with
  | I8, I8 | I16, I16 | I32, I32 | I64, I64 => 1
  (* contraction *)
  | I16, I8 => 0xBF01
  | I32, I8 => 0x7F7F7F7F
  | I64, I8 => 0x7F7F7F7F7F7F7F7F
  | I32, I16 => 0xBFFF0001
  | I64, I16 => 0xBFFFBFFFBFFFBFFF
  | I64, I32 => 0xBFFFFFFF00000001
  (* expansion *)
  | I8, I16 => 0x7F7F
  | I8, I32 => 0xBFBFBFBF
  | I8, I64 => 0xDFDFDFDFDFDFDFDF
  | I16, I32 => 0x7FFF7FFF
  | I16, I64 => 0x7FFF7FFF7FFF7FFF
  | I32, I64 => 0x7FFFFFFF7FFFFFFF
  end.

(* The product r * m.  Both operands undergo the usual arithmetic conversions: if both types
   are narrower than int (32 bits) they are promoted to int and a product of 2^31 or more is
   a signed overflow; otherwise the product is taken modulo 2^max of the widths. *)
(* (for get_integral_result.hpp:147, 165; C++ semantics) *)
Definition wider (a b : isz) : isz := if Nat.leb (ibytes a) (ibytes b) then b else a.
(* the expression r * m of get_integral_result.hpp:147, 165 *)
Definition promoted_mul (tm tr : isz) (r m : N) : res N :=
  match wider tm tr with
  | I8 | I16 => if r * m <? 2^31 then Ok (r * m) else UB
  | I32 => Ok ((r * m) mod 2^32)
  | I64 => Ok ((r * m) mod 2^64)
  end.

(* get_integral_result<T>( r ) for unsigned integral R: contraction (lines 134-148), identity
   and expansion (lines 152-166).  The value returned is that of the unsigned type U; T's own
   value is [to_signed] below.  The multiplier has type R when contracting, U otherwise. *)
Definition gir_int (t r : isz) (x : N) : res N :=
  if Nat.ltb (ibytes t) (ibytes r) then
    p <- promoted_mul r r x (multiplier t r) ;;
    Ok (shr p (ibits r - ibits t) mod 2 ^ ibits t)
  else
    p <- promoted_mul t r x (multiplier t r) ;;
    Ok (p mod 2 ^ ibits t).

(* static_cast<T>( u ) for an integral T (two's complement) *)
(* get_integral_result.hpp:147, 165, 179 *)
Definition to_int (t : isz) (sg : bool) (u : N) : Z :=
  if sg && (2 ^ (ibits t - 1) <=? u) then (Z.of_N u - 2 ^ Z.of_N (ibits t))%Z else Z.of_N u.

(* get_integral_result<T>( r ) as a value of T = (t, sg), lines 134-166: the outer
   static_cast<T> *)
Definition get_integral_result (t : isz) (sg : bool) (r : isz) (x : N) : res Z :=
  u <- gir_int t r x ;; Ok (to_int t sg u).

(* The same with the overflow of [promoted_mul] replaced by the wrap-around of a two's
   complement int (what -fwrapv gives; not guaranteed by the language). *)
(* (get_integral_result.hpp:147) *)
Definition gir_int_wrapv (t r : isz) (x : N) : N :=
  (* int product, arithmetic shift of the (possibly negative) int, conversion to U *)
  let p := (x * multiplier t r) mod 2^32 in
  let z := if 2^31 <=? p then (Z.of_N p - 2^32)%Z else Z.of_N p in
  Z.to_N (Z.shiftr z (Z.of_N (ibits r - ibits t)) mod 2 ^ Z.of_N (ibits t))%Z.

(* get_integral_result<T>( r ) for array-like R, lines 170-180 *)
Definition gir_digest (pf : plat) (t : isz) (d : list N) : res N :=
  v <- read64le pf (Ptr d) ;; Ok (v mod 2 ^ ibits t).
(* get_integral_result.hpp:170-180: the outer static_cast<T> *)
Definition get_digest_result (pf : plat) (t : isz) (sg : bool) (d : list N) : res Z :=
  u <- gir_digest pf t d ;; Ok (to_int t sg u).

(* Model of include/boost/hash2/hash_append.hpp, for an arbitrary hash algorithm [h]. *)
From Verif Require Import Base Hasher Types ModelResult.
Open Scope N_scope.

(* endian.hpp:15-31 *)
Inductive endian := ELittle | EBig.
(* endian.hpp:15-31: endian::native *)
Definition native (pf : plat) : endian := if p_le pf then ELittle else EBig.
(* operator== on endian (endian.hpp:15-31) *)
Definition endian_eqb (a b : endian) : bool :=
  match a, b with ELittle, ELittle | EBig, EBig => true | _, _ => false end.

(* flavor.hpp:16-32: size_type and byte_order *)
Record flavor := { fl_size : isz; fl_order : endian }.
(* flavor.hpp:16-20 *)
Definition default_flavor (pf : plat) : flavor := {| fl_size := I64; fl_order := native pf |}.
(* flavor.hpp:22-26 *)
Definition little_endian_flavor : flavor := {| fl_size := I64; fl_order := ELittle |}.
(* flavor.hpp:28-32 *)
Definition big_endian_flavor : flavor := {| fl_size := I64; fl_order := EBig |}.

(* What the C++ implementation decides: *)
(* no counterpart in /repo: parameters of the compiler and platform that hash_append.hpp:49-421 depends on *)
Record impl := {
  im_pf : plat;                (* byte order, constant evaluation *)
  im_psz : isz;                (* sizeof(void* ) *)
  im_null : bool;              (* data() of an empty contiguous range is a null pointer *)
  im_down : bool;              (* the floating point environment rounds towards -infinity *)
  im_nan : N -> N }.           (* the NaN resulting from NaN + 0 *)

(* detail/write.hpp:103-154: static_cast to the unsigned type of the same size, then writeN *)
Definition unsig (s : isz) (z : Z) : N := Z.to_N (z mod 2 ^ (8 * Z.of_nat (ibytes s))).
(* detail/write.hpp:103-154: the four overloads of write( v, e, w ), by sizeof(T) *)
Definition write (pf : plat) (s : isz) (e : endian) (z : Z) : list N :=
  let v := unsig s z in
  match s, e with
  | I8, _ => [v]
  | I16, ELittle => write16le pf v
  | I16, EBig => write16be v
  | I32, ELittle => write32le pf v
  | I32, EBig => write32be v
  | I64, ELittle => write64le pf v
  | I64, EBig => write64be v
  end.

(* v + 0 on IEEE 754 bit patterns with [e] exponent bits and [m] significand bits (754-2019
   6.1-6.3): -0 + +0 is +0 except when rounding towards -infinity, NaN gives some NaN, any
   other value is unchanged.  Justified against Flocq in ProofFloat.v. *)
(* (for hash_append.hpp:211-226) *)
Definition is_nan (e m b : N) : bool :=
  (2 ^ e - 1) * 2 ^ m <? b mod 2 ^ (e + m).
(* the expression v + 0 of hash_append.hpp:216, 224 *)
Definition fadd0 (i : impl) (e m b : N) : N :=
  if is_nan e m b then im_nan i b
  else if b =? 2 ^ (e + m) then (if im_down i then b else 0)
  else b.

Section Append.
Variable h : hasher.
Variable gir : h_R h -> res N.         (* get_integral_result<uint64_t> *)
Variable i : impl.
Variable f : flavor.
Notation pf := (im_pf i).
Notation S' := (h_S h).

(* The object representation of an integer (in native order) *)
(* (read by h.update( &v, sizeof(v) ), hash_append.hpp:415, and detail/write.hpp; C++ semantics, no counterpart in /repo) *)
Definition obj_int (s : isz) (z : Z) : list N :=
  if p_le pf then le_bytes (ibytes s) (unsig s z) else rev (le_bytes (ibytes s) (unsig s z)).

(* sizeof(T), for the types is_contiguously_hashable can be true of, and user-defined types *)
(* the sizeof(T) of hash_append.hpp:75, 88, 415 and is_endian_independent.hpp:15-23; C++ semantics *)
Fixpoint size_of (t : ty) : nat :=
  match t with
  | TInt s _ | TEnum s _ => ibytes s
  | TBool => 1
  | TPtr => ibytes (im_psz i)
  | TCArr n t => n * size_of t
  | TSpec _ _ sz _ _ => sz
  | _ => 0
  end.

(* is_trivially_equality_comparable.hpp:15-23, or as specialised *)
Definition trivially_comparable (t : ty) : bool :=
  match t with TInt _ _ | TBool | TEnum _ _ | TPtr => true | TSpec tec _ _ _ _ => tec | _ => false end.
(* is_endian_independent.hpp:15-23: sizeof(T) == 1, or as specialised *)
Definition endian_independent (t : ty) : bool :=
  match t with TSpec _ ei _ _ _ => ei | _ => Nat.eqb (size_of t) 1 end.
(* is_contiguously_hashable.hpp:19-27; it is documented not to be specialised *)
Fixpoint contiguously_hashable (t : ty) : bool :=
  match t with
  | TCArr _ t => contiguously_hashable t
  | _ => trivially_comparable t && (endian_eqb (fl_order f) (native pf) || endian_independent t)
  end.

(* The object representation of a value of a contiguously hashable type.  The representation
   of a pointer is taken to be that of the uintptr_t it converts to. *)
(* (the bytes hash_append.hpp:60, 65, 75, 88 and 415 pass to update(); C++ semantics, no counterpart in /repo) *)
Fixpoint obj (t : ty) (v : val) {struct t} : list N :=
  match t, v with
  | TInt s _, VInt z | TEnum s _, VInt z => obj_int s z
  | TBool, VInt z => obj_int I8 z
  | TPtr, VInt z => obj_int (im_psz i) z
  | TCArr _ t, VList vs => flat_map (obj t) vs
  | TSpec _ _ _ rep _, v => rep (p_le pf) v
  | _, _ => []
  end.

(* hash_append (lines 410-421) of an integral value of size s: do_hash_append is lines 176-187 *)
Definition ha_int (s : isz) (z : Z) (st : S') : res S' :=
  if negb (p_cx pf) && (endian_eqb (fl_order f) (native pf) || Nat.eqb (ibytes s) 1)
  then h_update h st (Ptr (obj_int s z)) (ibytes s)
  else h_update h st (Ptr (write pf s (fl_order f) z)) (ibytes s).

(* hash_append_size, lines 110-113: static_cast<Flavor::size_type>( v ) *)
Definition ha_size_of (z : Z) (st : S') : res S' :=
  ha_int (fl_size f) (z mod 2 ^ (8 * Z.of_nat (ibytes (fl_size f)))) st.
(* hash_append.hpp:110-113, for a number of elements *)
Definition ha_size (n : nat) (st : S') : res S' := ha_size_of (Z.of_nat n) st.

(* for( ; first != last; ++first ) hash_append( h, f, *first ) *)
(* hash_append.hpp:49-56 *)
Fixpoint ha_loop {X : Type} (ha : X -> S' -> res S') (vs : list X) (st : S') : res S' :=
  match vs with
  | [] => Ok st
  | v :: vs => st <- ha v st ;; ha_loop ha vs st
  end.

(* the pointer [first] of a range of elements [vs] with object representations [l] *)
(* (hash_append.hpp:58-97, 247-254) *)
Definition data_ptr (vs : list val) (l : list N) : ptr :=
  match vs with [] => if im_null i then Null else Ptr l | _ => Ptr l end.

(* hash_append_range_ for pointers, lines 58-97 (overloads for unsigned char*, for contiguously
   hashable T, and the generic one, lines 49-56), called through hash_append_range, 103-106 *)
Definition ha_ptr_range (t : ty) (ha : val -> S' -> res S') (vs : list val) (st : S') : res S' :=
  match t with
  | TInt I8 false => h_update h st (data_ptr vs (flat_map (obj t) vs)) (length vs)
  | _ => if contiguously_hashable t then
           if negb (p_cx pf) then h_update h st (data_ptr vs (flat_map (obj t) vs)) (length vs * size_of t)
           else ha_loop ha vs st
         else ha_loop ha vs st
  end.

(* hash_append_unordered_range, lines 147-163: the loop *)
Fixpoint ha_unord (ha : val -> S' -> res S') (st : S') (vs : list val) (w : N) (m : nat) : res (N * nat) :=
  match vs with
  | [] => Ok (w, m)
  | v :: vs =>
      h2 <- ha v st ;;
      '(r, _) <- h_result h h2 ;;
      x <- gir r ;;
      ha_unord ha st vs (add64 w x) (S m)
  end.

(* The functions of hash_append.hpp, applied to values or ranges of values of type t, given the
   hash_append of such values *)
Definition form_ha {T : Type} (k : call_ T) (t : ty) (ha : val -> S' -> res S') (st : S') : res S' :=
  match k with
  | KVal _ v => ha v st                                                 (* 408-421 *)
  | KRange IPtr _ vs => ha_ptr_range t ha vs st                         (* 103-106, 58-97 *)
  | KRange (IIter _) _ vs => ha_loop ha vs st                           (* 103-106, 49-56 *)
  | KSized IPtr _ vs =>                                                 (* 140-143, 132-136 *)
      st <- ha_ptr_range t ha vs st ;; ha_size (length vs) st
  | KSized (IIter CRandom) _ vs =>                                      (* 140-143, 132-136 *)
      st <- ha_loop ha vs st ;; ha_size (length vs) st
  | KSized (IIter CInput) _ vs =>                                       (* 140-143, 120-130 *)
      st <- ha_loop ha vs st ;; ha_size (length vs) st
  | KUnord _ vs =>                                                      (* 147-163 *)
      '(w, m) <- ha_unord ha st vs 0 0 ;;
      st <- ha_int I64 (Z.of_N w) st ;; ha_size m st
  | KSize z => ha_size_of z st                                          (* 110-113 *)
  end.

(* hash_append, lines 410-421, and the do_hash_append overloads it calls *)
Fixpoint ha (t : ty) (v : val) (st : S') {struct t} : res S' :=
  (* one hash_append per element type *)
  let each := fix each (ts : list ty) (vs : list val) (st : S') : res S' :=
    match ts, vs with
    | [], [] => Ok st
    | t :: ts, v :: vs => st <- ha t v st ;; each ts vs st
    | _, _ => UB
    end in
  if negb (p_cx pf) && contiguously_hashable t then
    h_update h st (Ptr (obj t v)) (size_of t)
  else
  match t, v with
  | TInt s _, VInt z => ha_int s z st                                   (* 176-187 *)
  | TBool, VInt z => ha_int I8 z st
  | TEnum s _, VInt z => ha_int s z st                                  (* 191-197 *)
  | TPtr, VInt z => ha_int (im_psz i) z st                              (* 202-207 *)
  | TNullptr, VInt _ => ha_int (im_psz i) 0 st                          (* 230-236 *)
  | TFlt32, VInt z => ha_int I32 (Z.of_N (fadd0 i 8 23 (Z.to_N z))) st  (* 211-217 *)
  | TFlt64, VInt z => ha_int I64 (Z.of_N (fadd0 i 11 52 (Z.to_N z))) st (* 219-226 *)
  | TCArr _ t, VList vs => ha_ptr_range t (ha t) vs st                  (* 240-243 *)
  | TVec t, VList vs =>                                                 (* 247-254 *)
      st <- ha_ptr_range t (ha t) vs st ;; ha_size (length vs) st
  | TList CInput t, VList vs =>                                         (* 258-264, 120-130 *)
      st <- ha_loop (ha t) vs st ;; ha_size (length vs) st
  | TList CRandom t, VList vs =>                                        (* 258-264, 132-136 *)
      st <- ha_loop (ha t) vs st ;; ha_size (length vs) st
  | TArr n t, VList vs =>                                               (* 273-287 *)
      if Nat.eqb n 0 then ha_int I8 0 st else ha_ptr_range t (ha t) vs st
  | TArrN n t, VList vs =>                                              (* 291-305 *)
      if Nat.eqb n 0 then ha_int I8 0 st else ha_loop (ha t) vs st
  | TUnord t, VList vs =>                                               (* 313-319, 147-163 *)
      '(w, m) <- ha_unord (ha t) st vs 0 0 ;;
      st <- ha_int I64 (Z.of_N w) st ;; ha_size m st
  | TTuple [], VList _ => ha_int I8 0 st                                (* 330-334 *)
  | TTuple ts, VList vs => each ts vs st                                (* 323-328, 336-343 *)
  | TDesc bs ms, VList [VList bv; VList mv] =>                          (* 354-388 *)
      st <- each bs bv st ;;
      st <- each ms mv st ;;
      let r := (length bs + length ms)%nat in
      if Nat.eqb r 0 then ha_int I8 0 st else Ok st
  | TTag ts, VList vs => each ts vs st                                  (* 398-404 *)
  | TVar true s ts, VList [VInt k; v] =>                                (* 398-404 *)
      st <- ha_int s k st ;; alt (fun t => ha t v st) UB ts (Z.to_nat k)
  | TVar false s ts, VList [VInt k; v] =>
      st <- alt (fun t => ha t v st) UB ts (Z.to_nat k) ;; ha_int s k st
  | TUser g ts, v =>                                                    (* 398-404 *)
      ha_loop (fun c st => ucase (fun z => ha_size_of z st) (fun t => form_ha c t (ha t) st) UB ts c) (g v) st
  | TSpec _ _ _ _ t, v => ha t v st
      (* do_hash_append as for t.  For a class, [ha t] is do_hash_append; for an enumeration it is
         hash_append of the underlying value (lines 191-197) also when it goes through line 413 *)
  | _, _ => UB                          (* not a value of the type *)
  end.

(* The functions themselves, called by a user *)
(* hash_append.hpp:103-163, 408-421 *)
Definition ha_call (k : call) (st : S') : res S' :=
  match k with
  | KSize z => ha_size_of z st
  | KVal t _ | KRange _ t _ | KSized _ t _ | KUnord t _ => form_ha k t (ha t) st
  end.
End Append.

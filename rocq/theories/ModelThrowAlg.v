(* Model of the functions of include/boost/hash2/hash_append.hpp for hash algorithms written by users whose update(), result() or copy constructor throw.
   None of the functions catches or cleans up, so an exception leaves all of them at once, and the object h is as the last operation on it left it. *)
From Verif Require Import Base Hasher Types ModelResult ModelAppend Behaves Instances.
Open Scope N_scope.

(* a hash algorithm of a user; t_W: everything outside of the objects that it may use or change (allocators, counters, logs, ...) *)
(* hashing_bytes.adoc:25-74 *)
Record thrower := {
  t_W : Type;
  t_S : Type;                                                             (* the object *)
  t_R : Type;                                                             (* result_type *)
  t_update : t_W -> t_S -> ptr -> nat -> res (t_W * t_S * bool);          (* true: it threw an exception, having left the object like this *)
  t_copy : t_W -> t_S -> res (t_W * option t_S);                          (* None: it threw an exception *)
  t_result : t_W -> t_S -> res (t_W * option t_R) }.                      (* the object, a local copy, is destroyed afterwards *)

Section Append.
Variable T : thrower.
Variable gir : t_R T -> res N.         (* get_integral_result<uint64_t> *)
Variable i : impl.
Variable f : flavor.
Notation pf := (im_pf i).
Notation W := (t_W T).
Notation S' := (t_S T).

(* the state of h, and whether the function was left by an exception *)
(* no counterpart in /repo: exceptions, in C++ part of the language *)
Definition eout : Type := res (W * S' * bool).
(* the statement after one that may throw; C++ semantics, no counterpart in /repo *)
Definition ebind (r : eout) (k : W -> S' -> eout) : eout :=
  x <- r ;; match x with (w, st, true) => Ok (w, st, true) | (w, st, false) => k w st end.
(* return; C++ semantics, no counterpart in /repo *)
Definition edone (w : W) (st : S') : eout := Ok (w, st, false).

(* hash_append.hpp:176-187, through 410-421 *)
Definition eint (s : isz) (z : Z) (w : W) (st : S') : eout :=
  if negb (p_cx pf) && (endian_eqb (fl_order f) (native pf) || Nat.eqb (ibytes s) 1)
  then t_update T w st (Ptr (obj_int i s z)) (ibytes s)
  else t_update T w st (Ptr (write pf s (fl_order f) z)) (ibytes s).
(* hash_append.hpp:110-113 *)
Definition esize_of (z : Z) (w : W) (st : S') : eout := eint (fl_size f) (z mod 2 ^ (8 * Z.of_nat (ibytes (fl_size f)))) w st.
(* hash_append.hpp:110-113, for a number of elements *)
Definition esize (n : nat) (w : W) (st : S') : eout := esize_of (Z.of_nat n) w st.
(* hash_append.hpp:49-56 *)
Fixpoint eloop {X : Type} (F : X -> W -> S' -> eout) (vs : list X) (w : W) (st : S') : eout :=
  match vs with
  | [] => edone w st
  | v :: vs => ebind (F v w st) (fun w st => eloop F vs w st)
  end.
(* hash_append.hpp:58-97, through 103-106 *)
Definition eptr_range (t : ty) (F : val -> W -> S' -> eout) (vs : list val) (w : W) (st : S') : eout :=
  match t with
  | TInt I8 false => t_update T w st (data_ptr i vs (flat_map (obj i t) vs)) (length vs)
  | _ => if contiguously_hashable i f t then
           if negb (p_cx pf) then t_update T w st (data_ptr i vs (flat_map (obj i t) vs)) (length vs * size_of i t)
           else eloop F vs w st
         else eloop F vs w st
  end.
(* the loop of hash_append_unordered_range, hash_append.hpp:149-159; None: left by an exception *)
Fixpoint eunord (F : val -> W -> S' -> eout) (w : W) (st : S') (vs : list val) (x : N) (m : nat) : res (W * option (N * nat)) :=
  match vs with
  | [] => Ok (w, Some (x, m))
  | v :: vs =>
      c <- t_copy T w st ;;                                               (* Hash h2( h ) *)
      match c with
      | (w, None) => Ok (w, None)
      | (w, Some h2) =>
          y <- F v w h2 ;;                                                (* hash_append( h2, f, *first ) *)
          match y with
          | (w, _, true) => Ok (w, None)
          | (w, h2, false) =>
              r <- t_result T w h2 ;;                                     (* h2.result() *)
              match r with
              | (w, None) => Ok (w, None)
              | (w, Some r) => z <- gir r ;; eunord F w st vs (add64 x z) (S m)
              end
          end
      end
  end.
(* hash_append.hpp:147-163 *)
Definition eunord_range (F : val -> W -> S' -> eout) (vs : list val) (w : W) (st : S') : eout :=
  o <- eunord F w st vs 0 0 ;;
  match o with
  | (w, None) => Ok (w, st, true)
  | (w, Some (x, m)) => ebind (eint I64 (Z.of_N x) w st) (fun w st => esize m w st)
  end.
(* the functions for ranges, as form_ha of ModelAppend.v *)
(* hash_append.hpp:103-163, 408-421 *)
Definition eform {X : Type} (k : call_ X) (t : ty) (F : val -> W -> S' -> eout) (w : W) (st : S') : eout :=
  match k with
  | KVal _ v => F v w st
  | KRange IPtr _ vs => eptr_range t F vs w st
  | KRange (IIter _) _ vs => eloop F vs w st
  | KSized IPtr _ vs => ebind (eptr_range t F vs w st) (fun w st => esize (length vs) w st)
  | KSized (IIter _) _ vs => ebind (eloop F vs w st) (fun w st => esize (length vs) w st)
  | KUnord _ vs => eunord_range F vs w st
  | KSize z => esize_of z w st
  end.

(* hash_append.hpp:410-421, and the do_hash_append overloads it calls *)
Fixpoint eha (t : ty) (v : val) (w : W) (st : S') {struct t} : eout :=
  let each := fix each (ts : list ty) (vs : list val) (w : W) (st : S') : eout :=
    match ts, vs with
    | [], [] => edone w st
    | t :: ts, v :: vs => ebind (eha t v w st) (fun w st => each ts vs w st)
    | _, _ => UB
    end in
  if negb (p_cx pf) && contiguously_hashable i f t then
    t_update T w st (Ptr (obj i t v)) (size_of i t)
  else
  match t, v with
  | TInt s _, VInt z => eint s z w st                                                      (* 176-187 *)
  | TBool, VInt z => eint I8 z w st
  | TEnum s _, VInt z => eint s z w st                                                     (* 191-197 *)
  | TPtr, VInt z => eint (im_psz i) z w st                                                 (* 202-207 *)
  | TNullptr, VInt _ => eint (im_psz i) 0 w st                                             (* 230-236 *)
  | TFlt32, VInt z => eint I32 (Z.of_N (fadd0 i 8 23 (Z.to_N z))) w st                     (* 211-217 *)
  | TFlt64, VInt z => eint I64 (Z.of_N (fadd0 i 11 52 (Z.to_N z))) w st                    (* 219-226 *)
  | TCArr _ t, VList vs => eptr_range t (eha t) vs w st                                    (* 240-243 *)
  | TVec t, VList vs => ebind (eptr_range t (eha t) vs w st) (fun w st => esize (length vs) w st)      (* 247-254 *)
  | TList _ t, VList vs => ebind (eloop (eha t) vs w st) (fun w st => esize (length vs) w st)          (* 258-264, 120-136 *)
  | TArr k t, VList vs => if Nat.eqb k 0 then eint I8 0 w st else eptr_range t (eha t) vs w st         (* 273-287 *)
  | TArrN k t, VList vs => if Nat.eqb k 0 then eint I8 0 w st else eloop (eha t) vs w st   (* 291-305 *)
  | TUnord t, VList vs => eunord_range (eha t) vs w st                                     (* 313-319 *)
  | TTuple [], VList _ => eint I8 0 w st                                                   (* 330-334 *)
  | TTuple ts, VList vs => each ts vs w st                                                 (* 323-328, 336-343 *)
  | TDesc bs ms, VList [VList bv; VList mv] =>                                             (* 354-388 *)
      ebind (each bs bv w st) (fun w st =>
      ebind (each ms mv w st) (fun w st =>
      if Nat.eqb (length bs + length ms) 0 then eint I8 0 w st else edone w st))
  | TTag ts, VList vs => each ts vs w st                                                   (* 398-404 *)
  | TVar true s ts, VList [VInt k; v] =>                                                   (* 398-404 *)
      ebind (eint s k w st) (fun w st => alt (fun t => eha t v w st) UB ts (Z.to_nat k))
  | TVar false s ts, VList [VInt k; v] =>
      ebind (alt (fun t => eha t v w st) UB ts (Z.to_nat k)) (fun w st => eint s k w st)
  | TUser g ts, v =>                                                                       (* 398-404 *)
      eloop (fun c w st => ucase (fun z => esize_of z w st) (fun t => eform c t (eha t) w st) UB ts c) (g v) w st
  | TSpec _ _ _ _ t, v => eha t v w st
  | _, _ => UB                          (* not a value of the type *)
  end.
(* the functions called by a user, hash_append.hpp:103-163, 408-421 *)
Definition eha_call (k : call) (w : W) (st : S') : eout :=
  match k with
  | KSize z => esize_of z w st
  | KVal t _ | KRange _ t _ | KSized _ t _ | KUnord t _ => eform k t (eha t) w st
  end.
End Append.
Arguments eha_call T gir i f k w st : clear implicits.

(* A class of a user that is a hash algorithm h whose operations may throw, depending on the world and changing it, before they do anything *)
(* user-written code; no counterpart in /repo *)
Inductive event := EUpdate (p : ptr) (n : nat) | ECopy | EResult.
(* may: does this operation throw?  User-written code; no counterpart in /repo *)
Definition guarded (h : hasher) (W : Type) (may : W -> event -> W * bool) : thrower :=
  {| t_W := W; t_S := h_S h; t_R := h_R h;
     t_update := fun w s p n => let (w, b) := may w (EUpdate p n) in if b then Ok (w, s, true) else s <- h_update h s p n ;; Ok (w, s, false);
     t_copy := fun w s => let (w, b) := may w ECopy in Ok (w, if b then None else Some s);
     t_result := fun w s => let (w, b) := may w EResult in if b then Ok (w, None) else x <- h_result h s ;; Ok (w, Some (fst x)) |}.
(* Programs with calls of hash_append on such an object; the caller catches the exceptions and goes on using the object.
   Other calls go to h.  Calls by the user of the library; no counterpart in /repo *)
Inductive gstep :=
| GPlain (x : ustep)
| GCall (k : call).
(* as prun in Behaves.v; also whether each GCall was left by an exception; no counterpart in /repo *)
Fixpoint gprun (h : hasher) (W : Type) (may : W -> event -> W * bool) (gir : h_R h -> res N) (i : impl) (f : flavor) (w : W) (s : h_S h) (xs : list gstep) :
  res (list (h_R h) * list bool) :=
  match xs with
  | [] => Ok ([], [])
  | GPlain (SUpdate p n) :: t => s <- h_update h s p n ;; gprun h W may gir i f w s t
  | GPlain SResult :: t => x <- h_result h s ;; y <- gprun h W may gir i f w (snd x) t ;; Ok (fst x :: fst y, snd y)
  | GPlain (SCall k) :: t => s <- ha_call h gir i f k s ;; gprun h W may gir i f w s t
  | GCall k :: t =>
      x <- eha_call (guarded h W may) gir i f k w s ;;
      match x with (w, s, b) => y <- gprun h W may gir i f w s t ;; Ok (fst y, b :: snd y) end
  end.
(* the results of a program, and which calls threw *)
Definition gruns (e : env) (a : alg) (f : flavor) (c : ctor) {W : Type} (may : W -> event -> W * bool) (w : W) (xs : list gstep) : res (list result * list bool) :=
  s <- construct (pk_h (pack e a)) c ;;
  y <- gprun (pk_h (pack e a)) W may (pk_gir (pack e a)) (e_impl e) f w s xs ;;
  Ok (map (pk_out (pack e a)) (fst y), snd y).

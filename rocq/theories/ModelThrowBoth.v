(* Model of the functions of include/boost/hash2/hash_append.hpp when both the hash algorithm (as in ModelThrowAlg.v) and the other code of users that they
   call (as in ModelThrow.v: iterators, containers, get<I>(), tag_invoke) may throw, in the same call and depending on the same world. *)
From Verif Require Import Base Hasher Types ModelResult ModelAppend Behaves Instances ModelThrowAlg.
Open Scope N_scope.

(* operations of classes of users other than the hash algorithm; user-written code, no counterpart in /repo *)
Inductive user_op :=
| OTest                                  (* first != last *)
| ODeref                                 (* *first *)
| ONext                                  (* ++first *)
| ODistance                              (* last - first *)
| OView                                  (* v.begin(), v.end(), v.data(), v.size() *)
| OGet                                   (* get<I>( v ) *)
| OCode.                                 (* the code of a tag_invoke before, between and after the calls of hash_append it makes *)

Section Append.
Variable T : thrower.
Variable uop : t_W T -> user_op -> t_W T * bool.       (* true: it throws *)
Variable gir : t_R T -> res N.         (* get_integral_result<uint64_t> *)
Variable i : impl.
Variable f : flavor.
Notation pf := (im_pf i).
Notation W := (t_W T).
Notation S' := (t_S T).
Notation eout := (eout T).
Notation ebind := (ebind T).
Notation edone := (edone T).
Notation eint := (eint T i f).
Notation esize := (esize T i f).
Notation esize_of := (esize_of T i f).

(* one operation of a class of the user; p: not for pointers and other built-in types, which do not throw; C++ semantics, no counterpart in /repo *)
Definition buser (p : bool) (o : user_op) (w : W) (st : S') : eout := if p then Ok (fst (uop w o), st, snd (uop w o)) else edone w st.

(* hash_append.hpp:49-56 *)
Fixpoint bloop {X : Type} (p : bool) (F : X -> W -> S' -> eout) (vs : list X) (w : W) (st : S') : eout :=
  match vs with
  | [] => buser p OTest w st
  | v :: vs =>
      ebind (buser p OTest w st) (fun w st =>
      ebind (buser p ODeref w st) (fun w st =>
      ebind (F v w st) (fun w st =>
      ebind (buser p ONext w st) (fun w st => bloop p F vs w st))))
  end.
(* hash_append.hpp:58-97, through 103-106 *)
Definition bptr_range (t : ty) (F : val -> W -> S' -> eout) (vs : list val) (w : W) (st : S') : eout :=
  match t with
  | TInt I8 false => t_update T w st (data_ptr i vs (flat_map (obj i t) vs)) (length vs)
  | _ => if contiguously_hashable i f t then
           if negb (p_cx pf) then t_update T w st (data_ptr i vs (flat_map (obj i t) vs)) (length vs * size_of i t)
           else bloop false F vs w st
         else bloop false F vs w st
  end.
(* the loop of hash_append_unordered_range, hash_append.hpp:149-159; None: left by an exception *)
Fixpoint bunord (F : val -> W -> S' -> eout) (w : W) (st : S') (vs : list val) (x : N) (m : nat) : res (W * option (N * nat)) :=
  match vs with
  | [] => match uop w OTest with (w, true) => Ok (w, None) | (w, false) => Ok (w, Some (x, m)) end
  | v :: vs =>
      match uop w OTest with
      | (w, true) => Ok (w, None)
      | (w, false) =>
      c <- t_copy T w st ;;                                               (* Hash h2( h ) *)
      match c with
      | (w, None) => Ok (w, None)
      | (w, Some h2) =>
          y <- ebind (buser true ODeref w h2) (F v) ;;                    (* hash_append( h2, f, *first ) *)
          match y with
          | (w, _, true) => Ok (w, None)
          | (w, h2, false) =>
              r <- t_result T w h2 ;;                                     (* h2.result() *)
              match r with
              | (w, None) => Ok (w, None)
              | (w, Some r) =>
                  z <- gir r ;;
                  match uop w ONext with
                  | (w, true) => Ok (w, None)
                  | (w, false) => bunord F w st vs (add64 x z) (S m)
                  end
              end
          end
      end
      end
  end.
(* hash_append.hpp:147-163 *)
Definition bunord_range (F : val -> W -> S' -> eout) (vs : list val) (w : W) (st : S') : eout :=
  o <- bunord F w st vs 0 0 ;;
  match o with
  | (w, None) => Ok (w, st, true)
  | (w, Some (x, m)) => ebind (eint I64 (Z.of_N x) w st) (fun w st => esize m w st)
  end.
(* the functions for ranges, as form_ha of ModelAppend.v *)
(* hash_append.hpp:103-163, 408-421 *)
Definition bform {X : Type} (k : call_ X) (t : ty) (F : val -> W -> S' -> eout) (w : W) (st : S') : eout :=
  match k with
  | KVal _ v => F v w st
  | KRange IPtr _ vs => bptr_range t F vs w st
  | KRange (IIter _) _ vs => bloop true F vs w st
  | KSized IPtr _ vs => ebind (bptr_range t F vs w st) (fun w st => esize (length vs) w st)
  | KSized (IIter c) _ vs =>
      ebind (bloop true F vs w st) (fun w st =>
      ebind (buser (match c with CRandom => true | CInput => false end) ODistance w st) (fun w st => esize (length vs) w st))
  | KUnord _ vs => bunord_range F vs w st
  | KSize z => esize_of z w st
  end.

(* the calls a tag_invoke makes, hash_append.hpp:398-404 *)
Fixpoint bcalls {X : Type} (F : X -> W -> S' -> eout) (cs : list X) (w : W) (st : S') : eout :=
  match cs with
  | [] => buser true OCode w st
  | c :: cs => ebind (buser true OCode w st) (fun w st => ebind (F c w st) (fun w st => bcalls F cs w st))
  end.

(* hash_append.hpp:410-421, and the do_hash_append overloads it calls *)
Fixpoint bha (t : ty) (v : val) (w : W) (st : S') {struct t} : eout :=
  let each := fix each (p : option user_op) (ts : list ty) (vs : list val) (w : W) (st : S') : eout :=
    match ts, vs with
    | [], [] => edone w st
    | t :: ts, v :: vs => ebind (match p with Some o => buser true o w st | None => edone w st end) (fun w st => ebind (bha t v w st) (fun w st => each p ts vs w st))
    | _, _ => UB
    end in
  if negb (p_cx pf) && contiguously_hashable i f t then
    t_update T w st (Ptr (obj i t v)) (size_of i t)
  else
  match t, v with
  | TInt s _, VInt z => eint s z w st                                                      (* 176-187 *)
  | TBool, VInt z => eint I8 z w st
  | TEnum s _, VInt z => eint s z w st                                                     (* 191-197 *)
  | TPtr, VInt z => eint (im_psz i) z w st                                                 (* 202-207 *)
  | TNullptr, VInt _ => eint (im_psz i) 0 w st                                             (* 230-236 *)
  | TFlt32, VInt z => eint I32 (Z.of_N (fadd0 i 8 23 (Z.to_N z))) w st                     (* 211-217 *)
  | TFlt64, VInt z => eint I64 (Z.of_N (fadd0 i 11 52 (Z.to_N z))) w st                    (* 219-226 *)
  | TCArr _ t, VList vs => bptr_range t (bha t) vs w st                                    (* 240-243 *)
  | TVec t, VList vs =>                                                                    (* 247-254 *)
      ebind (buser true OView w st) (fun w st => ebind (bptr_range t (bha t) vs w st) (fun w st => esize (length vs) w st))
  | TList c t, VList vs =>                                                                 (* 258-264, 120-136 *)
      ebind (buser true OView w st) (fun w st =>
      ebind (bloop true (bha t) vs w st) (fun w st =>
      ebind (buser (match c with CRandom => true | CInput => false end) ODistance w st) (fun w st => esize (length vs) w st)))
  | TArr k t, VList vs => if Nat.eqb k 0 then eint I8 0 w st else ebind (buser true OView w st) (fun w st => bptr_range t (bha t) vs w st)    (* 273-287 *)
  | TArrN k t, VList vs => if Nat.eqb k 0 then eint I8 0 w st else ebind (buser true OView w st) (fun w st => bloop true (bha t) vs w st)      (* 291-305 *)
  | TUnord t, VList vs => ebind (buser true OView w st) (fun w st => bunord_range (bha t) vs w st)   (* 313-319 *)
  | TTuple [], VList _ => eint I8 0 w st                                                   (* 330-334 *)
  | TTuple ts, VList vs => each (Some OGet) ts vs w st                                                 (* 323-328, 336-343 *)
  | TDesc bs ms, VList [VList bv; VList mv] =>                                             (* 354-388 *)
      ebind (each None bs bv w st) (fun w st =>
      ebind (each None ms mv w st) (fun w st =>
      if Nat.eqb (length bs + length ms) 0 then eint I8 0 w st else edone w st))
  | TTag ts, VList vs => ebind (each (Some OCode) ts vs w st) (fun w st => buser true OCode w st)                                                   (* 398-404 *)
  | TVar true s ts, VList [VInt k; v] =>                                                   (* 398-404 *)
      ebind (buser true OCode w st) (fun w st =>
      ebind (eint s k w st) (fun w st =>
      ebind (buser true OCode w st) (fun w st =>
      ebind (alt (fun t => bha t v w st) UB ts (Z.to_nat k)) (fun w st => buser true OCode w st))))
  | TVar false s ts, VList [VInt k; v] =>
      ebind (buser true OCode w st) (fun w st =>
      ebind (alt (fun t => bha t v w st) UB ts (Z.to_nat k)) (fun w st =>
      ebind (buser true OCode w st) (fun w st =>
      ebind (eint s k w st) (fun w st => buser true OCode w st))))
  | TUser g ts, v =>                                                                       (* 398-404 *)
      bcalls (fun c w st => ucase (fun z => esize_of z w st) (fun t => bform c t (bha t) w st) UB ts c) (g v) w st
  | TSpec _ _ _ _ t, v => bha t v w st
  | _, _ => UB                          (* not a value of the type *)
  end.
(* the functions called by a user, hash_append.hpp:103-163, 408-421 *)
Definition bha_call (k : call) (w : W) (st : S') : eout :=
  match k with
  | KSize z => esize_of z w st
  | KVal t _ | KRange _ t _ | KSized _ t _ | KUnord t _ => bform k t (bha t) w st
  end.
End Append.
Arguments bha_call T uop gir i f k w st : clear implicits.

(* Programs with calls of hash_append on objects of a class "guarded h W may" (ModelThrowAlg.v) with arguments whose operations may throw; the caller
   catches the exceptions and goes on using the object.  Calls by the user of the library; no counterpart in /repo *)
Fixpoint bprun (h : hasher) (W : Type) (may : W -> event -> W * bool) (uop : W -> user_op -> W * bool) (gir : h_R h -> res N) (i : impl) (f : flavor)
  (w : W) (s : h_S h) (xs : list gstep) : res (list (h_R h) * list bool) :=
  match xs with
  | [] => Ok ([], [])
  | GPlain (SUpdate p n) :: t => s <- h_update h s p n ;; bprun h W may uop gir i f w s t
  | GPlain SResult :: t => x <- h_result h s ;; y <- bprun h W may uop gir i f w (snd x) t ;; Ok (fst x :: fst y, snd y)
  | GPlain (SCall k) :: t => s <- ha_call h gir i f k s ;; bprun h W may uop gir i f w s t
  | GCall k :: t =>
      x <- bha_call (guarded h W may) uop gir i f k w s ;;
      match x with (w, s, b) => y <- bprun h W may uop gir i f w s t ;; Ok (fst y, b :: snd y) end
  end.
(* the results of a program, and which calls threw; calls by the user of the library, no counterpart in /repo *)
Definition bruns (e : env) (a : alg) (f : flavor) (c : ctor) {W : Type} (may : W -> event -> W * bool) (uop : W -> user_op -> W * bool) (w : W) (xs : list gstep) :
  res (list result * list bool) :=
  s <- construct (pk_h (pack e a)) c ;;
  y <- bprun (pk_h (pack e a)) W may uop (pk_gir (pack e a)) (e_impl e) f w s xs ;;
  Ok (map (pk_out (pack e a)) (fst y), snd y).

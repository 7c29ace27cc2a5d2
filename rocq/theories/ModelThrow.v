(* Model of the functions of include/boost/hash2/hash_append.hpp when code of the user that they call ends with an exception: operations of
   iterators, begin(), data(), size() of containers, get<I>() of tuple-like classes, copies of the hash object, and tag_invoke, before, between and after
   the calls of hash_append it makes.  Each of these operations is a crash point; n counts the ones that are still to succeed: the n+1st throws.
   None of the functions catches or cleans up, so the exception leaves all of them, and the object h is as it was at that point. *)
From Verif Require Import Base Hasher Types ModelResult ModelAppend Behaves Instances.
Open Scope N_scope.

Section Append.
Variable h : hasher.
Variable gir : h_R h -> res N.         (* get_integral_result<uint64_t> *)
Variable i : impl.
Variable f : flavor.
Notation pf := (im_pf i).
Notation S' := (h_S h).

(* the state of h, and the number of operations of the user still to succeed, or None when the function was left by an exception *)
(* no counterpart in /repo: exceptions, in C++ part of the language *)
Definition out : Type := res (S' * option nat).
(* calls that run no code of the user; C++ semantics, no counterpart in /repo *)
Definition run (r : res S') (n : nat) : out := st <- r ;; Ok (st, Some n).
(* the statement after one that may throw; C++ semantics, no counterpart in /repo *)
Definition xbind (r : out) (k : S' -> nat -> out) : out :=
  '(st, o) <- r ;; match o with Some n => k st n | None => Ok (st, None) end.
(* one operation of the user; C++ semantics, no counterpart in /repo *)
Definition may_throw (n : nat) (st : S') (k : nat -> out) : out := match n with O => Ok (st, None) | S n => k n end.
(* the same, for iterators of class types; pointers do not throw; C++ semantics, no counterpart in /repo *)
Definition may_throw_if (p : bool) (n : nat) (st : S') (k : nat -> out) : out := if p then may_throw n st k else k n.
(* return; C++ semantics, no counterpart in /repo *)
Definition done (st : S') (n : nat) : out := Ok (st, Some n).

(* hash_append.hpp:49-56; 122-127 *)
Fixpoint xloop {X : Type} (p : bool) (F : X -> nat -> S' -> out) (vs : list X) (n : nat) (st : S') : out :=
  match vs with
  | [] => may_throw_if p n st (done st)                                   (* first != last *)
  | v :: vs =>
      may_throw_if p n st (fun n =>                                       (* first != last *)
      may_throw_if p n st (fun n =>                                       (* *first *)
      xbind (F v n st) (fun st n =>
      may_throw_if p n st (fun n => xloop p F vs n st))))                 (* ++first *)
  end.
(* hash_append.hpp:58-97, through 103-106 *)
Definition xptr_range (t : ty) (F : val -> nat -> S' -> out) (vs : list val) (n : nat) (st : S') : out :=
  match t with
  | TInt I8 false => run (h_update h st (data_ptr i vs (flat_map (obj i t) vs)) (length vs)) n
  | _ => if contiguously_hashable i f t then
           if negb (p_cx pf) then run (h_update h st (data_ptr i vs (flat_map (obj i t) vs)) (length vs * size_of i t)) n
           else xloop false F vs n st
         else xloop false F vs n st
  end.
(* the loop of hash_append_unordered_range, hash_append.hpp:149-159; None: left by an exception *)
Fixpoint xunord (F : val -> nat -> S' -> out) (st : S') (vs : list val) (w : N) (m : nat) (n : nat) : res (option (N * nat * nat)) :=
  match vs, n with
  | _, O => Ok None                                                       (* first != last *)
  | [], S n => Ok (Some (w, m, n))
  | v :: vs, S n =>
      match n with
      | O => Ok None                                                      (* Hash h2( h ); *first *)
      | S n =>
          '(h2, o) <- F v n st ;;
          match o with
          | None => Ok None
          | Some n =>
              '(r, _) <- h_result h h2 ;;
              x <- gir r ;;
              match n with
              | O => Ok None                                              (* ++first *)
              | S n => xunord F st vs (add64 w x) (S m) n
              end
          end
      end
  end.
(* hash_append.hpp:147-163 *)
Definition xunord_range (F : val -> nat -> S' -> out) (vs : list val) (n : nat) (st : S') : out :=
  o <- xunord F st vs 0 0 n ;;
  match o with
  | None => Ok (st, None)
  | Some (w, m, n) => run (st <- ha_int h i f I64 (Z.of_N w) st ;; ha_size h i f m st) n
  end.
(* the functions for ranges, as form_ha of ModelAppend.v *)
(* hash_append.hpp:103-163, 408-421 *)
Definition xform {T : Type} (k : call_ T) (t : ty) (F : val -> nat -> S' -> out) (n : nat) (st : S') : out :=
  match k with
  | KVal _ v => F v n st
  | KRange IPtr _ vs => xptr_range t F vs n st
  | KRange (IIter _) _ vs => xloop true F vs n st
  | KSized IPtr _ vs => xbind (xptr_range t F vs n st) (fun st n => run (ha_size h i f (length vs) st) n)
  | KSized (IIter CRandom) _ vs =>
      xbind (xloop true F vs n st) (fun st n =>
      may_throw n st (fun n => run (ha_size h i f (length vs) st) n))     (* last - first *)
  | KSized (IIter CInput) _ vs => xbind (xloop true F vs n st) (fun st n => run (ha_size h i f (length vs) st) n)
  | KUnord _ vs => xunord_range F vs n st
  | KSize z => run (ha_size_of h i f z st) n
  end.
(* the calls a tag_invoke makes, hash_append.hpp:398-404 *)
Fixpoint xcalls {X : Type} (F : X -> nat -> S' -> out) (cs : list X) (n : nat) (st : S') : out :=
  match cs with
  | [] => may_throw n st (done st)                                        (* code after the last call *)
  | c :: cs => may_throw n st (fun n => xbind (F c n st) (fun st n => xcalls F cs n st))
  end.

(* hash_append.hpp:410-421, and the do_hash_append overloads it calls *)
Fixpoint xha (t : ty) (v : val) (n : nat) (st : S') {struct t} : out :=
  let each := fix each (p : bool) (ts : list ty) (vs : list val) (n : nat) (st : S') : out :=
    match ts, vs with
    | [], [] => done st n
    | t :: ts, v :: vs => may_throw_if p n st (fun n => xbind (xha t v n st) (fun st n => each p ts vs n st))
    | _, _ => UB
    end in
  if negb (p_cx pf) && contiguously_hashable i f t then
    run (h_update h st (Ptr (obj i t v)) (size_of i t)) n
  else
  match t, v with
  | TInt s _, VInt z => run (ha_int h i f s z st) n                                        (* 176-187 *)
  | TBool, VInt z => run (ha_int h i f I8 z st) n
  | TEnum s _, VInt z => run (ha_int h i f s z st) n                                       (* 191-197 *)
  | TPtr, VInt z => run (ha_int h i f (im_psz i) z st) n                                   (* 202-207 *)
  | TNullptr, VInt _ => run (ha_int h i f (im_psz i) 0 st) n                               (* 230-236 *)
  | TFlt32, VInt z => run (ha_int h i f I32 (Z.of_N (fadd0 i 8 23 (Z.to_N z))) st) n       (* 211-217 *)
  | TFlt64, VInt z => run (ha_int h i f I64 (Z.of_N (fadd0 i 11 52 (Z.to_N z))) st) n      (* 219-226 *)
  | TCArr _ t, VList vs => xptr_range t (xha t) vs n st                                    (* 240-243 *)
  | TVec t, VList vs =>                                                                    (* 247-254 *)
      may_throw n st (fun n =>                                                             (* v.data(), v.size() *)
      xbind (xptr_range t (xha t) vs n st) (fun st n => run (ha_size h i f (length vs) st) n))
  | TList CInput t, VList vs =>                                                            (* 258-264, 120-130 *)
      may_throw n st (fun n =>                                                             (* v.begin(), v.end() *)
      xbind (xloop true (xha t) vs n st) (fun st n => run (ha_size h i f (length vs) st) n))
  | TList CRandom t, VList vs =>                                                           (* 258-264, 132-136 *)
      may_throw n st (fun n =>
      xbind (xloop true (xha t) vs n st) (fun st n =>
      may_throw n st (fun n => run (ha_size h i f (length vs) st) n)))                     (* last - first *)
  | TArr k t, VList vs =>                                                                  (* 273-287 *)
      if Nat.eqb k 0 then run (ha_int h i f I8 0 st) n else may_throw n st (fun n => xptr_range t (xha t) vs n st)
  | TArrN k t, VList vs =>                                                                 (* 291-305 *)
      if Nat.eqb k 0 then run (ha_int h i f I8 0 st) n else may_throw n st (fun n => xloop true (xha t) vs n st)
  | TUnord t, VList vs => may_throw n st (fun n => xunord_range (xha t) vs n st)           (* 313-319 *)
  | TTuple [], VList _ => run (ha_int h i f I8 0 st) n                                     (* 330-334 *)
  | TTuple ts, VList vs => each true ts vs n st                                            (* 323-328, 336-343: get<I>( v ) *)
  | TDesc bs ms, VList [VList bv; VList mv] =>                                             (* 354-388: members are accessed directly *)
      xbind (each false bs bv n st) (fun st n =>
      xbind (each false ms mv n st) (fun st n =>
      if Nat.eqb (length bs + length ms) 0 then run (ha_int h i f I8 0 st) n else done st n))
  | TTag ts, VList vs =>                                                                   (* 398-404 *)
      xbind (each true ts vs n st) (fun st n => may_throw n st (done st))
  | TVar true s ts, VList [VInt k; v] =>                                                   (* 398-404 *)
      may_throw n st (fun n =>
      xbind (run (ha_int h i f s k st) n) (fun st n =>
      may_throw n st (fun n =>
      xbind (alt (fun t => xha t v n st) UB ts (Z.to_nat k)) (fun st n => may_throw n st (done st)))))
  | TVar false s ts, VList [VInt k; v] =>
      may_throw n st (fun n =>
      xbind (alt (fun t => xha t v n st) UB ts (Z.to_nat k)) (fun st n =>
      may_throw n st (fun n =>
      xbind (run (ha_int h i f s k st) n) (fun st n => may_throw n st (done st)))))
  | TUser g ts, v =>                                                                       (* 398-404 *)
      xcalls (fun c n st => ucase (fun z => run (ha_size_of h i f z st) n) (fun t => xform c t (xha t) n st) UB ts c) (g v) n st
  | TSpec _ _ _ _ t, v => xha t v n st
  | _, _ => UB                          (* not a value of the type *)
  end.
(* the functions called by a user, hash_append.hpp:103-163, 408-421 *)
Definition xha_call (k : call) (n : nat) (st : S') : out :=
  match k with
  | KSize z => run (ha_size_of h i f z st) n
  | KVal t _ | KRange _ t _ | KSized _ t _ | KUnord t _ => xform k t (xha t) n st
  end.
End Append.
Arguments xha_call h gir i f k n st : clear implicits.

(* Programs with calls that may be left by an exception, which the caller catches; then it goes on using the same object. *)
(* calls by the user of the library; no counterpart in /repo *)
Inductive xstep :=
| XPlain (x : ustep)
| XCall (k : call) (n : nat).           (* n operations of the user succeed, the next one throws *)
(* as prun in Behaves.v; also whether each XCall was left by an exception; no counterpart in /repo *)
Fixpoint xprun (h : hasher) (gir : h_R h -> res N) (i : impl) (f : flavor) (s : h_S h) (xs : list xstep) : res (list (h_R h) * list bool) :=
  match xs with
  | [] => Ok ([], [])
  | XPlain (SUpdate p n) :: t => s <- h_update h s p n ;; xprun h gir i f s t
  | XPlain SResult :: t => '(r, s) <- h_result h s ;; '(rs, bs) <- xprun h gir i f s t ;; Ok (r :: rs, bs)
  | XPlain (SCall k) :: t => s <- ha_call h gir i f k s ;; xprun h gir i f s t
  | XCall k n :: t =>
      '(s, o) <- xha_call h gir i f k n s ;; '(rs, bs) <- xprun h gir i f s t ;;
      Ok (rs, match o with None => true | Some _ => false end :: bs)
  end.
(* the results of a program, and which calls threw *)
Definition xruns (e : env) (a : alg) (f : flavor) (c : ctor) (xs : list xstep) : res (list result * list bool) :=
  s <- construct (pk_h (pack e a)) c ;;
  '(rs, bs) <- xprun (pk_h (pack e a)) (pk_gir (pack e a)) (e_impl e) f s xs ;;
  Ok (map (pk_out (pack e a)) rs, bs).

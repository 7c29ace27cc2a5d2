(* Model of the range functions of include/boost/hash2/hash_append.hpp as they are written: loops over iterators of any class type,
   whose operations act on a world W (a stream, a linked structure, a generator, a log of the operations, ...). *)
From Verif Require Import Base Hasher Types ModelResult ModelAppend Behaves Instances.
Open Scope N_scope.

(* What a class type It provides as an iterator.  Copies of an iterator are values of It, as in C++. *)
(* no counterpart in /repo: the iterator requirements of C++, and std::iterator_traits<It> *)
Record iterators (It W : Type) := {
  it_cat : icat;                                (* iterator_category *)
  it_ref : ty;                                  (* the type of *first, without reference and cv-qualifiers *)
  it_val : ty;                                  (* value_type *)
  it_conv : val -> val;                         (* the implicit conversion of *first to value_type *)
  it_dif : isz;                                 (* difference_type, a signed integer type *)
  it_ne : It -> It -> W -> res (bool * W);      (* first != last *)
  it_get : It -> W -> res (val * W);            (* *first *)
  it_inc : It -> W -> res (It * W);             (* ++first *)
  it_sub : It -> It -> W -> res (Z * W) }.      (* last - first, for random access iterators *)
Arguments it_cat {It W}. Arguments it_ref {It W}. Arguments it_val {It W}. Arguments it_conv {It W}. Arguments it_dif {It W}.
Arguments it_ne {It W}. Arguments it_get {It W}. Arguments it_inc {It W}. Arguments it_sub {It W}.

(* ++m, for m of difference_type: signed overflow for types as wide as int (32 bits), conversion back for narrower types *)
(* (hash_append.hpp:124, 153) *)
Definition dif_inc (s : isz) (m : Z) : res Z :=
  let top := (2 ^ (8 * Z.of_nat (ibytes s) - 1))%Z in
  if (m + 1 <? top)%Z then Ok (m + 1)%Z
  else match s with I8 | I16 => Ok (m + 1 - 2 * top)%Z | _ => UB end.

Section Append.
Variable h : hasher.
Variable gir : h_R h -> res N.         (* get_integral_result<uint64_t> *)
Variable i : impl.
Variable f : flavor.
Notation S' := (h_S h).
Section Loops.
Context {It W : Type}.
Variable I : iterators It W.
Variable last : It.
(* The loops are cut off after [fuel] tests of the loop condition. *)
(* hash_append_range_, hash_append.hpp:49-56, called by hash_append_range, 103-106 *)
Fixpoint it_range (fuel : nat) (first : It) (w : W) (st : S') : res (S' * W) :=
  match fuel with
  | O => OutOfFuel
  | S fuel =>
      '(b, w) <- it_ne I first last w ;;
      if (b : bool) then
        '(v, w) <- it_get I first w ;;                          (* value_type const& v = *first; *)
        st <- ha h gir i f (it_val I) (it_conv I v) st ;;
        '(first, w) <- it_inc I first w ;;
        it_range fuel first w st
      else Ok (st, w)
  end.
(* the loop of hash_append_sized_range_ for input iterators, hash_append.hpp:122-127 *)
Fixpoint it_sized_loop (fuel : nat) (first : It) (w : W) (m : Z) (st : S') : res (S' * Z * W) :=
  match fuel with
  | O => OutOfFuel
  | S fuel =>
      '(b, w) <- it_ne I first last w ;;
      if (b : bool) then
        '(v, w) <- it_get I first w ;;
        st <- ha h gir i f (it_ref I) v st ;;                   (* hash_append( h, f, *first ) *)
        '(first, w) <- it_inc I first w ;;
        m <- dif_inc (it_dif I) m ;;
        it_sized_loop fuel first w m st
      else Ok (st, m, w)
  end.
(* hash_append_sized_range, hash_append.hpp:140-143, 120-136: dispatched on iterator_category *)
Definition it_sized (fuel : nat) (first : It) (w : W) (st : S') : res (S' * W) :=
  match it_cat I with
  | CInput => '(st, m, w) <- it_sized_loop fuel first w 0%Z st ;; st <- ha_size_of h i f m st ;; Ok (st, w)
  | CRandom => '(st, w) <- it_range fuel first w st ;; '(m, w) <- it_sub I last first w ;; st <- ha_size_of h i f m st ;; Ok (st, w)
  end.
(* the loop of hash_append_unordered_range, hash_append.hpp:149-159: x is the w of the code *)
Fixpoint it_unord_loop (fuel : nat) (first : It) (w : W) (m : Z) (x : N) (st : S') : res (N * Z * W) :=
  match fuel with
  | O => OutOfFuel
  | S fuel =>
      '(b, w) <- it_ne I first last w ;;
      if (b : bool) then
        '(v, w) <- it_get I first w ;;
        h2 <- ha h gir i f (it_ref I) v st ;;
        '(r, _) <- h_result h h2 ;;
        y <- gir r ;;
        '(first, w) <- it_inc I first w ;;
        m <- dif_inc (it_dif I) m ;;
        it_unord_loop fuel first w m (add64 x y) st
      else Ok (x, m, w)
  end.
(* hash_append.hpp:147-163 *)
Definition it_unord (fuel : nat) (first : It) (w : W) (st : S') : res (S' * W) :=
  '(x, m, w) <- it_unord_loop fuel first w 0%Z 0 st ;;
  st <- ha_int h i f I64 (Z.of_N x) st ;;
  st <- ha_size_of h i f m st ;;
  Ok (st, w).
End Loops.
End Append.

(* Programs that also call the range functions with iterators of class types. *)
(* hash_append.hpp:103-106, 140-143, 147-163 *)
Inductive ifun := FRange | FSized | FUnord.
(* calls by the user of the library; no counterpart in /repo *)
Inductive istep (W : Type) :=
| IPlain (x : ustep)
| IIterate (fn : ifun) (It : Type) (I : iterators It W) (first last : It).
Arguments IPlain {W} x.
Arguments IIterate {W} fn {It} I first last.
(* hash_append.hpp:103-106, 140-143, 147-163 *)
Definition it_call (h : hasher) (gir : h_R h -> res N) (i : impl) (f : flavor) (fuel : nat) {W It : Type} (fn : ifun) (I : iterators It W) (first last : It)
    (w : W) (st : h_S h) : res (h_S h * W) :=
  match fn with
  | FRange => it_range h gir i f I last fuel first w st
  | FSized => it_sized h gir i f I last fuel first w st
  | FUnord => it_unord h gir i f I last fuel first w st
  end.
(* sequences of calls by the user, as prun in Behaves.v; no counterpart in /repo *)
Fixpoint iprun (h : hasher) (gir : h_R h -> res N) (i : impl) (f : flavor) (fuel : nat) {W : Type} (s : h_S h) (w : W) (xs : list (istep W)) : res (list (h_R h) * W) :=
  match xs with
  | [] => Ok ([], w)
  | IPlain (SUpdate p n) :: t => s <- h_update h s p n ;; iprun h gir i f fuel s w t
  | IPlain SResult :: t => '(r, s) <- h_result h s ;; '(rs, w) <- iprun h gir i f fuel s w t ;; Ok (r :: rs, w)
  | IPlain (SCall k) :: t => s <- ha_call h gir i f k s ;; iprun h gir i f fuel s w t
  | IIterate fn J first last :: t => '(s, w) <- it_call h gir i f fuel fn J first last w s ;; iprun h gir i f fuel s w t
  end.
(* the results of a program, and the final world *)
Definition iruns (e : env) (a : alg) (f : flavor) (c : ctor) (fuel : nat) {W : Type} (w : W) (xs : list (istep W)) : res (list result * W) :=
  s <- construct (pk_h (pack e a)) c ;;
  '(rs, w) <- iprun (pk_h (pack e a)) (pk_gir (pack e a)) (e_impl e) f fuel s w xs ;;
  Ok (map (pk_out (pack e a)) rs, w).

(* The C++ types and values hash_append accepts, as a universe closed under nesting.  Which
   constructor a C++ type corresponds to is decided by the type traits in the enable_if
   conditions of do_hash_append (hash_append.hpp:176-404); see ModelDispatch.v. *)
From Coq Require Import List Arith NArith ZArith.
Import ListNotations.

(* sizes of integral types *)
(* sizeof(T) of the integral types (detail/write.hpp:103-154) *)
Inductive isz := I8 | I16 | I32 | I64.
(* sizeof(T) (detail/write.hpp:103-154) *)
Definition ibytes (s : isz) : nat := match s with I8 => 1 | I16 => 2 | I32 => 4 | I64 => 8 end.

(* iterator_category of a non-contiguous range: random access, or weaker *)
(* hash_append.hpp:120, 132 *)
Inductive icat := CInput | CRandom.

(* Scalars are represented by an integer: the value of an integral type, the underlying value
   of an enumeration, the address a pointer holds, the bit pattern of a floating point value. *)
(* no counterpart in /repo: values of C++ types *)
Inductive val :=
| VInt (z : Z)
| VList (vs : list val).

(* The functions of hash_append.hpp: hash_append, hash_append_range, hash_append_sized_range,
   hash_append_unordered_range, hash_append_size.  A range is given by the values of its elements
   (converted to the value_type of its iterators) and the kind of its iterators: pointers, or
   class types of some category.  [T]: what stands for the type of the value or of the elements. *)
Inductive ikind := IPtr | IIter (c : icat).
(* hash_append.hpp:103-163, 408-421 *)
Inductive call_ (T : Type) :=
| KVal (t : T) (v : val)                       (* hash_append( h, f, v ) *)
| KRange (k : ikind) (t : T) (vs : list val)   (* hash_append_range( h, f, first, last ) *)
| KSized (k : ikind) (t : T) (vs : list val)   (* hash_append_sized_range( h, f, first, last ) *)
| KUnord (t : T) (vs : list val)               (* hash_append_unordered_range( h, f, first, last ) *)
| KSize (z : Z).                               (* hash_append_size( h, f, z ) *)
Arguments KVal {T} t v.
Arguments KRange {T} k t vs.
Arguments KSized {T} k t vs.
Arguments KUnord {T} t vs.
Arguments KSize {T} z.

(* hash_append.hpp:174-404: what the overloads distinguish *)
Inductive ty :=
| TInt (s : isz) (sg : bool)          (* integral types but bool; sg: signed.  TInt I8 false is unsigned char *)
| TBool
| TEnum (s : isz) (sg : bool)         (* enumerations, by underlying type *)
| TPtr                                (* U* *)
| TNullptr                            (* std::nullptr_t *)
| TFlt32 | TFlt64                     (* floating point types of 4 and 8 bytes *)
| TCArr (n : nat) (t : ty)            (* U[n] *)
| TVec (t : ty)                       (* contiguous range without constant size: vector, string, span *)
| TList (c : icat) (t : ty)           (* other ranges without constant size: deque, list, set, map *)
| TArr (n : nat) (t : ty)             (* contiguous, constant size: std::array, boost::array, digest *)
| TArrN (n : nat) (t : ty)            (* constant size, not contiguous *)
| TUnord (t : ty)                     (* unordered_set, unordered_map ... *)
| TTuple (ts : list ty)               (* tuple, pair *)
| TDesc (bases members : list ty)     (* classes described with Boost.Describe *)
| TTag (ts : list ty)                 (* classes whose tag_invoke hash_appends these parts in this order *)
| TVar (fst : bool) (s : isz) (ts : list ty)
    (* discriminated unions (variants, optionals) whose tag_invoke hash_appends the index of the
       current alternative, an unsigned integer of size s, before (fst) or after the alternative *)
| TUser (g : val -> list (call_ nat)) (ts : list ty)
    (* classes with any other tag_invoke: on the object v it makes the calls g v, in this order; the
       type of what they are applied to is given by its position in ts *)
| TSpec (tec ei : bool) (sz : nat) (rep : bool -> val -> list N) (t : ty).
    (* the user-defined type t with user-specialised traits: is_trivially_equality_comparable is tec,
       is_endian_independent is ei; sz is its sizeof, [rep le v] the bytes of the object v on a
       little-endian (le) or big-endian platform *)

Section Ind.
Variable P : ty -> Prop.
Hypothesis Hint : forall s sg, P (TInt s sg).
Hypothesis Hbool : P TBool.
Hypothesis Henum : forall s sg, P (TEnum s sg).
Hypothesis Hptr : P TPtr.
Hypothesis Hnull : P TNullptr.
Hypothesis Hf32 : P TFlt32.
Hypothesis Hf64 : P TFlt64.
Hypothesis Hcarr : forall n t, P t -> P (TCArr n t).
Hypothesis Hvec : forall t, P t -> P (TVec t).
Hypothesis Hlist : forall c t, P t -> P (TList c t).
Hypothesis Harr : forall n t, P t -> P (TArr n t).
Hypothesis Harrn : forall n t, P t -> P (TArrN n t).
Hypothesis Hunord : forall t, P t -> P (TUnord t).
Hypothesis Htuple : forall ts, Forall P ts -> P (TTuple ts).
Hypothesis Hdesc : forall bs ms, Forall P bs -> Forall P ms -> P (TDesc bs ms).
Hypothesis Htag : forall ts, Forall P ts -> P (TTag ts).
Hypothesis Hvar : forall lead s ts, Forall P ts -> P (TVar lead s ts).
Hypothesis Huser : forall g ts, Forall P ts -> P (TUser g ts).
Hypothesis Hspec : forall c e n r t, P t -> P (TSpec c e n r t).
(* no counterpart in /repo: induction principle *)
Fixpoint ty_rect' (t : ty) : P t :=
  let all := fix all (ts : list ty) : Forall P ts :=
    match ts with [] => Forall_nil P | t :: r => Forall_cons t (ty_rect' t) (all r) end in
  match t with
  | TInt s sg => Hint s sg | TBool => Hbool | TEnum s sg => Henum s sg | TPtr => Hptr
  | TNullptr => Hnull | TFlt32 => Hf32 | TFlt64 => Hf64
  | TCArr n t => Hcarr n t (ty_rect' t) | TVec t => Hvec t (ty_rect' t)
  | TList c t => Hlist c t (ty_rect' t) | TArr n t => Harr n t (ty_rect' t)
  | TArrN n t => Harrn n t (ty_rect' t) | TUnord t => Hunord t (ty_rect' t)
  | TTuple ts => Htuple ts (all ts) | TDesc bs ms => Hdesc bs ms (all bs) (all ms)
  | TTag ts => Htag ts (all ts) | TVar b s ts => Hvar b s ts (all ts)
  | TUser g ts => Huser g ts (all ts)
  | TSpec c e n r t => Hspec c e n r t (ty_rect' t)
  end.
End Ind.

(* The values of a type.  [psz]: sizeof(void* ). *)
(* no counterpart in /repo: ranges of the integral types *)
Definition in_int (s : isz) (sg : bool) (z : Z) : Prop :=
  (if sg then - 2 ^ (8 * Z.of_nat (ibytes s) - 1) <= z < 2 ^ (8 * Z.of_nat (ibytes s) - 1)
   else 0 <= z < 2 ^ (8 * Z.of_nat (ibytes s)))%Z.

(* f of the n-th type *)
Section Alt.
Context {X : Type} (f : ty -> X) (d : X).
(* no counterpart in /repo: used for the tag_invoke of hash_append.hpp:398-404 *)
Fixpoint alt (ts : list ty) (n : nat) : X :=
  match ts, n with
  | [], _ => d
  | t :: _, O => f t
  | _ :: ts, S n => alt ts n
  end.
End Alt.

(* f of the type of the call's arguments; z for hash_append_size *)
(* no counterpart in /repo: used for the tag_invoke of hash_append.hpp:398-404 *)
Definition ucase {X : Type} (z : Z -> X) (f : ty -> X) (d : X) (ts : list ty) (c : call_ nat) : X :=
  match c with
  | KSize n => z n
  | KVal k _ | KRange _ k _ | KSized _ k _ | KUnord k _ => alt f d ts k
  end.

(* one value per type, in order *)
(* no counterpart in /repo: used for tuples and described classes *)
Fixpoint Zip (P : ty -> val -> Prop) (ts : list ty) (vs : list val) : Prop :=
  match ts, vs with
  | [], [] => True
  | t :: ts, v :: vs => P t v /\ Zip P ts vs
  | _, _ => False
  end.

(* a call made by a user *)
(* hash_append.hpp:103-163, 408-421 *)
Definition call := call_ ty.

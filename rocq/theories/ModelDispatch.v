(* Which do_hash_append overload hash_append calls for a type: the enable_if conditions of
   hash_append.hpp:176-404, as functions of the type traits they test.  (hash_append itself, lines
   410-421, calls update() directly for contiguously hashable types at run time, but do_hash_append
   must resolve for every type, since the call is compiled in either case.) *)
From Coq Require Import List Arith Bool Lia.
From Verif Require Import Types ModelAppend.
Import ListNotations.

(* The primary category of a type [basic.types]; cv-qualifiers are stripped by deduction.
   CFloat n: a floating point type with sizeof == n; COther: unions, member pointers, functions *)
(* what std::is_integral, is_enum, is_pointer, is_floating_point, is_same<T, nullptr_t> of hash_append.hpp:176-236 test *)
Inductive category := CInt | CEnum | CPtr | CNullptr | CFloat (n : nat) | CArr | CClass | COther.
(* The traits of Boost.ContainerHash (is_range, is_contiguous_range, is_unordered_range,
   is_tuple_like, is_described_class) and of hash2 (has_constant_size, has_tag_invoke) *)
(* tested in hash_append.hpp:176-404; has_constant_size.hpp:44-58 is tr_constant *)
Record traits := {
  tr_cat : category;
  tr_range : bool; tr_contiguous : bool; tr_unordered : bool; tr_constant : bool;
  tr_tuple : bool; tr_described : bool; tr_tag : bool }.
(* what holds of every type: ranges, tuple-likes and described types are classes, contiguous and
   unordered ranges are ranges; user overloads of tag_invoke are found for classes and enumerations *)
(* no counterpart in /repo: facts about C++ types *)
Definition consistent (t : traits) : Prop :=
  (tr_contiguous t = true -> tr_range t = true) /\ (tr_unordered t = true -> tr_range t = true) /\
  (tr_cat t <> CClass -> tr_range t = false /\ tr_tuple t = false /\ tr_described t = false /\ tr_constant t = false) /\
  (tr_tag t = true -> tr_cat t = CClass \/ tr_cat t = CEnum).

(* The overloads, by the lines of hash_append.hpp *)
Inductive overload :=
| OIntegral   (* 176-187 *) | OEnum     (* 191-197 *) | OPointer  (* 202-207 *)
| OFloat4     (* 211-217 *) | OFloat8   (* 219-226 *) | ONullptr  (* 230-236 *)
| OCArray     (* 240-243 *) | OContig   (* 247-254 *) | ORange    (* 258-264 *)
| OContigK    (* 273-287 *) | ORangeK   (* 291-305 *) | OUnord    (* 313-319 *)
| OTuple      (* 336-343 *) | ODescr    (* 354-388 *) | OTag      (* 398-404 *).
(* hash_append.hpp:176-404, in this order *)
Definition overloads : list overload :=
  [OIntegral; OEnum; OPointer; OFloat4; OFloat8; ONullptr; OCArray; OContig; ORange; OContigK; ORangeK; OUnord;
   OTuple; ODescr; OTag].
(* the enable_if conditions *)
(* hash_append.hpp:178, 193, 203, 213, 221, 231, 239, 248, 259, 274, 293, 315, 338, 356, 400 *)
Definition enabled (t : traits) (o : overload) : bool :=
  match o with
  | OIntegral => match tr_cat t with CInt => true | _ => false end
  | OEnum => match tr_cat t with CEnum => true | _ => false end
  | OPointer => match tr_cat t with CPtr => true | _ => false end
  | OFloat4 => match tr_cat t with CFloat n => Nat.eqb n 4 | _ => false end
  | OFloat8 => match tr_cat t with CFloat n => Nat.eqb n 8 | _ => false end
  | ONullptr => match tr_cat t with CNullptr => true | _ => false end
  | OCArray => match tr_cat t with CArr => true | _ => false end
  | OContig => tr_contiguous t && negb (tr_constant t)
  | ORange => tr_range t && negb (tr_constant t) && negb (tr_contiguous t) && negb (tr_unordered t)
  | OContigK => tr_contiguous t && tr_constant t
  | ORangeK => tr_range t && tr_constant t && negb (tr_contiguous t)
  | OUnord => tr_unordered t
  | OTuple => negb (tr_range t) && tr_tuple t
  | ODescr => tr_described t
  | OTag => tr_tag t
  end.
(* no counterpart in /repo: SFINAE ([temp.deduct]) over hash_append.hpp:176-404 *)
Definition viable (t : traits) : list overload := filter (enabled t) overloads.
(* Overload resolution: all but OCArray have the same parameter types (Hash&, Flavor const&, T const&),
   so two viable ones are ambiguous; OCArray is only viable for arrays. *)
(* no counterpart in /repo: C++ semantics *)
Inductive resolution := Calls (o : overload) | NoMatch | Ambiguous.
(* no counterpart in /repo: [over.match.best] for the call at hash_append.hpp:419 *)
Definition resolve (t : traits) : resolution :=
  match viable t with [] => NoMatch | [o] => Calls o | _ => Ambiguous end.

(* The traits of the types the model covers (Types.v: ty).  These are facts about the types named
   there: e.g. std::vector is a contiguous range without tuple_size, std::array a contiguous range
   with tuple_size, which makes it tuple-like too. *)
Definition scalar (c : category) : traits :=
  {| tr_cat := c; tr_range := false; tr_contiguous := false; tr_unordered := false; tr_constant := false;
     tr_tuple := false; tr_described := false; tr_tag := false |}.
(* the traits of a range type, as tested in hash_append.hpp:247-319 *)
Definition rng (contiguous unordered constant tuple : bool) : traits :=
  {| tr_cat := CClass; tr_range := true; tr_contiguous := contiguous; tr_unordered := unordered; tr_constant := constant;
     tr_tuple := tuple; tr_described := false; tr_tag := false |}.
(* no counterpart in /repo: what the traits of hash_append.hpp:176-404 are for the listed types *)
Inductive traits_of : ty -> traits -> Prop :=
| to_int s sg : traits_of (TInt s sg) (scalar CInt)
| to_bool : traits_of TBool (scalar CInt)
| to_enum s sg : traits_of (TEnum s sg) (scalar CEnum)
| to_ptr : traits_of TPtr (scalar CPtr)
| to_null : traits_of TNullptr (scalar CNullptr)
| to_f32 : traits_of TFlt32 (scalar (CFloat 4))
| to_f64 : traits_of TFlt64 (scalar (CFloat 8))
| to_carr n t : traits_of (TCArr n t) (scalar CArr)
| to_vec t : traits_of (TVec t) (rng true false false false)
| to_list c t : traits_of (TList c t) (rng false false false false)
| to_arr n t tup : traits_of (TArr n t) (rng true false true tup)      (* std::array is tuple-like, digest is not *)
| to_arrn n t tup : traits_of (TArrN n t) (rng false false true tup)
| to_unord t : traits_of (TUnord t) (rng false true false false)
| to_tuple ts : traits_of (TTuple ts)                                  (* tuple and pair have a tuple_size *)
    {| tr_cat := CClass; tr_range := false; tr_contiguous := false; tr_unordered := false; tr_constant := true;
       tr_tuple := true; tr_described := false; tr_tag := false |}
| to_desc bs ms : traits_of (TDesc bs ms)
    {| tr_cat := CClass; tr_range := false; tr_contiguous := false; tr_unordered := false; tr_constant := false;
       tr_tuple := false; tr_described := true; tr_tag := false |}
| to_tag ts : traits_of (TTag ts)
    {| tr_cat := CClass; tr_range := false; tr_contiguous := false; tr_unordered := false; tr_constant := false;
       tr_tuple := false; tr_described := false; tr_tag := true |}
| to_var b s ts : traits_of (TVar b s ts)
    {| tr_cat := CClass; tr_range := false; tr_contiguous := false; tr_unordered := false; tr_constant := false;
       tr_tuple := false; tr_described := false; tr_tag := true |}
| to_user g ts : traits_of (TUser g ts)
    {| tr_cat := CClass; tr_range := false; tr_contiguous := false; tr_unordered := false; tr_constant := false;
       tr_tuple := false; tr_described := false; tr_tag := true |}
| to_spec c e n r t tr : traits_of t tr -> traits_of (TSpec c e n r t) tr.
(* the overload whose body the branch of [ha] for a type models (ModelAppend.v) *)
Fixpoint branch (t : ty) : overload :=
  match t with
  | TInt _ _ | TBool => OIntegral | TEnum _ _ => OEnum | TPtr => OPointer | TNullptr => ONullptr
  | TFlt32 => OFloat4 | TFlt64 => OFloat8 | TCArr _ _ => OCArray | TVec _ => OContig | TList _ _ => ORange
  | TArr _ _ => OContigK | TArrN _ _ => ORangeK | TUnord _ => OUnord | TTuple _ => OTuple
  | TDesc _ _ => ODescr | TTag _ | TVar _ _ _ | TUser _ _ => OTag
  | TSpec _ _ _ _ t => branch t
  end.

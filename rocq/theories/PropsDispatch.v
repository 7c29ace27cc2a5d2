(* C42: which overload of do_hash_append is chosen, against doc/hash2/reference/hash_append.adoc:48-65. *)
From Coq Require Import List Arith Bool Lia.
From Verif Require Import Types ModelAppend ModelDispatch.
Import ListNotations.

(* The documentation: the first case that applies *)
Definition documented (t : traits) : option overload :=
  match tr_cat t with
  | CInt => Some OIntegral
  | CFloat n => if Nat.eqb n 4 then Some OFloat4 else if Nat.eqb n 8 then Some OFloat8 else None
  | CPtr => Some OPointer
  | CNullptr => Some ONullptr
  | CArr => Some OCArray
  | _ =>
    if tr_tag t then Some OTag
    else match tr_cat t with CEnum => Some OEnum | _ =>
    if tr_unordered t then Some OUnord
    else if tr_contiguous t then Some (if tr_constant t then OContigK else OContig)
    else if tr_range t then Some (if tr_constant t then ORangeK else ORange)
    else if tr_tuple t then Some OTuple
    else if tr_described t then Some ODescr
    else None end
  end.
(* the types for which two of the documented cases apply although none is a special case of the
   other: the enable_if conditions overlap *)
Definition overlapping (t : traits) : bool :=
  tr_tag t && (match tr_cat t with CEnum => true | _ => false end || tr_range t || tr_tuple t || tr_described t)
  || tr_unordered t && (tr_contiguous t || tr_constant t)
  || tr_described t && (tr_range t || tr_tuple t).

Ltac tables t :=
  destruct t as [cat [] [] [] [] [] [] []];
  destruct cat as [| | | |n| | | ]; unfold consistent, resolve, viable, documented, overlapping;
  cbn [tr_cat tr_range tr_contiguous tr_unordered tr_constant tr_tuple tr_described tr_tag
       filter overloads enabled andb negb orb];
  try (destruct (Nat.eqb_spec n 4) as [->|];
       [cbn [Nat.eqb andb negb orb filter]|destruct (Nat.eqb_spec n 8) as [->|]; cbn [Nat.eqb andb negb orb filter]]).
Ltac refute HC :=
  destruct HC as (H1 & H2 & H3 & H4);
  try (specialize (H1 eq_refl); discriminate); try (specialize (H2 eq_refl); discriminate);
  try (specialize (H3 ltac:(discriminate)); destruct H3 as (? & ? & ? & ?); discriminate);
  try (specialize (H4 eq_refl); destruct H4; discriminate).

(* A call that compiles does what is documented *)
Theorem C42_as_documented t o : consistent t -> resolve t = Calls o -> documented t = Some o.
Proof.
  tables t; intros HC E; try discriminate; try (injection E as <-; reflexivity); exfalso; refute HC.
Qed.
(* and every type with a documented effect compiles, except those with overlapping categories *)
Theorem C42_compiles t o : consistent t -> documented t = Some o -> overlapping t = false -> resolve t = Calls o.
Proof.
  tables t; intros HC E HO; try discriminate; try (injection E as <-; reflexivity); exfalso; refute HC.
Qed.
(* For those every call is ambiguous, contrary to the documentation: e.g. a range that provides
   tag_invoke, which is documented to take precedence *)
Theorem C42_ambiguous_refuted t : consistent t -> overlapping t = true ->
  (exists o, documented t = Some o) /\ resolve t = Ambiguous.
Proof.
  tables t; intros HC HO; try discriminate; try (split; [eexists; reflexivity|reflexivity]); exfalso; refute HC.
Qed.
(* types without a documented effect do not compile *)
Theorem C42_unsupported t : consistent t -> documented t = None -> resolve t = NoMatch.
Proof.
  tables t; intros HC HO; try discriminate; try reflexivity; exfalso; refute HC.
Qed.
(* a contiguous range with tag_invoke; an enumeration with tag_invoke; a described tuple-like class *)
Definition tagged_string : traits :=
  {| tr_cat := CClass; tr_range := true; tr_contiguous := true; tr_unordered := false; tr_constant := false;
     tr_tuple := false; tr_described := false; tr_tag := true |}.
Definition tagged_enum : traits :=
  {| tr_cat := CEnum; tr_range := false; tr_contiguous := false; tr_unordered := false; tr_constant := false;
     tr_tuple := false; tr_described := false; tr_tag := true |}.
Example C42_tagged : consistent tagged_string /\ documented tagged_string = Some OTag /\ resolve tagged_string = Ambiguous /\
  consistent tagged_enum /\ documented tagged_enum = Some OTag /\ resolve tagged_enum = Ambiguous.
Proof. unfold consistent; cbn. repeat split; try discriminate; try congruence; intros; auto; try tauto. Qed.

(* The model of hash_append (ModelAppend.v: ha) branches on the type as overload resolution does *)
Theorem C42_model t tr : traits_of t tr -> consistent tr /\ resolve tr = Calls (branch t).
Proof.
  induction 1; [..|exact IHtraits_of]; unfold consistent, scalar, rng; cbn;
    try (match goal with |- context [resolve _] => idtac end);
    (split; [repeat split; try discriminate; try congruence; intros; auto; try tauto|]);
    try reflexivity; destruct tup; reflexivity.
Qed.
Theorem C42_model_total t : exists tr, traits_of t tr.
Proof.
  induction t; try (eexists; constructor; fail). destruct IHt as [tr Ht]. exists tr. now constructor.
  Unshelve. all: exact true.
Qed.
(* range and tuple-like at once, as std::array is: the range wins *)
Theorem C42_array_is_range t : consistent t -> tr_range t = true -> overlapping t = false -> resolve t <> Calls OTuple.
Proof.
  tables t; intros HC HR HO; try discriminate.
Qed.

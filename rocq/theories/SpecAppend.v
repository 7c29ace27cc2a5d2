(* The byte message of a value: what doc/hash2/hashing_objects.adoc and reference/hash_append.adoc
   prescribe, as a function of the value alone.  [le]: the byte order of the flavor, [ss]: its
   size_type, [psz]: sizeof(void* ), [fz]: normalisation of floating point bit patterns.
   Unordered containers hash each element on a copy of the hasher, so their message depends on
   what was hashed before: [q m] stands for the 64-bit integral result of a hasher that has
   been fed m on top of what it was fed so far. *)
From Coq Require Import List Arith NArith ZArith.
From Verif Require Import SpecCommon Types.
Import ListNotations.
Open Scope N_scope.

(* two's complement in [k] bytes *)
Definition enc (le : bool) (k : nat) (z : Z) : list N :=
  let u := Z.to_N (z mod 2 ^ (8 * Z.of_nat k)) in if le then toLE k u else toBE k u.

Section Msg.
Variables (le : bool) (ss psz : isz) (fz32 fz64 : N -> N).

Definition size_msg (n : nat) : list N := enc le (ibytes ss) (Z.of_nat n).
Definition shift (x : list N) (q : list N -> N) : list N -> N := fun m => q (x ++ m).
Fixpoint seq_msg {X : Type} (m : X -> (list N -> N) -> list N) (vs : list X) (q : list N -> N) : list N :=
  match vs with
  | [] => []
  | v :: r => m v q ++ seq_msg m r (shift (m v q) q)
  end.
Definition sum64 (l : list N) : N := fold_right N.add 0 l mod 2^64.

(* what the functions of hash_append.hpp feed, when m is what hash_append feeds for a value *)
Definition form_msg {T : Type} (k : call_ T) (m : val -> (list N -> N) -> list N) (q : list N -> N) : list N :=
  match k with
  | KVal _ v => m v q
  | KRange _ _ vs => seq_msg m vs q
  | KSized _ _ vs => seq_msg m vs q ++ size_msg (length vs)
  | KUnord _ vs => enc le 8 (Z.of_N (sum64 (map (fun v => q (m v q)) vs))) ++ size_msg (length vs)
  | KSize z => enc le (ibytes ss) z
  end.

Fixpoint msg (t : ty) (v : val) (q : list N -> N) {struct t} : list N :=
  let each := fix each (ts : list ty) (vs : list val) (q : list N -> N) : list N :=
    match ts, vs with
    | t :: ts, v :: vs => msg t v q ++ each ts vs (shift (msg t v q) q)
    | _, _ => []
    end in
  match t, v with
  | TInt s _, VInt z | TEnum s _, VInt z => enc le (ibytes s) z
  | TBool, VInt z => enc le 1 z
  | TPtr, VInt z => enc le (ibytes psz) z
  | TNullptr, VInt _ => enc le (ibytes psz) 0
  | TFlt32, VInt z => enc le 4 (Z.of_N (fz32 (Z.to_N z)))
  | TFlt64, VInt z => enc le 8 (Z.of_N (fz64 (Z.to_N z)))
  | TCArr _ t, VList vs => seq_msg (msg t) vs q
  | TVec t, VList vs | TList _ t, VList vs => seq_msg (msg t) vs q ++ size_msg (length vs)
  | TArr _ _, VList [] | TArrN _ _, VList [] => [0]
  | TArr _ t, VList vs | TArrN _ t, VList vs => seq_msg (msg t) vs q
  | TUnord t, VList vs =>
      enc le 8 (Z.of_N (sum64 (map (fun v => q (msg t v q)) vs))) ++ size_msg (length vs)
  | TTuple [], VList _ => [0]
  | TTuple ts, VList vs => each ts vs q
  | TDesc [] [], VList _ => [0]
  | TDesc bs ms, VList [VList bv; VList mv] =>
      each bs bv q ++ each ms mv (shift (each bs bv q) q)
  | TTag ts, VList vs => each ts vs q
  | TVar true s ts, VList [VInt k; v] =>
      enc le (ibytes s) k ++ alt (fun t => msg t v (shift (enc le (ibytes s) k) q)) [] ts (Z.to_nat k)
  | TVar false s ts, VList [VInt k; v] => alt (fun t => msg t v q) [] ts (Z.to_nat k) ++ enc le (ibytes s) k
  | TUser g ts, v => seq_msg (fun c q => ucase (enc le (ibytes ss)) (fun t => form_msg c (msg t) q) [] ts c) (g v) q
  | TSpec _ _ _ _ t, v => msg t v q
  | _, _ => []
  end.

(* the same, of a tuple of values *)
Fixpoint tup_msg (ts : list ty) (vs : list val) (q : list N -> N) : list N :=
  match ts, vs with
  | t :: ts, v :: vs => msg t v q ++ tup_msg ts vs (shift (msg t v q) q)
  | _, _ => []
  end.

(* what the functions of hash_append.hpp feed *)
Definition call_msg (k : call) (q : list N -> N) : list N :=
  match k with
  | KSize z => enc le (ibytes ss) z
  | KVal t _ | KRange _ t _ | KSized _ t _ | KUnord t _ => form_msg k (msg t) q
  end.
End Msg.

(* ------------------------------------------------------------------ *)
(* The values of a type. *)
(* enumerations and classes *)
Definition user_defined (t : ty) : Prop :=
  match t with
  | TEnum _ _ | TVec _ | TList _ _ | TArr _ _ | TArrN _ _ | TUnord _ | TTuple _ | TDesc _ _ | TTag _ | TVar _ _ _ | TUser _ _ => True
  | _ => False
  end.
(* What the documentation asks of user specialisations (reference/is_contiguously_hashable.adoc): the
   storage bytes of the value are the message it would have otherwise, and do not depend on
   the platform's byte order if the type is endian-independent. *)
Definition spec_ok (psz : isz) (tec ei : bool) (sz : nat) (rep : bool -> val -> list N) (t : ty) (v : val) : Prop :=
  tec = true ->
  (forall le, length (rep le v) = sz /\ forall ss fz32 fz64 q, msg le ss psz fz32 fz64 t v q = rep le v) /\
  (ei = true -> rep true v = rep false v).

(* P of each value in a call *)
Definition form_ok {T : Type} (k : call_ T) (P : val -> Prop) : Prop :=
  match k with
  | KVal _ v => P v
  | KRange _ _ vs | KSized _ _ vs | KUnord _ vs => Forall P vs
  | KSize _ => True
  end.
(* calls that feed at least one byte *)
Definition productive {T : Type} (k : call_ T) : Prop :=
  match k with KRange _ _ vs => vs <> [] | _ => True end.

Fixpoint has_type (psz : isz) (t : ty) (v : val) {struct t} : Prop :=
  let all := fix all (ts : list ty) (vs : list val) : Prop :=
    match ts, vs with
    | [], [] => True
    | t :: ts, v :: vs => has_type psz t v /\ all ts vs
    | _, _ => False
    end in
  match t, v with
  | TInt s sg, VInt z | TEnum s sg, VInt z => in_int s sg z
  | TBool, VInt z => (z = 0 \/ z = 1)%Z
  | TPtr, VInt z => in_int psz false z
  | TNullptr, VInt z => z = 0%Z
  | TFlt32, VInt z => in_int I32 false z
  | TFlt64, VInt z => in_int I64 false z
  | TCArr n t, VList vs => n <> 0%nat /\ length vs = n /\ Forall (has_type psz t) vs
  | TArr n t, VList vs | TArrN n t, VList vs => length vs = n /\ Forall (has_type psz t) vs
  | TVec t, VList vs | TList _ t, VList vs | TUnord t, VList vs => Forall (has_type psz t) vs
  | TTuple ts, VList vs => all ts vs
  | TDesc bs ms, VList [VList bv; VList mv] => all bs bv /\ all ms mv
  | TTag ts, VList vs => ts <> [] /\ all ts vs
  | TVar _ s ts, VList [VInt k; v] => in_int s false k /\ alt (fun t => has_type psz t v) False ts (Z.to_nat k)
  | TUser g ts, v =>
      (* "a call to hash_append must always result in at least one call to Hash::update" *)
      Exists productive (g v) /\ Forall (fun c => ucase (fun _ => True) (fun t => form_ok c (has_type psz t)) False ts c) (g v)
  | TSpec tec ei sz rep t, v => user_defined t /\ has_type psz t v /\ spec_ok psz tec ei sz rep t v
  | _, _ => False
  end.
Definition call_ok (psz : isz) (k : call) : Prop :=
  match k with
  | KSize _ => True
  | KVal t _ | KRange _ t _ | KSized _ t _ | KUnord t _ => form_ok k (has_type psz t)
  end.

(* ------------------------------------------------------------------ *)
(* v1 == v2, for values of a type.  Floating point: bit patterns with [e] exponent and [m]
   significand bits; NaNs are equal to nothing, +0 == -0.  Unordered containers: the elements
   of one are a permutation of elements equal to those of the other. *)
Definition flt_nan (e m b : N) : Prop := (2 ^ e - 1) * 2 ^ m < b mod 2 ^ (e + m).
Definition flt_zero (e m b : N) : Prop := b mod 2 ^ (e + m) = 0.
Definition flt_equal (e m : N) (z1 z2 : Z) : Prop :=
  ~ flt_nan e m (Z.to_N z1) /\ ~ flt_nan e m (Z.to_N z2) /\
  (z1 = z2 \/ flt_zero e m (Z.to_N z1) /\ flt_zero e m (Z.to_N z2)).

Inductive permuted {X} : list X -> list X -> Prop :=
| perm_nil : permuted [] []
| perm_skip x l l' : permuted l l' -> permuted (x :: l) (x :: l')
| perm_swap x y l : permuted (y :: x :: l) (x :: y :: l)
| perm_trans l l' l'' : permuted l l' -> permuted l' l'' -> permuted l l''.

(* the same call on equal values *)
Definition form_equal {T : Type} (k1 k2 : call_ T) (E : val -> val -> Prop) : Prop :=
  match k1, k2 with
  | KVal t1 v1, KVal t2 v2 => t1 = t2 /\ E v1 v2
  | KRange _ t1 vs1, KRange _ t2 vs2 | KSized _ t1 vs1, KSized _ t2 vs2 => t1 = t2 /\ Forall2 E vs1 vs2
  | KUnord t1 vs1, KUnord t2 vs2 => t1 = t2 /\ exists vs, permuted vs1 vs /\ Forall2 E vs vs2
  | KSize z1, KSize z2 => z1 = z2
  | _, _ => False
  end.

Fixpoint equal (t : ty) (v1 v2 : val) {struct t} : Prop :=
  let all := fix all (ts : list ty) (vs1 vs2 : list val) : Prop :=
    match ts, vs1, vs2 with
    | [], [], [] => True
    | t :: ts, v1 :: vs1, v2 :: vs2 => equal t v1 v2 /\ all ts vs1 vs2
    | _, _, _ => False
    end in
  match t, v1, v2 with
  | TFlt32, VInt z1, VInt z2 => flt_equal 8 23 z1 z2
  | TFlt64, VInt z1, VInt z2 => flt_equal 11 52 z1 z2
  | (TInt _ _ | TBool | TEnum _ _ | TPtr | TNullptr), VInt z1, VInt z2 => z1 = z2
  | (TCArr _ t | TVec t | TList _ t | TArr _ t | TArrN _ t), VList vs1, VList vs2 => Forall2 (equal t) vs1 vs2
  | TUnord t, VList vs1, VList vs2 => exists vs, permuted vs1 vs /\ Forall2 (equal t) vs vs2
  | (TTuple ts | TTag ts), VList vs1, VList vs2 => all ts vs1 vs2
  | TDesc bs ms, VList [VList b1; VList m1], VList [VList b2; VList m2] => all bs b1 b2 /\ all ms m1 m2
  | TVar _ _ ts, VList [VInt k1; v1], VList [VInt k2; v2] => k1 = k2 /\ alt (fun t => equal t v1 v2) False ts (Z.to_nat k1)
  | TUser g ts, v1, v2 =>
      (* the coarsest operator== a tag_invoke making the calls g is right for: equal objects lead to the
         same calls on equal values *)
      Forall2 (fun c1 c2 => ucase (fun _ => c1 = c2) (fun t => form_equal c1 c2 (equal t)) False ts c1) (g v1) (g v2)
  | TSpec _ _ _ _ t, v1, v2 => equal t v1 v2
  | _, _, _ => False
  end.

(* types without unordered containers *)
Fixpoint ordered (t : ty) : Prop :=
  let all := fix all (ts : list ty) : Prop := match ts with [] => True | t :: ts => ordered t /\ all ts end in
  match t with
  | TUnord _ => False
  | TCArr _ t | TVec t | TList _ t | TArr _ t | TArrN _ t | TSpec _ _ _ _ t => ordered t
  | TTuple ts | TTag ts | TVar _ _ ts => all ts
  | TUser g ts => all ts /\ forall v, Forall (fun c => match c with KUnord _ _ => False | _ => True end) (g v)
  | TDesc bs ms => all bs /\ all ms
  | _ => True
  end.
(* and without discriminated unions that append the index first, and other user-written tag_invokes *)
Fixpoint decodable (t : ty) : Prop :=
  let all := fix all (ts : list ty) : Prop := match ts with [] => True | t :: ts => decodable t /\ all ts end in
  match t with
  | TUnord _ | TUser _ _ => False
  | TCArr _ t | TVec t | TList _ t | TArr _ t | TArrN _ t | TSpec _ _ _ _ t => decodable t
  | TTuple ts | TTag ts => all ts
  | TVar fst _ ts => fst = false /\ all ts
  | TDesc bs ms => all bs /\ all ms
  | _ => True
  end.

(* values without NaNs whose container sizes are representable in size_type *)
Definition form_regular {T : Type} (ss : isz) (k : call_ T) (P : val -> Prop) : Prop :=
  match k with
  | KVal _ v => P v
  | KRange _ _ vs => Forall P vs
  | KSized _ _ vs | KUnord _ vs => (Z.of_nat (length vs) < 2 ^ (8 * Z.of_nat (ibytes ss)))%Z /\ Forall P vs
  | KSize _ => True
  end.
Fixpoint regular (ss : isz) (t : ty) (v : val) {struct t} : Prop :=
  let all := fix all (ts : list ty) (vs : list val) : Prop :=
    match ts, vs with
    | t :: ts, v :: vs => regular ss t v /\ all ts vs
    | _, _ => True
    end in
  match t, v with
  | TFlt32, VInt z => ~ flt_nan 8 23 (Z.to_N z)
  | TFlt64, VInt z => ~ flt_nan 11 52 (Z.to_N z)
  | (TVec t | TList _ t | TUnord t), VList vs =>
      (Z.of_nat (length vs) < 2 ^ (8 * Z.of_nat (ibytes ss)))%Z /\ Forall (regular ss t) vs
  | (TCArr _ t | TArr _ t | TArrN _ t), VList vs => Forall (regular ss t) vs
  | (TTuple ts | TTag ts), VList vs => all ts vs
  | TDesc bs ms, VList [VList bv; VList mv] => all bs bv /\ all ms mv
  | TVar _ _ ts, VList [VInt k; v] => alt (fun t => regular ss t v) True ts (Z.to_nat k)
  | TUser g ts, v => Forall (fun c => ucase (fun _ => True) (fun t => form_regular ss c (regular ss t)) True ts c) (g v)
  | TSpec _ _ _ _ t, v => regular ss t v
  | _, _ => True
  end.

(* all floating point numbers in a value *)
Fixpoint all_floats (P32 P64 : N -> Prop) (t : ty) (v : val) {struct t} : Prop :=
  let all := fix all (ts : list ty) (vs : list val) : Prop :=
    match ts, vs with
    | t :: ts, v :: vs => all_floats P32 P64 t v /\ all ts vs
    | _, _ => True
    end in
  match t, v with
  | TFlt32, VInt z => P32 (Z.to_N z)
  | TFlt64, VInt z => P64 (Z.to_N z)
  | (TVec t | TList _ t | TUnord t | TCArr _ t | TArr _ t | TArrN _ t), VList vs => Forall (all_floats P32 P64 t) vs
  | (TTuple ts | TTag ts), VList vs => all ts vs
  | TDesc bs ms, VList [VList bv; VList mv] => all bs bv /\ all ms mv
  | TVar _ _ ts, VList [VInt k; v] => alt (fun t => all_floats P32 P64 t v) True ts (Z.to_nat k)
  | TUser g ts, v => Forall (fun c => ucase (fun _ => True) (fun t => form_ok c (all_floats P32 P64 t)) True ts c) (g v)
  | TSpec _ _ _ _ t, v => all_floats P32 P64 t v
  | _, _ => True
  end.
Definition nan_free : ty -> val -> Prop :=
  all_floats (fun b => ~ flt_nan 8 23 b) (fun b => ~ flt_nan 11 52 b).

(* An upper bound on the bytes fed while hashing a value, on the hasher itself and on the copies
   made for unordered containers (each with 192 bytes to spare for its result()). *)
Definition lsum (l : list nat) : nat := fold_right Nat.add 0%nat l.
Definition form_blen {T : Type} (k : call_ T) (b : val -> nat) : nat :=
  match k with
  | KVal _ v => b v
  | KRange _ _ vs => lsum (map b vs)
  | KSized _ _ vs => (8 + lsum (map b vs))%nat
  | KUnord _ vs => (16 + lsum (map (fun v => 192 + b v) vs))%nat
  | KSize _ => 8%nat
  end.
Fixpoint blen (t : ty) (v : val) {struct t} : nat :=
  let each := fix each (ts : list ty) (vs : list val) : nat :=
    match ts, vs with
    | t :: ts, v :: vs => (blen t v + each ts vs)%nat
    | _, _ => 0%nat
    end in
  match t, v with
  | (TCArr _ t | TArr _ t | TArrN _ t | TVec t | TList _ t), VList vs => (8 + lsum (map (blen t) vs))%nat
  | TUnord t, VList vs => (16 + lsum (map (fun v => 192 + blen t v) vs))%nat
  | (TTuple ts | TTag ts), VList vs => (8 + each ts vs)%nat
  | TDesc bs ms, VList [VList bv; VList mv] => (8 + each bs bv + each ms mv)%nat
  | TVar _ _ ts, VList [VInt k; v] => (8 + alt (fun t => blen t v) 0 ts (Z.to_nat k))%nat
  | TUser g ts, v => (8 + lsum (map (fun c => ucase (fun _ => 8) (fun t => form_blen c (blen t)) 0 ts c) (g v)))%nat
  | TSpec _ _ _ _ t, v => blen t v
  | _, _ => 8%nat
  end.
Definition call_blen (k : call) : nat :=
  match k with
  | KSize _ => 8%nat
  | KVal t _ | KRange _ t _ | KSized _ t _ | KUnord t _ => form_blen k (blen t)
  end.
Definition call_floats (P32 P64 : N -> Prop) (k : call) : Prop :=
  match k with
  | KSize _ => True
  | KVal t _ | KRange _ t _ | KSized _ t _ | KUnord t _ => form_ok k (all_floats P32 P64 t)
  end.
Definition call_nan_free : call -> Prop :=
  call_floats (fun b => ~ flt_nan 8 23 b) (fun b => ~ flt_nan 11 52 b).

(* values without empty contiguous ranges (empty vectors, strings, spans) *)
Definition form_null {T : Type} (k : call_ T) (P : val -> Prop) : Prop :=
  match k with
  | KVal _ v => P v
  | KRange IPtr _ vs | KSized IPtr _ vs => vs <> [] /\ Forall P vs
  | KRange _ _ vs | KSized _ _ vs | KUnord _ vs => Forall P vs
  | KSize _ => True
  end.
Fixpoint null_free (t : ty) (v : val) {struct t} : Prop :=
  let all := fix all (ts : list ty) (vs : list val) : Prop :=
    match ts, vs with
    | t :: ts, v :: vs => null_free t v /\ all ts vs
    | _, _ => True
    end in
  match t, v with
  | TVec t, VList vs => vs <> [] /\ Forall (null_free t) vs
  | (TList _ t | TUnord t | TCArr _ t | TArr _ t | TArrN _ t), VList vs => Forall (null_free t) vs
  | (TTuple ts | TTag ts), VList vs => all ts vs
  | TDesc bs ms, VList [VList bv; VList mv] => all bs bv /\ all ms mv
  | TVar _ _ ts, VList [VInt k; v] => alt (fun t => null_free t v) True ts (Z.to_nat k)
  | TUser g ts, v => Forall (fun c => ucase (fun _ => True) (fun t => form_null c (null_free t)) True ts c) (g v)
  | TSpec _ _ _ _ t, v => null_free t v
  | _, _ => True
  end.
Definition call_null_free (k : call) : Prop :=
  match k with
  | KSize _ => True
  | KVal t _ | KRange _ t _ | KSized _ t _ | KUnord t _ => form_null k (null_free t)
  end.

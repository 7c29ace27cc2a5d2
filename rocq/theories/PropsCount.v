(* C69: how many bytes hash_append feeds. *)
From Verif Require Import Base BaseFacts SpecCommon Hasher GenBlk Types ModelResult ModelAppend SpecAppend ProofMsg ProofMsgEq
  ProofAppend Behaves Instances ProofRuns PropsHistory Samples PropsAppend PropsTraits PropsExtra.
Open Scope N_scope.

(* The number of bytes hash_append feeds for a value of type t, if the type alone determines it:
   ss is the width of the flavor's size_type, psz of pointers. *)
Fixpoint fixed_size (ss psz : isz) (t : ty) {struct t} : option nat :=
  let sum := fix sum (ts : list ty) : option nat :=
    match ts with
    | [] => Some 0%nat
    | t :: ts => match fixed_size ss psz t, sum ts with Some a, Some b => Some (a + b)%nat | _, _ => None end
    end in
  match t with
  | TInt s _ | TEnum s _ => Some (ibytes s)
  | TBool => Some 1%nat
  | TPtr | TNullptr => Some (ibytes psz)
  | TFlt32 => Some 4%nat
  | TFlt64 => Some 8%nat
  | TCArr n t => match fixed_size ss psz t with Some k => Some (n * k)%nat | None => None end
  | TArr n t | TArrN n t => match n with 0%nat => Some 1%nat | _ => match fixed_size ss psz t with Some k => Some (n * k)%nat | None => None end end
  | TUnord _ => Some (8 + ibytes ss)%nat
  | TTuple [] => Some 1%nat
  | TTuple ts | TTag ts => sum ts
  | TDesc [] [] => Some 1%nat
  | TDesc bs ms => match sum bs, sum ms with Some a, Some b => Some (a + b)%nat | _, _ => None end
  | TSpec _ _ _ _ t => fixed_size ss psz t
  | TVec _ | TList _ _ | TVar _ _ _ | TUser _ _ => None
  end.
Definition sum_sizes (ss psz : isz) : list ty -> option nat :=
  fix sum (ts : list ty) : option nat :=
  match ts with
  | [] => Some 0%nat
  | t :: ts => match fixed_size ss psz t, sum ts with Some a, Some b => Some (a + b)%nat | _, _ => None end
  end.

Section Count.
Variables (le : bool) (ss psz : isz) (fz32 fz64 : N -> N).
Notation MSG := (msg le ss psz fz32 fz64).
Notation size := (fixed_size ss psz).


Lemma seq_count t k : (forall v q, has_type psz t v -> length (MSG t v q) = k) ->
  forall vs q, Forall (has_type psz t) vs -> length (seq_msg (MSG t) vs q) = (length vs * k)%nat.
Proof.
  intros H vs. induction vs as [|v vs IH]; intros q HV; [reflexivity|]. inversion HV; subst. cbn [seq_msg length]. rewrite app_length, IH by assumption.
  rewrite H by assumption. reflexivity.
Qed.
Lemma tup_count ts : Forall (fun t => forall k v q, size t = Some k -> has_type psz t v -> length (MSG t v q) = k) ts ->
  forall k vs q, sum_sizes ss psz ts = Some k -> Zip (has_type psz) ts vs -> length (tup_msg le ss psz fz32 fz64 ts vs q) = k.
Proof.
  induction 1 as [|t ts H HF IH]; intros k [|v vs] q HS HZ; try easy; [injection HS as <-; reflexivity|]. destruct HZ as [HV HZ].
  change (match size t, sum_sizes ss psz ts with Some a, Some b => Some (a + b)%nat | _, _ => None end = Some k) in HS.
  destruct (size t) as [a|] eqn:EA; [|discriminate]. destruct (sum_sizes ss psz ts) as [b|]; [|discriminate].
  injection HS as <-. cbn [tup_msg]. rewrite app_length, (H a v q eq_refl HV). f_equal. exact (IH b vs _ eq_refl HZ).
Qed.
Lemma arr_count t k n vs q : (forall v q, has_type psz t v -> length (MSG t v q) = k) -> length vs = S n -> Forall (has_type psz t) vs ->
  length (seq_msg (MSG t) vs q) = (S n * k)%nat.
Proof. intros H L F. rewrite (seq_count t k H) by assumption. now rewrite L. Qed.
Theorem msg_count t : forall k v q, size t = Some k -> has_type psz t v -> length (MSG t v q) = k.
Proof.
  induction t using ty_rect'; intros k v q HS HV; destruct v as [z|vs]; try easy.
  all: try (cbn [fixed_size] in HS; injection HS as <-; cbn [msg]; apply enc_length).
  - destruct HV as (Hn & HL & HV). cbn [fixed_size] in HS. destruct (size t) as [a|] eqn:EA; [|discriminate]. injection HS as <-. cbn [msg].
    rewrite (seq_count t a) by (auto || (intros; now apply IHt)). now rewrite HL.
  - destruct HV as (HL & HV). cbn [fixed_size] in HS. destruct vs as [|v vs]; cbn [length] in HL; subst; [injection HS as <-; reflexivity|].
    destruct (size t) as [a|] eqn:EA; [|discriminate]. injection HS as <-. cbn [msg]. apply (arr_count t a (length vs) (v :: vs)); auto.
  - destruct HV as (HL & HV). cbn [fixed_size] in HS. destruct vs as [|v vs]; cbn [length] in HL; subst; [injection HS as <-; reflexivity|].
    destruct (size t) as [a|] eqn:EA; [|discriminate]. injection HS as <-. cbn [msg]. apply (arr_count t a (length vs) (v :: vs)); auto.
  - cbn [fixed_size] in HS. injection HS as <-. cbn [msg]. unfold size_msg. rewrite app_length, !enc_length. reflexivity.
  - rewrite has_type_tuple in HV. destruct ts as [|t ts]; [injection HS as <-; destruct vs; reflexivity|]. rewrite msg_tuple by discriminate.
    exact (tup_count _ H k vs q HS HV).
  - destruct vs as [|[z|bv] [|[z2|mv] [|? ?]]]; try easy. rewrite has_type_desc in HV. destruct HV as [HB HM].
    assert (HD : (bs = [] /\ ms = []) \/ (bs <> [] \/ ms <> [])).
    { destruct bs; [destruct ms|]; [now left|right; right; discriminate|right; left; discriminate]. }
    destruct HD as [[-> ->]|HD]; [injection HS as <-; reflexivity|].
    assert (E : match sum_sizes ss psz bs, sum_sizes ss psz ms with Some a, Some b => Some (a + b)%nat | _, _ => None end = Some k).
    { destruct bs; [destruct ms; [now destruct HD|]|]; exact HS. }
    destruct (sum_sizes ss psz bs) as [a|] eqn:EA; [|discriminate]. destruct (sum_sizes ss psz ms) as [b|] eqn:EB; [|discriminate]. injection E as <-.
    rewrite msg_desc by exact HD. rewrite app_length. rewrite (tup_count _ H a bv q EA HB), (tup_count _ H0 b mv _ EB HM). reflexivity.
  - rewrite has_type_tag in HV. destruct HV as [HT HV]. rewrite msg_tag. exact (tup_count _ H k vs q HS HV).
  - exact (IHt k (VInt z) q HS (proj1 (proj2 HV))).
  - exact (IHt k (VList vs) q HS (proj1 (proj2 HV))).
Qed.
End Count.

(* hash_append of any value of such a type, by whatever sequence of update calls, feeds exactly
   fixed_size bytes: the type alone determines how many.  (The algorithm records its input, g is any result function.) *)
Theorem C69_fixed g i f t k v st : fixed_size (fl_size f) (im_psz i) t = Some k -> has_type (im_psz i) t v ->
  exists l, record g i f t v st = Ok (st ++ l) /\ length l = k.
Proof.
  intros HS HV. unfold record. rewrite append_records by assumption. eexists. split; [reflexivity|].
  unfold message. exact (msg_count _ _ _ _ _ t k v _ HS HV).
Qed.
(* In a sequence container the number of bytes is that of the elements and the size. *)
Theorem C69_ranges g i f t k vs st : fixed_size (fl_size f) (im_psz i) t = Some k -> has_type (im_psz i) (TVec t) (VList vs) ->
  exists l, record g i f (TVec t) (VList vs) st = Ok (st ++ l) /\ length l = (length vs * k + ibytes (fl_size f))%nat.
Proof.
  intros HS HV. unfold record. rewrite append_records by assumption. eexists. split; [reflexivity|].
  unfold message. cbn [msg]. unfold size_msg. rewrite app_length, enc_length. rewrite (seq_count _ _ _ _ _ t k) by (exact HV || (intros; now apply msg_count)). reflexivity.
Qed.

(* an array of two 32-bit integers and a double take 16 bytes, whatever the values; an unordered container 16, whatever its contents *)
Example C69_fixed_ex : fixed_size I64 I64 (TTuple [TCArr 2 (TInt I32 true); TFlt64]) = Some 16%nat /\
  has_type I64 (TTuple [TCArr 2 (TInt I32 true); TFlt64]) (VList [VList [VInt (-1); VInt 5]; VInt 7]) /\
  fixed_size I64 I64 (TUnord (TVec (TInt I8 false))) = Some 16%nat /\
  has_type I64 (TUnord (TVec (TInt I8 false))) (VList [VList [VInt 1; VInt 2]; VList []]).
Proof. split; [reflexivity|]. split; [repeat (constructor || cbn)|]; try lia. split; [reflexivity|]. repeat constructor; cbn; lia. Qed.

(* Recursive types.  A C++ class may contain ranges, optionals, ... of itself; the types of Types.v
   are finite.  The recursive type X = t[X], where t[-] is a type with holes, is represented by its
   unfoldings t[], t[t[]], t[t[t[]]], ...: every object of a recursive type has finite depth and
   is a value of all deep enough unfoldings.  Here: nothing depends on which one. *)
From Coq Require Import Permutation.
From Verif Require Import Base BaseFacts SpecCommon Types SpecAppend ProofMsg ProofMsgEq ProofMsgExt ProofAppend.
Open Scope N_scope.

(* the hole: a type without values *)
Definition hole : ty := TTag [].
Fixpoint fill (u t : ty) : ty :=
  match t with
  | TTag [] => u
  | TTag ts => TTag (map (fill u) ts)
  | TCArr n t => TCArr n (fill u t)
  | TVec t => TVec (fill u t)
  | TList c t => TList c (fill u t)
  | TArr n t => TArr n (fill u t)
  | TArrN n t => TArrN n (fill u t)
  | TUnord t => TUnord (fill u t)
  | TTuple ts => TTuple (map (fill u) ts)
  | TDesc bs ms => TDesc (map (fill u) bs) (map (fill u) ms)
  | TVar fst s ts => TVar fst s (map (fill u) ts)
  | TUser g ts => TUser g (map (fill u) ts)
  | TSpec c e n r t => TSpec c e n r (fill u t)
  | t => t
  end.
Fixpoint unfolding (t : ty) (n : nat) : ty :=
  match n with O => hole | S n => fill (unfolding t n) t end.

Lemma hole_empty psz v : ~ has_type psz hole v.
Proof. destruct v as [z|vs]; cbn; tauto. Qed.

Record same_val (psz : isz) (t1 t2 : ty) (v : val) : Prop := {
  sv_type : has_type psz t2 v;
  sv_msg : forall le ss a b q, msg le ss psz a b t1 v q = msg le ss psz a b t2 v q;
  sv_blen : blen t1 v = blen t2 v;
  sv_null : null_free t1 v -> null_free t2 v;
  sv_reg : forall ss, regular ss t1 v -> regular ss t2 v;
  sv_fl : forall P32 P64, all_floats P32 P64 t1 v -> all_floats P32 P64 t2 v;
  sv_eq : forall v', has_type psz t1 v' -> (equal t1 v v' <-> equal t2 v v') }.
(* the values of t1 are values of t2, and are treated the same *)
Definition sub (t1 t2 : ty) : Prop :=
  (user_defined t1 -> user_defined t2) /\ forall psz v, has_type psz t1 v -> same_val psz t1 t2 v.

Lemma sub_refl t : sub t t.
Proof. split; [auto|]. intros psz v H. constructor; auto; reflexivity. Qed.
Lemma sub_trans t1 t2 t3 : sub t1 t2 -> sub t2 t3 -> sub t1 t3.
Proof.
  intros [U1 H1] [U2 H2]. split; [auto|]. intros psz v H. pose proof (H1 psz v H) as S1. pose proof (H2 psz v (sv_type _ _ _ _ S1)) as S2.
  constructor.
  - apply S2.
  - intros. now rewrite (sv_msg _ _ _ _ S1), (sv_msg _ _ _ _ S2).
  - now rewrite (sv_blen _ _ _ _ S1), (sv_blen _ _ _ _ S2).
  - intros N. apply S2, S1, N.
  - intros ss N. apply S2, S1, N.
  - intros P32 P64 N. apply S2, S1, N.
  - intros v' H'. rewrite (sv_eq _ _ _ _ S1 v' H'). apply S2. apply H1, H'.
Qed.

(* lists of values *)
Section Lists.
Variables (t1 t2 : ty).
Hypothesis HS : sub t1 t2.
Variable psz : isz.
Lemma sl_type vs : Forall (has_type psz t1) vs -> Forall (has_type psz t2) vs.
Proof. apply Forall_impl. intros v H. apply HS, H. Qed.
Lemma sl_null vs : Forall (has_type psz t1) vs -> Forall (null_free t1) vs -> Forall (null_free t2) vs.
Proof. intros H N. rewrite Forall_forall in *. intros v Hv. apply (proj2 HS psz v (H v Hv)), N, Hv. Qed.
Lemma sl_reg ss vs : Forall (has_type psz t1) vs -> Forall (regular ss t1) vs -> Forall (regular ss t2) vs.
Proof. intros H N. rewrite Forall_forall in *. intros v Hv. apply (proj2 HS psz v (H v Hv)), N, Hv. Qed.
Lemma sl_fl P32 P64 vs : Forall (has_type psz t1) vs -> Forall (all_floats P32 P64 t1) vs -> Forall (all_floats P32 P64 t2) vs.
Proof. intros H N. rewrite Forall_forall in *. intros v Hv. apply (proj2 HS psz v (H v Hv)), N, Hv. Qed.
Lemma sl_blen vs : Forall (has_type psz t1) vs -> map (blen t1) vs = map (blen t2) vs.
Proof. induction 1 as [|v vs H _ IH]; [reflexivity|]. cbn [map]. rewrite IH. f_equal. apply (proj2 HS psz v H). Qed.
Lemma sl_blen' vs : Forall (has_type psz t1) vs -> map (fun v => 192 + blen t1 v)%nat vs = map (fun v => 192 + blen t2 v)%nat vs.
Proof. induction 1 as [|v vs H _ IH]; [reflexivity|]. cbn [map]. rewrite IH. do 2 f_equal. apply (proj2 HS psz v H). Qed.
Lemma sl_msg le ss a b vs : Forall (has_type psz t1) vs -> forall q, seq_msg (msg le ss psz a b t1) vs q = seq_msg (msg le ss psz a b t2) vs q.
Proof. induction 1 as [|v vs H _ IH]; intros q; [reflexivity|]. cbn [seq_msg]. rewrite (sv_msg _ _ _ _ (proj2 HS psz v H)). f_equal. apply IH. Qed.
Lemma sl_unord le ss a b q vs : Forall (has_type psz t1) vs ->
  map (fun v => q (msg le ss psz a b t1 v q)) vs = map (fun v => q (msg le ss psz a b t2 v q)) vs.
Proof. induction 1 as [|v vs H _ IH]; [reflexivity|]. cbn [map]. rewrite IH. do 2 f_equal. apply (proj2 HS psz v H). Qed.
Lemma sl_eq vs vs' : Forall (has_type psz t1) vs -> Forall (has_type psz t1) vs' ->
  (Forall2 (equal t1) vs vs' <-> Forall2 (equal t2) vs vs').
Proof.
  intros H. revert vs'. induction H as [|v vs H _ IH]; intros vs' H'; (split; intros E; inversion E; subst; constructor; inversion H'; subst);
    try (apply (proj2 HS psz v H); assumption); apply IH; assumption.
Qed.
Lemma permuted_types vs vs' : permuted vs vs' -> Forall (has_type psz t1) vs -> Forall (has_type psz t1) vs'.
Proof. intros P. apply permuted_Permutation in P. now apply Permutation_Forall. Qed.
Lemma sl_ueq vs vs' : Forall (has_type psz t1) vs -> Forall (has_type psz t1) vs' ->
  ((exists ws, permuted vs ws /\ Forall2 (equal t1) ws vs') <-> (exists ws, permuted vs ws /\ Forall2 (equal t2) ws vs')).
Proof.
  intros H H'. split; intros (ws & P & E); exists ws; (split; [exact P|]); apply (sl_eq ws vs'); try assumption;
    now apply (permuted_types vs).
Qed.
End Lists.

(* one value per type *)
Definition subs : list ty -> list ty -> Prop := Forall2 sub.
Section Tuples.
Variable psz : isz.
Lemma st_type ts1 ts2 : subs ts1 ts2 -> forall vs, Zip (has_type psz) ts1 vs -> Zip (has_type psz) ts2 vs.
Proof. induction 1 as [|t1 t2 ts1 ts2 H _ IH]; intros [|v vs] Z; cbn [Zip] in *; try easy. split; [apply H, Z|apply IH, Z]. Qed.
Lemma st_msg le ss a b ts1 ts2 : subs ts1 ts2 -> forall vs q, Zip (has_type psz) ts1 vs ->
  tup_msg le ss psz a b ts1 vs q = tup_msg le ss psz a b ts2 vs q.
Proof.
  induction 1 as [|t1 t2 ts1 ts2 H _ IH]; intros [|v vs] q Z; cbn [Zip tup_msg] in *; try easy.
  rewrite (sv_msg _ _ _ _ (proj2 H psz v (proj1 Z))). f_equal. apply IH, Z.
Qed.
Lemma st_blen ts1 ts2 : subs ts1 ts2 -> forall vs, Zip (has_type psz) ts1 vs -> tup_blen ts1 vs = tup_blen ts2 vs.
Proof.
  induction 1 as [|t1 t2 ts1 ts2 H _ IH]; intros [|v vs] Z; cbn [Zip tup_blen] in *; try easy.
  rewrite (sv_blen _ _ _ _ (proj2 H psz v (proj1 Z))). f_equal. apply IH, Z.
Qed.
Lemma st_w (P : ty -> val -> Prop) : (forall t1 t2 v, sub t1 t2 -> has_type psz t1 v -> P t1 v -> P t2 v) ->
  forall ts1 ts2, subs ts1 ts2 -> forall vs, Zip (has_type psz) ts1 vs -> ZipW P ts1 vs -> ZipW P ts2 vs.
Proof.
  intros HP ts1 ts2 HS. induction HS as [|t1 t2 ts1 ts2 H _ IH]; intros [|v vs] Z W; cbn [Zip ZipW] in *; try easy.
  split; [apply (HP t1 t2 v H); [apply Z|apply W]|apply IH; [apply Z|apply W]].
Qed.
Lemma st_eq ts1 ts2 : subs ts1 ts2 -> forall vs vs', Zip (has_type psz) ts1 vs -> Zip (has_type psz) ts1 vs' ->
  (Zip2 equal ts1 vs vs' <-> Zip2 equal ts2 vs vs').
Proof.
  induction 1 as [|t1 t2 ts1 ts2 H _ IH]; intros [|v vs] [|v' vs'] Z Z'; cbn [Zip Zip2] in *; try easy.
  rewrite (sv_eq _ _ _ _ (proj2 H psz v (proj1 Z)) v' (proj1 Z')). rewrite (IH vs vs' (proj2 Z) (proj2 Z')). reflexivity.
Qed.
End Tuples.

(* the chosen alternative *)
Lemma alt_subs ts1 ts2 n : subs ts1 ts2 ->
  (exists t1 t2, sub t1 t2 /\ forall (X : Type) (f : ty -> X) d, alt f d ts1 n = f t1 /\ alt f d ts2 n = f t2) \/
  (forall (X : Type) (f : ty -> X) d, alt f d ts1 n = d /\ alt f d ts2 n = d).
Proof.
  intros H. revert n. induction H as [|t1 t2 ts1 ts2 H _ IH]; intros [|n]; cbn [alt]; [right; auto|right; auto|left; eauto|apply IH].
Qed.
Lemma ucase_subs ts1 ts2 c : subs ts1 ts2 ->
  (exists n, c = KSize n) \/
  (exists t1 t2, sub t1 t2 /\ forall (X : Type) (z : Z -> X) f d, ucase z f d ts1 c = f t1 /\ ucase z f d ts2 c = f t2) \/
  (forall (X : Type) (z : Z -> X) f d, ucase z f d ts1 c = d /\ ucase z f d ts2 c = d).
Proof.
  intros H. destruct c as [k v|kd k vs|kd k vs|k vs|z]; [| | | |left; now exists z]; right; cbn [ucase];
    (destruct (alt_subs ts1 ts2 k H) as [(t1 & t2 & A & C)|C]; [left; exists t1, t2; auto|right; auto]).
Qed.
Ltac altsub H n t1 t2 HS HA1 HA2 :=
  destruct (alt_subs _ _ n H) as [(t1 & t2 & HS & HA)|HA];
  [pose proof (fun X f d => proj1 (HA X f d)) as HA1|pose proof (fun X f d => proj1 (HA X f d)) as HA1];
  pose proof (fun X f d => proj2 (HA X f d)) as HA2; clear HA.
Ltac usub H c n t1 t2 HS HA1 HA2 :=
  destruct (ucase_subs _ _ c H) as [(n & ->)|[(t1 & t2 & HS & HA)|HA]];
  [|pose proof (fun X z f d => proj1 (HA X z f d)) as HA1; pose proof (fun X z f d => proj2 (HA X z f d)) as HA2; clear HA
   |pose proof (fun X z f d => proj1 (HA X z f d)) as HA1; pose proof (fun X z f d => proj2 (HA X z f d)) as HA2; clear HA];
  rewrite ?HA1, ?HA2 in *; cbn [ucase] in *.

(* calls *)
Section Calls.
Variable psz : isz.
Section One.
Context {T : Type}.
Variables (t1 t2 : ty).
Hypothesis HS : sub t1 t2.
Lemma sf_type (k : call_ T) : form_ok k (has_type psz t1) -> form_ok k (has_type psz t2).
Proof. destruct k; cbn [form_ok]; auto; [apply HS|apply (sl_type t1 t2 HS)..]. Qed.
Lemma sf_msg (k : call_ T) le ss a b q : form_ok k (has_type psz t1) ->
  form_msg le ss k (msg le ss psz a b t1) q = form_msg le ss k (msg le ss psz a b t2) q.
Proof.
  destruct k; cbn [form_ok form_msg]; intros H; auto.
  - apply (proj2 HS psz v H).
  - now apply (sl_msg t1 t2 HS psz).
  - f_equal. now apply (sl_msg t1 t2 HS psz).
  - now rewrite (sl_unord t1 t2 HS psz).
Qed.
Lemma sf_blen (k : call_ T) : form_ok k (has_type psz t1) -> form_blen k (blen t1) = form_blen k (blen t2).
Proof.
  destruct k; cbn [form_ok form_blen]; intros H; auto.
  - apply (proj2 HS psz v H).
  - now rewrite (sl_blen t1 t2 HS psz).
  - now rewrite (sl_blen t1 t2 HS psz).
  - now rewrite (sl_blen' t1 t2 HS psz).
Qed.
Lemma sf_null (k : call_ T) : form_ok k (has_type psz t1) -> form_null k (null_free t1) -> form_null k (null_free t2).
Proof.
  destruct k as [t v|[|d] t vs|[|d] t vs|t vs|z]; cbn [form_ok form_null]; intros H; auto.
  - apply (proj2 HS psz v H).
  - intros [A B]. split; [exact A|]. now apply (sl_null t1 t2 HS psz).
  - now apply (sl_null t1 t2 HS psz).
  - intros [A B]. split; [exact A|]. now apply (sl_null t1 t2 HS psz).
  - now apply (sl_null t1 t2 HS psz).
  - now apply (sl_null t1 t2 HS psz).
Qed.
Lemma sf_reg (k : call_ T) ss : form_ok k (has_type psz t1) -> form_regular ss k (regular ss t1) -> form_regular ss k (regular ss t2).
Proof.
  destruct k; cbn [form_ok form_regular]; intros H; auto.
  - apply (proj2 HS psz v H).
  - now apply (sl_reg t1 t2 HS psz).
  - intros [A B]. split; [exact A|]. now apply (sl_reg t1 t2 HS psz).
  - intros [A B]. split; [exact A|]. now apply (sl_reg t1 t2 HS psz).
Qed.
Lemma sf_fl (k : call_ T) P32 P64 : form_ok k (has_type psz t1) -> form_ok k (all_floats P32 P64 t1) -> form_ok k (all_floats P32 P64 t2).
Proof.
  destruct k; cbn [form_ok]; intros H; auto; [apply (proj2 HS psz v H)|now apply (sl_fl t1 t2 HS psz)..].
Qed.
Lemma sf_eq (k k' : call_ T) : form_ok k (has_type psz t1) -> form_ok k' (has_type psz t1) ->
  (form_equal k k' (equal t1) <-> form_equal k k' (equal t2)).
Proof.
  destruct k, k'; cbn [form_ok form_equal]; intros H H'; try reflexivity; apply and_iff_compat_l.
  - apply (proj2 HS psz v H). exact H'.
  - now apply (sl_eq t1 t2 HS psz).
  - now apply (sl_eq t1 t2 HS psz).
  - now apply (sl_ueq t1 t2 HS psz).
Qed.
End One.
Variables (ts1 ts2 : list ty).
Hypothesis HS : subs ts1 ts2.
Lemma su_type cs : Forall (UOK psz ts1) cs -> Forall (UOK psz ts2) cs.
Proof.
  apply Forall_impl. intros c H. unfold UOK in *. usub HS c n t1 t2 HT HA1 HA2; [exact I| |contradiction]. now apply (sf_type t1 t2).
Qed.
Lemma su_msg le ss a b cs : Forall (UOK psz ts1) cs -> forall q,
  seq_msg (UMSG le ss psz a b ts1) cs q = seq_msg (UMSG le ss psz a b ts2) cs q.
Proof.
  induction 1 as [|c cs H _ IH]; intros q; [reflexivity|]. cbn [seq_msg].
  assert (E : UMSG le ss psz a b ts1 c q = UMSG le ss psz a b ts2 c q); [|rewrite E; f_equal; apply IH].
  clear IH. unfold UOK, UMSG in *. usub HS c n t1 t2 HT HA1 HA2; [reflexivity| |contradiction]. now apply sf_msg.
Qed.
Lemma su_blen cs : Forall (UOK psz ts1) cs -> map (UBLEN ts1) cs = map (UBLEN ts2) cs.
Proof.
  induction 1 as [|c cs H _ IH]; [reflexivity|]. cbn [map]. f_equal; [|exact IH].
  clear IH. unfold UOK, UBLEN in *. usub HS c n t1 t2 HT HA1 HA2; [reflexivity| |contradiction]. now apply sf_blen.
Qed.
Lemma su_null cs : Forall (UOK psz ts1) cs -> Forall (UNF ts1) cs -> Forall (UNF ts2) cs.
Proof.
  intros H N. rewrite Forall_forall in *. intros c Hc. specialize (H c Hc). specialize (N c Hc). clear Hc.
  unfold UOK, UNF in *. usub HS c n t1 t2 HT HA1 HA2; [exact I| |contradiction]. now apply (sf_null t1 t2).
Qed.
Lemma su_reg ss cs : Forall (UOK psz ts1) cs ->
  Forall (fun c => ucase (fun _ => True) (fun t => form_regular ss c (regular ss t)) True ts1 c) cs ->
  Forall (fun c => ucase (fun _ => True) (fun t => form_regular ss c (regular ss t)) True ts2 c) cs.
Proof.
  intros H N. rewrite Forall_forall in *. intros c Hc. specialize (H c Hc). specialize (N c Hc). clear Hc.
  unfold UOK in *. usub HS c n t1 t2 HT HA1 HA2; [exact I| |contradiction]. now apply (sf_reg t1 t2).
Qed.
Lemma su_fl P32 P64 cs : Forall (UOK psz ts1) cs -> Forall (UFL P32 P64 ts1) cs -> Forall (UFL P32 P64 ts2) cs.
Proof.
  intros H N. rewrite Forall_forall in *. intros c Hc. specialize (H c Hc). specialize (N c Hc). clear Hc.
  unfold UOK, UFL in *. usub HS c n t1 t2 HT HA1 HA2; [exact I| |contradiction]. now apply (sf_fl t1 t2).
Qed.
Lemma su_eq1 c c' : UOK psz ts1 c -> UOK psz ts1 c' -> (UEQ ts1 c c' <-> UEQ ts2 c c').
Proof.
  intros H H'. unfold UEQ. 
  destruct (ucase_subs _ _ c HS) as [(n & ->)|[(t1 & t2 & HT & HA)|HA]].
  - reflexivity.
  - rewrite (proj1 (HA _ _ _ _)), (proj2 (HA _ _ _ _)).
    assert (HF : form_equal c c' (equal t1) \/ form_equal c c' (equal t2) -> form_ok c' (has_type psz t1)).
    { intros HE. assert (HE' : exists E, form_equal c c' E) by (destruct HE; eauto). destruct HE' as [E HE'].
      unfold UOK in H'. destruct (form_equal_case c c' E HE') as [(n & -> & ->)|HX]; [exact I|].
      rewrite <- (HX Prop _ _ _ ts1) in H'. now rewrite (proj1 (HA _ _ _ _)) in H'. }
    unfold UOK in H. rewrite (proj1 (HA _ _ _ _)) in H.
    split; intros HE; (eapply (sf_eq t1 t2 HT); [exact H| |exact HE]); auto.
  - unfold UOK in H. rewrite (proj1 (HA _ _ _ _)) in H. contradiction.
Qed.
Lemma su_eq cs cs' : Forall (UOK psz ts1) cs -> Forall (UOK psz ts1) cs' -> (Forall2 (UEQ ts1) cs cs' <-> Forall2 (UEQ ts2) cs cs').
Proof.
  intros H. revert cs'. induction H as [|c cs H _ IH]; intros cs' H'; (split; intros E; inversion E; subst; constructor; inversion H'; subst);
    try (apply su_eq1; assumption); apply IH; assumption.
Qed.
End Calls.

(* the list of the filled types *)
Lemma subs_map u1 u2 ts : Forall (fun t => sub (fill u1 t) (fill u2 t)) ts -> subs (map (fill u1) ts) (map (fill u2) ts).
Proof. induction 1; constructor; auto. Qed.

Lemma regular_user ss g ts v : regular ss (TUser g ts) v <->
  Forall (fun c => ucase (fun _ => True) (fun t => form_regular ss c (regular ss t)) True ts c) (g v).
Proof. destruct v; reflexivity. Qed.

Lemma sub_tag ts1 ts2 : subs ts1 ts2 -> ts1 <> [] -> sub (TTag ts1) (TTag ts2).
Proof.
  intros HS HN. split; [auto|]. intros psz [z|vs] HV; [contradiction|]. rewrite has_type_tag in HV. destruct HV as [_ HV].
  constructor.
  - rewrite has_type_tag. split; [|now apply (st_type psz ts1)]. inversion HS; subst; [easy|discriminate].
  - intros. rewrite !msg_tag. now apply st_msg.
  - rewrite !blen_tag. now rewrite (st_blen psz ts1 ts2 HS vs HV).
  - intros N. apply (proj1 (null_free_tuple ts1 vs)) in N. apply (proj2 (null_free_tuple ts2 vs)).
    revert N. apply (st_w psz); auto. intros t1 t2 v H T. apply (proj2 H psz v T).
  - intros ss N. apply (proj1 (regular_tuple ss ts1 vs)) in N. apply (proj2 (regular_tuple ss ts2 vs)).
    revert N. apply (st_w psz); auto. intros t1 t2 v H T. apply (proj2 H psz v T).
  - intros P32 P64 N. apply (proj1 (floats_tuple P32 P64 ts1 vs)) in N. apply (proj2 (floats_tuple P32 P64 ts2 vs)).
    revert N. apply (st_w psz); auto. intros t1 t2 v H T. apply (proj2 H psz v T).
  - intros [z|vs'] HV'; [contradiction|]. rewrite has_type_tag in HV'. rewrite !equal_tag. now apply (st_eq psz).
Qed.
Lemma map_nil_iff {X Y} (f : X -> Y) l : map f l = [] <-> l = []. Proof. destruct l; cbn; split; easy. Qed.

Theorem sub_fill u1 u2 t : sub u1 u2 -> sub (fill u1 t) (fill u2 t).
Proof.
  intros HU. induction t using ty_rect'; try apply sub_refl; cbn [fill].
  - (* C array *) split; [auto|]. intros psz [z|vs] HV; [contradiction|]. destruct HV as (H1 & H2 & HV). constructor.
    + split; [exact H1|]. split; [exact H2|]. now apply (sl_type _ _ IHt).
    + intros. now apply (sl_msg _ _ IHt psz).
    + cbn [blen]. now rewrite (sl_blen _ _ IHt psz vs HV).
    + now apply (sl_null _ _ IHt psz).
    + intros ss. now apply (sl_reg _ _ IHt psz).
    + intros P32 P64. now apply (sl_fl _ _ IHt psz).
    + intros [z|vs'] HV'; [contradiction|]. apply (sl_eq _ _ IHt psz); [exact HV|apply HV'].
  - (* vector *) split; [auto|]. intros psz [z|vs] HV; [contradiction|]. constructor.
    + now apply (sl_type _ _ IHt).
    + intros. cbn [msg]. f_equal. now apply (sl_msg _ _ IHt psz).
    + cbn [blen]. now rewrite (sl_blen _ _ IHt psz vs HV).
    + intros [N1 N2]. split; [exact N1|]. now apply (sl_null _ _ IHt psz).
    + intros ss [N1 N2]. split; [exact N1|]. now apply (sl_reg _ _ IHt psz).
    + intros P32 P64. now apply (sl_fl _ _ IHt psz).
    + intros [z|vs'] HV'; [contradiction|]. apply (sl_eq _ _ IHt psz); [exact HV|apply HV'].
  - (* list *) split; [auto|]. intros psz [z|vs] HV; [contradiction|]. constructor.
    + now apply (sl_type _ _ IHt).
    + intros. cbn [msg]. f_equal. now apply (sl_msg _ _ IHt psz).
    + cbn [blen]. now rewrite (sl_blen _ _ IHt psz vs HV).
    + now apply (sl_null _ _ IHt psz).
    + intros ss [N1 N2]. split; [exact N1|]. now apply (sl_reg _ _ IHt psz).
    + intros P32 P64. now apply (sl_fl _ _ IHt psz).
    + intros [z|vs'] HV'; [contradiction|]. apply (sl_eq _ _ IHt psz); [exact HV|apply HV'].
  - (* array *) split; [auto|]. intros psz [z|vs] HV; [contradiction|]. destruct HV as (H2 & HV). constructor.
    + split; [exact H2|]. now apply (sl_type _ _ IHt).
    + intros. destruct vs as [|v vs]; [reflexivity|]. apply (sl_msg _ _ IHt psz le ss a b (v :: vs) HV q).
    + cbn [blen]. now rewrite (sl_blen _ _ IHt psz vs HV).
    + now apply (sl_null _ _ IHt psz).
    + intros ss. now apply (sl_reg _ _ IHt psz).
    + intros P32 P64. now apply (sl_fl _ _ IHt psz).
    + intros [z|vs'] HV'; [contradiction|]. apply (sl_eq _ _ IHt psz); [exact HV|apply HV'].
  - split; [auto|]. intros psz [z|vs] HV; [contradiction|]. destruct HV as (H2 & HV). constructor.
    + split; [exact H2|]. now apply (sl_type _ _ IHt).
    + intros. destruct vs as [|v vs]; [reflexivity|]. apply (sl_msg _ _ IHt psz le ss a b (v :: vs) HV q).
    + cbn [blen]. now rewrite (sl_blen _ _ IHt psz vs HV).
    + now apply (sl_null _ _ IHt psz).
    + intros ss. now apply (sl_reg _ _ IHt psz).
    + intros P32 P64. now apply (sl_fl _ _ IHt psz).
    + intros [z|vs'] HV'; [contradiction|]. apply (sl_eq _ _ IHt psz); [exact HV|apply HV'].
  - (* unordered *) split; [auto|]. intros psz [z|vs] HV; [contradiction|]. constructor.
    + now apply (sl_type _ _ IHt).
    + intros. cbn [msg]. now rewrite (sl_unord _ _ IHt psz).
    + cbn [blen]. now rewrite (sl_blen' _ _ IHt psz vs HV).
    + now apply (sl_null _ _ IHt psz).
    + intros ss [N1 N2]. split; [exact N1|]. now apply (sl_reg _ _ IHt psz).
    + intros P32 P64. now apply (sl_fl _ _ IHt psz).
    + intros [z|vs'] HV'; [contradiction|]. apply (sl_ueq _ _ IHt psz); [exact HV|apply HV'].
  - (* tuple *) apply subs_map in H. split; [auto|]. intros psz [z|vs] HV; [contradiction|]. rewrite has_type_tuple in HV. constructor.
    + rewrite has_type_tuple. now apply (st_type psz _ _ H).
    + intros. destruct ts as [|t ts]; [reflexivity|]. rewrite !msg_tuple by discriminate. now apply (st_msg psz).
    + rewrite !blen_tuple. now rewrite (st_blen psz _ _ H vs HV).
    + rewrite !null_free_tuple. apply (st_w psz); auto. intros t1 t2 v HS T. apply (proj2 HS psz v T).
    + intros ss. rewrite !regular_tuple. apply (st_w psz); auto. intros t1 t2 v HS T. apply (proj2 HS psz v T).
    + intros P32 P64. rewrite !floats_tuple. apply (st_w psz); auto. intros t1 t2 v HS T. apply (proj2 HS psz v T).
    + intros [z|vs'] HV'; [contradiction|]. rewrite has_type_tuple in HV'. rewrite !equal_tuple. now apply (st_eq psz).
  - (* described *) apply subs_map in H. apply subs_map in H0. split; [auto|].
    intros psz [z|vs] HV; [contradiction|]. destruct vs as [|[z|bv] [|[z2|mv] [|? ?]]]; try easy.
    rewrite has_type_desc in HV. destruct HV as [HB HM].
    assert (HW : forall P : ty -> val -> Prop, (forall t1 t2 v, sub t1 t2 -> has_type psz t1 v -> P t1 v -> P t2 v) ->
      ZipW P (map (fill u1) bs) bv /\ ZipW P (map (fill u1) ms) mv -> ZipW P (map (fill u2) bs) bv /\ ZipW P (map (fill u2) ms) mv).
    { intros P HP [W1 W2]. split; [apply (st_w psz P HP _ _ H bv HB W1)|apply (st_w psz P HP _ _ H0 mv HM W2)]. }
    constructor.
    + rewrite has_type_desc. split; [now apply (st_type psz _ _ H)|now apply (st_type psz _ _ H0)].
    + intros.
      assert (HD : (bs = [] /\ ms = []) \/ (bs <> [] \/ ms <> [])).
      { destruct bs; [destruct ms|]; [now left|right; right; discriminate|right; left; discriminate]. }
      destruct HD as [[-> ->]|HD]; [reflexivity|].
      rewrite !msg_desc by (rewrite !map_nil_iff; exact HD).
      rewrite (st_msg psz le ss a b _ _ H bv q HB). f_equal. now apply (st_msg psz).
    + rewrite !blen_desc. now rewrite (st_blen psz _ _ H bv HB), (st_blen psz _ _ H0 mv HM).
    + rewrite !null_free_desc. apply HW. intros t1 t2 v HS T. apply (proj2 HS psz v T).
    + intros ss. rewrite !regular_desc. apply HW. intros t1 t2 v HS T. apply (proj2 HS psz v T).
    + intros P32 P64. rewrite !floats_desc. apply HW. intros t1 t2 v HS T. apply (proj2 HS psz v T).
    + intros [z|vs'] HV'; [contradiction|]. destruct vs' as [|[z|bv'] [|[z2|mv'] [|? ?]]]; try easy.
      rewrite has_type_desc in HV'. destruct HV' as [HB' HM']. rewrite !equal_desc.
      rewrite (st_eq psz _ _ H bv bv' HB HB'), (st_eq psz _ _ H0 mv mv' HM HM'). reflexivity.
  - (* tag_invoke *) destruct ts as [|t ts]; [exact HU|]. apply sub_tag; [|discriminate]. now apply subs_map in H.
  - (* variant *) apply subs_map in H. split; [auto|]. intros psz [z|vs] HV; [contradiction|].
    destruct vs as [|[k|?] [|v [|? ?]]]; try easy. destruct HV as [HI HV].
    altsub H (Z.to_nat k) t1 t2 HS HA1 HA2; rewrite HA1 in HV; [|contradiction]. pose proof (proj2 HS psz v HV) as HX.
    constructor.
    + split; [exact HI|]. rewrite HA2. apply HX.
    + intros. destruct lead; cbn [msg]; rewrite HA1, HA2; f_equal; apply HX.
    + cbn [blen]. rewrite HA1, HA2. f_equal. apply HX.
    + cbn [null_free]. rewrite HA1, HA2. apply HX.
    + intros ss. cbn [regular]. rewrite HA1, HA2. apply HX.
    + intros P32 P64. cbn [all_floats]. rewrite HA1, HA2. apply HX.
    + intros [z|vs'] HV'; [contradiction|]. destruct vs' as [|[k'|?] [|v' [|? ?]]]; try easy. destruct HV' as [_ HV'].
      cbn [equal]. rewrite HA1, HA2. split; intros [<- HE]; (split; [reflexivity|]); rewrite HA1 in HV'; now apply (sv_eq _ _ _ _ HX).
  - (* any other tag_invoke *) apply subs_map in H. split; [auto|]. intros psz v HV. rewrite has_type_user in HV. destruct HV as [HE HV].
    constructor.
    + rewrite has_type_user. split; [exact HE|]. now apply (su_type psz _ _ H).
    + intros. rewrite !msg_user. now apply (su_msg psz).
    + rewrite !blen_user. now rewrite (su_blen psz _ _ H _ HV).
    + rewrite !null_free_user. now apply (su_null psz).
    + intros ss. rewrite !regular_user. now apply (su_reg psz).
    + intros P32 P64. rewrite !floats_user. now apply (su_fl psz).
    + intros v' HV'. rewrite has_type_user in HV'. rewrite !equal_user. apply (su_eq psz _ _ H); [exact HV|apply HV'].
  - (* specialised traits *) split; [auto|]. intros psz v HV. assert (HV0 : user_defined (fill u1 t) /\ has_type psz (fill u1 t) v /\ spec_ok psz c e n r (fill u1 t) v) by (destruct v; exact HV).
    destruct HV0 as (V1 & V2 & V3). pose proof (proj2 IHt psz v V2) as HX.
    assert (HT : user_defined (fill u2 t) /\ has_type psz (fill u2 t) v /\ spec_ok psz c e n r (fill u2 t) v).
    { split; [now apply IHt|]. split; [apply HX|]. intros E. destruct (V3 E) as [A B]. split; [|exact B].
      intros le. destruct (A le) as [A1 A2]. split; [exact A1|]. intros. rewrite <- (sv_msg _ _ _ _ HX). apply A2. }
    constructor.
    + destruct v; exact HT.
    + intros. destruct v; apply HX.
    + destruct v; apply HX.
    + destruct v; apply HX.
    + intros ss. destruct v; apply HX.
    + intros P32 P64. destruct v; apply HX.
    + intros v' HV'. assert (HV2 : has_type psz (fill u1 t) v') by (destruct v'; apply HV'). 
      destruct v, v'; apply HX; exact HV2.
Qed.

Lemma user_fill u t : t <> hole -> user_defined t -> user_defined (fill u t).
Proof. destruct t; cbn; try easy. destruct ts; easy. Qed.
Lemma unfolding_S t n : user_defined t -> sub (unfolding t n) (unfolding t (S n)).
Proof.
  intros HU. induction n as [|n IH].
  - split; [|intros psz v H; now apply hole_empty in H]. intros _. cbn [unfolding].
    destruct t; try easy. destruct ts; easy.
  - cbn [unfolding]. apply sub_fill. exact IH.
Qed.
Theorem unfolding_le t n m : user_defined t -> (n <= m)%nat -> sub (unfolding t n) (unfolding t m).
Proof.
  intros HU H. induction H as [|m _ IH]; [apply sub_refl|]. eapply sub_trans; [exact IH|]. now apply unfolding_S.
Qed.

(* decodability, order *)
Lemma decodable_fill u t : decodable u -> decodable t -> decodable (fill u t).
Proof.
  assert (HT : forall ts, Forall (fun t => decodable t -> decodable (fill u t)) ts -> decodable (TTuple ts) -> decodable (TTuple (map (fill u) ts))).
  { intros ts H. rewrite !decodable_tuple. intros HD. rewrite Forall_map. rewrite Forall_forall in *. auto. }
  intros HU. induction t using ty_rect'; intros HD; cbn [fill]; try exact I; try exact (IHt HD); try contradiction.
  - exact (HT ts H HD).
  - destruct HD as [D1 D2]. split; [exact (HT bs H D1)|exact (HT ms H0 D2)].
  - destruct ts as [|t ts]; [exact HU|]. exact (HT (t :: ts) H HD).
  - destruct HD as [D1 D2]. split; [exact D1|exact (HT ts H D2)].
Qed.
Lemma unfolding_decodable t n : decodable t -> decodable (unfolding t n).
Proof. intros HD. induction n as [|n IH]; [exact I|]. now apply decodable_fill. Qed.

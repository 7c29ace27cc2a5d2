(* ModelThrowBoth.v with operations of users that do not throw is ModelThrowAlg.v; with an algorithm that does not throw it is ModelThrow.v. *)
From Verif Require Import Base BaseFacts SpecCommon Hasher Types ModelResult ModelAppend SpecAppend ProofMsg ProofMsgEq ProofAppend PropsCalls PropsUpdates ModelThrow ProofThrow ModelThrowAlg ProofThrowAlg1 ModelThrowBoth ProofThrowBoth1.
Open Scope N_scope.

Lemma alt_ext {X} (P : ty -> Prop) (F G : ty -> X) d ts n : Forall P ts -> (forall t, P t -> F t = G t) -> alt F d ts n = alt G d ts n.
Proof. intros H E. revert n. induction H as [|t ts Ht _ IH]; intros [|n]; cbn [alt]; auto. Qed.
Lemma ucase_ext {X} (S1 S2 : Z -> X) (F G : ty -> X) d ts (c : call_ nat) : (forall z, S1 z = S2 z) -> Forall (fun t => F t = G t) ts -> ucase S1 F d ts c = ucase S2 G d ts c.
Proof. intros ES EF. unfold ucase. destruct c; try apply ES; apply (alt_ext (fun t => F t = G t)); auto. Qed.

Section AlgOnly.
Variable T : thrower.
Variable uop : t_W T -> user_op -> t_W T * bool.
Hypothesis HU : forall w o, uop w o = (w, false).
Variable gir : t_R T -> res N.
Variable i : impl.
Variable f : flavor.
Notation BA := (bha T uop gir i f).
Notation EA := (eha T gir i f).
Lemma quiet p o w st : buser T uop p o w st = edone T w st.
Proof. unfold buser. rewrite HU. now destruct p. Qed.
Lemma quiet_pre p o w st k : ebind T (buser T uop p o w st) k = k w st.
Proof. now rewrite quiet. Qed.
Lemma quiet_post p o r : ebind T r (fun w st => buser T uop p o w st) = r.
Proof. rewrite <- (ebind_done T r) at 2. apply ebind_ext. intros w st. apply quiet. Qed.
Definition PA (t : ty) : Prop := forall v w st, BA t v w st = EA t v w st.
Lemma alg_loop {X} p (F G : X -> t_W T -> t_S T -> eout T) vs : (forall v w st, F v w st = G v w st) -> forall w st, bloop T uop p F vs w st = eloop T G vs w st.
Proof.
  intros E. induction vs as [|v vs IH]; intros w st; cbn [bloop eloop]; [apply quiet|]. rewrite !quiet_pre, E. apply ebind_ext. intros w1 s1. rewrite quiet_pre. apply IH.
Qed.
Lemma alg_calls {X} (F G : X -> t_W T -> t_S T -> eout T) vs : (forall v w st, F v w st = G v w st) -> forall w st, bcalls T uop F vs w st = eloop T G vs w st.
Proof.
  intros E. induction vs as [|v vs IH]; intros w st; cbn [bcalls eloop]; [apply quiet|]. rewrite quiet_pre, E. apply ebind_ext. intros w1 s1. apply IH.
Qed.
Lemma alg_ptr t vs w st : PA t -> bptr_range T uop i f t (BA t) vs w st = eptr_range T i f t (EA t) vs w st.
Proof. intros HP. unfold bptr_range, eptr_range. rewrite (alg_loop false (BA t) (EA t) vs HP). reflexivity. Qed.
Lemma alg_unord F G vs : (forall v w st, F v w st = G v w st) -> forall w st x m, bunord T uop gir F w st vs x m = eunord T gir G w st vs x m.
Proof.
  intros E. induction vs as [|v vs IH]; intros w st x m; cbn [bunord eunord]; rewrite HU; [reflexivity|].
  destruct (t_copy T w st) as [[w1 [h2|]]| | | ]; cbn [bind]; auto. rewrite quiet_pre, E. destruct (G v w1 h2) as [[[w2 s2] [|]]| | | ]; cbn [bind]; auto.
  destruct (t_result T w2 s2) as [[w3 [r|]]| | | ]; cbn [bind]; auto. destruct (gir r); cbn [bind]; auto. rewrite HU. apply IH.
Qed.
Lemma alg_unord_range t vs w st : PA t -> bunord_range T uop gir i f (BA t) vs w st = eunord_range T gir i f (EA t) vs w st.
Proof. intros HP. unfold bunord_range, eunord_range. now rewrite (alg_unord (BA t) (EA t) vs HP). Qed.
Lemma alg_each p ts : Forall PA ts -> forall vs w st, beach T uop gir i f p ts vs w st = eeach i f T gir ts vs w st.
Proof.
  induction 1 as [|t ts Ht _ IH]; intros [|v vs] w st; cbn [beach eeach]; try reflexivity.
  destruct p; [rewrite quiet_pre|change (ebind T (edone T w st) ?k) with (k w st); cbv beta]; rewrite Ht; apply ebind_ext; intros; apply IH.
Qed.
Lemma alg_form {X} (k : call_ X) t w st : PA t -> bform T uop gir i f k t (BA t) w st = eform T gir i f k t (EA t) w st.
Proof.
  intros HP. destruct k as [t' v|[|c] t' vs|[|c] t' vs|t' vs|z]; cbn [bform eform].
  - apply HP.
  - now apply alg_ptr.
  - now apply alg_loop.
  - now rewrite alg_ptr.
  - rewrite (alg_loop true (BA t) (EA t) vs HP). apply ebind_ext. intros w1 s1. apply quiet_pre.
  - now apply alg_unord_range.
  - reflexivity.
Qed.
Theorem alg_only t : PA t.
Proof.
  induction t using ty_rect'; intros v w st.
  all: destruct v as [z|vs]; try reflexivity.
  - cbn [bha eha]. now rewrite alg_ptr.
  - cbn [bha eha]. now rewrite quiet_pre, alg_ptr.
  - cbn [bha eha]. rewrite quiet_pre, (alg_loop true (BA t) (EA t) vs IHt). rewrite (ebind_ext T _ _ (fun w st => esize T i f (length vs) w st)); [reflexivity|]. intros w1 s1. apply quiet_pre.
  - cbn [bha eha]. now rewrite quiet_pre, alg_ptr.
  - cbn [bha eha]. now rewrite quiet_pre, (alg_loop true (BA t) (EA t) vs IHt).
  - cbn [bha eha]. now rewrite quiet_pre, alg_unord_range.
  - destruct ts as [|t ts]; [reflexivity|]. rewrite bha_tuple, eha_tuple by discriminate. now apply alg_each.
  - destruct vs as [|[z|bv] [|[z2|mv] [|? ?]]]; try reflexivity. rewrite bha_desc, eha_desc. rewrite (alg_each None bs H). apply ebind_ext. intros w1 s1. now rewrite (alg_each None ms H0).
  - rewrite bha_tag, eha_tag, quiet_post. now apply alg_each.
  - destruct vs as [|[k|?] [|v [|? ?]]]; try (destruct lead; reflexivity).
    assert (HA : forall w st, alt (fun t => BA t v w st) UB ts (Z.to_nat k) = alt (fun t => EA t v w st) UB ts (Z.to_nat k)) by (intros; apply (alt_ext PA); auto).
    cbn [bha eha]. destruct lead; rewrite quiet_pre.
    + rewrite (ebind_ext T _ _ (fun w st => alt (fun t => EA t v w st) UB ts (Z.to_nat k))); [reflexivity|]. intros w1 s1. now rewrite quiet_pre, quiet_post.
    + rewrite HA. rewrite (ebind_ext T _ _ (fun w st => eint T i f s k w st)); [reflexivity|]. intros w1 s1. now rewrite quiet_pre, quiet_post.
  - cbn [bha eha]. rewrite (alg_calls _ (fun c w st => ucase (fun z => esize_of T i f z w st) (fun t => eform T gir i f c t (EA t) w st) UB ts c)); [reflexivity|].
    intros c w1 s1. apply ucase_ext; [reflexivity|]. eapply Forall_impl; [|exact H]. intros t Ht. now apply alg_form.
  - cbn [bha eha]. rewrite (alg_calls _ (fun c w st => ucase (fun z => esize_of T i f z w st) (fun t => eform T gir i f c t (EA t) w st) UB ts c)); [reflexivity|].
    intros c w1 s1. apply ucase_ext; [reflexivity|]. eapply Forall_impl; [|exact H]. intros t Ht. now apply alg_form.
  - cbn [bha eha]. now rewrite IHt.
  - cbn [bha eha]. now rewrite IHt.
Qed.
Theorem alg_only_call k w st : bha_call T uop gir i f k w st = eha_call T gir i f k w st.
Proof. destruct k; cbn [bha_call eha_call]; try reflexivity; apply alg_form, alg_only. Qed.
End AlgOnly.

(* the world counts the operations of users that are still to succeed; the algorithm never throws *)
Definition countdown (n : nat) (o : user_op) : nat * bool := match n with O => (O, true) | S n => (n, false) end.
Definition no_throw (n : nat) (x : event) : nat * bool := (n, false).
Section UserOnly.
Variable h : hasher.
Variable gir : h_R h -> res N.
Variable i : impl.
Variable f : flavor.
Notation T := (guarded h nat no_throw).
Notation BA := (bha T countdown gir i f).
Notation XA := (xha h gir i f).
Notation BU := (buser T countdown).
(* the outcome in ModelThrow.v *)
Definition seen (r : eout T) : out h := x <- r ;; match x with (n, st, b) => Ok (st, if b : bool then None else Some n) end.
Lemma seen_bind r k : seen (ebind T r k) = xbind h (seen r) (fun st n => seen (k n st)).
Proof. destruct r as [[[n st] [|]]| | | ]; reflexivity. Qed.
Lemma xbind_ext (r : out h) k1 k2 : (forall st n, k1 st n = k2 st n) -> xbind h r k1 = xbind h r k2.
Proof. intros E. destruct r as [[st [n|]]| | | ]; cbn [xbind bind]; auto. Qed.
Lemma seen_pre o n st k : seen (ebind T (BU true o n st) k) = may_throw h n st (fun n => seen (k n st)).
Proof. destruct n; reflexivity. Qed.
Lemma seen_pre_if p o n st k : seen (ebind T (BU p o n st) k) = may_throw_if h p n st (fun n => seen (k n st)).
Proof. destruct p; [apply seen_pre|reflexivity]. Qed.
Lemma seen_user p o n st : seen (BU p o n st) = may_throw_if h p n st (done h st).
Proof. destruct p; [destruct n; reflexivity|reflexivity]. Qed.
Lemma may_ext n st k1 k2 : (forall n, k1 n = k2 n) -> may_throw h n st k1 = may_throw h n st k2.
Proof. intros E. destruct n; cbn [may_throw]; auto. Qed.
Lemma may_if_ext p n st k1 k2 : (forall n, k1 n = k2 n) -> may_throw_if h p n st k1 = may_throw_if h p n st k2.
Proof. intros E. destruct p; [now apply may_ext|apply E]. Qed.
Lemma seen_update n st p k : seen (t_update T n st p k) = run h (h_update h st p k) n.
Proof. cbn [t_update guarded no_throw]. destruct (h_update h st p k); reflexivity. Qed.
Lemma seen_int s z n st : seen (eint T i f s z n st) = run h (ha_int h i f s z st) n.
Proof. rewrite int_update, seen_update, int_call. reflexivity. Qed.
Lemma seen_size_of z n st : seen (esize_of T i f z n st) = run h (ha_size_of h i f z st) n.
Proof. apply seen_int. Qed.
Lemma seen_size k n st : seen (esize T i f k n st) = run h (ha_size h i f k st) n.
Proof. apply seen_int. Qed.
Definition PU (t : ty) : Prop := forall v n st, seen (BA t v n st) = XA t v n st.
Lemma user_loop {X} p (F : X -> nat -> h_S h -> eout T) (G : X -> nat -> h_S h -> out h) vs : (forall v n st, seen (F v n st) = G v n st) ->
  forall n st, seen (bloop T countdown p F vs n st) = xloop h p G vs n st.
Proof.
  intros E. induction vs as [|v vs IH]; intros n st; cbn [bloop xloop]; [apply seen_user|].
  rewrite seen_pre_if. apply may_if_ext. intros n1. rewrite seen_pre_if. apply may_if_ext. intros n2. rewrite seen_bind, E. apply xbind_ext. intros s1 n3.
  rewrite seen_pre_if. apply may_if_ext. intros n4. apply IH.
Qed.
Lemma user_calls {X} (F : X -> nat -> h_S h -> eout T) (G : X -> nat -> h_S h -> out h) vs : (forall v n st, seen (F v n st) = G v n st) ->
  forall n st, seen (bcalls T countdown F vs n st) = xcalls h G vs n st.
Proof.
  intros E. induction vs as [|v vs IH]; intros n st; cbn [bcalls xcalls]; [apply (seen_user true)|].
  rewrite seen_pre. apply may_ext. intros n1. rewrite seen_bind, E. apply xbind_ext. intros s1 n3. apply IH.
Qed.
Lemma user_ptr t vs n st : PU t -> seen (bptr_range T countdown i f t (BA t) vs n st) = xptr_range h i f t (XA t) vs n st.
Proof.
  intros HP. unfold bptr_range, xptr_range. pose proof (user_loop false (BA t) (XA t) vs HP n st) as HL.
  assert (HG : seen (if contiguously_hashable i f t
      then if negb (p_cx (im_pf i)) then t_update T n st (data_ptr i vs (flat_map (obj i t) vs)) (length vs * size_of i t) else bloop T countdown false (BA t) vs n st
      else bloop T countdown false (BA t) vs n st) =
    (if contiguously_hashable i f t
      then if negb (p_cx (im_pf i)) then run h (h_update h st (data_ptr i vs (flat_map (obj i t) vs)) (length vs * size_of i t)) n else xloop h false (XA t) vs n st
      else xloop h false (XA t) vs n st)).
  { destruct (contiguously_hashable i f t); [|exact HL]. destruct (negb (p_cx (im_pf i))); [|exact HL]. apply seen_update. }
  destruct t as [s0 sg| | | | | | | | | | | | | | | | | |]; try exact HG. destruct s0; try exact HG. destruct sg; try exact HG. apply seen_update.
Qed.
Lemma user_unord F G vs : (forall v n st, seen (F v n st) = G v n st) -> forall n st x m,
  (o <- bunord T countdown gir F n st vs x m ;; match o with (_, None) => Ok None | (n, Some (x, m)) => Ok (Some (x, m, n)) end) = xunord h gir G st vs x m n.
Proof.
  intros E. induction vs as [|v vs IH]; intros n st x m; cbn [bunord xunord]; [destruct n; reflexivity|].
  destruct n as [|n]; [reflexivity|]. cbn [countdown]. cbn [t_copy guarded no_throw bind]. destruct n as [|n]; [reflexivity|].
  change (ebind T (BU true ODeref (S n) st) (F v)) with (F v n st). specialize (E v n st). unfold seen in E. cbn [bind ebind buser countdown fst snd].
  destruct (G v n st) as [[s2 [n2|]]| | | ]; destruct (F v n st) as [[[w2 s2'] [|]]| | | ]; cbn [bind] in *; try discriminate; try (injection E as <- <- || injection E as <-); try reflexivity.
  cbn [t_result guarded no_throw]. destruct (h_result h s2') as [[r s3]| | | ]; cbn [bind fst]; try reflexivity. destruct (gir r); cbn [bind]; try reflexivity.
  destruct w2 as [|w2]; [reflexivity|]. cbn [countdown]. apply IH.
Qed.
Lemma user_unord_range t vs n st : PU t -> seen (bunord_range T countdown gir i f (BA t) vs n st) = xunord_range h gir i f (XA t) vs n st.
Proof.
  intros HP. unfold bunord_range, xunord_range. rewrite <- (user_unord (BA t) (XA t) vs HP n st).
  destruct (bunord T countdown gir (BA t) n st vs 0 0) as [[n1 [[x m]|]]| | | ]; cbn [bind]; try reflexivity.
  rewrite seen_bind, seen_int. unfold run. destruct (ha_int h i f I64 (Z.of_N x) st) as [s1| | | ]; cbn [bind xbind]; try reflexivity. apply seen_size.
Qed.
Definition pflag (p : option user_op) : bool := match p with Some _ => true | None => false end.
Lemma user_each p ts : Forall PU ts -> forall vs n st, seen (beach T countdown gir i f p ts vs n st) = xeach i f h gir (pflag p) ts vs n st.
Proof.
  induction 1 as [|t ts Ht _ IH]; intros [|v vs] n st; cbn [beach xeach]; try reflexivity.
  destruct p as [o|]; cbn [pflag may_throw_if] in *.
  - rewrite seen_pre. apply may_ext. intros n1. rewrite seen_bind, Ht. apply xbind_ext. intros s1 n2. apply IH.
  - change (ebind T (edone T n st) ?k) with (k n st). cbv beta. rewrite seen_bind, Ht. apply xbind_ext. intros s1 n2. apply IH.
Qed.
Lemma user_form {X} (k : call_ X) t n st : PU t -> seen (bform T countdown gir i f k t (BA t) n st) = xform h gir i f k t (XA t) n st.
Proof.
  intros HP. destruct k as [t' v|[|c] t' vs|[|c] t' vs|t' vs|z]; cbn [bform xform].
  - apply HP.
  - now apply user_ptr.
  - now apply user_loop.
  - rewrite seen_bind, user_ptr by assumption. apply xbind_ext. intros s1 n1. apply seen_size.
  - destruct c; rewrite seen_bind, (user_loop true (BA t) (XA t) vs HP); apply xbind_ext; intros s1 n1; [apply seen_size|].
    rewrite seen_pre. apply may_ext. intros n2. apply seen_size.
  - now apply user_unord_range.
  - apply seen_size_of.
Qed.
Lemma user_case ts (c : call_ nat) n st : Forall PU ts -> forall (F : ty -> eout T) (G : ty -> out h) , (forall t, PU t -> seen (F t) = G t) ->
  seen (ucase (fun z => esize_of T i f z n st) F UB ts c) = ucase (fun z => run h (ha_size_of h i f z st) n) G UB ts c.
Proof.
  intros HF F G E. unfold ucase. destruct c; try apply seen_size_of; match goal with |- seen (alt F UB ts ?j) = _ => generalize j end; clear - HF E;
    (induction HF as [|t ts Ht _ IH]; intros [|j]; cbn [alt]; [reflexivity|reflexivity|now apply E|apply IH]).
Qed.
Ltac leaf := cbn [bha xha]; match goal with |- seen (if ?b then _ else _) = _ => destruct b end; first [apply seen_update | apply seen_int | reflexivity].
Theorem user_only t : PU t.
Proof.
  induction t using ty_rect'; intros v m st.
  all: destruct v as [z|vs].
  all: try solve [leaf].
  - cbn [bha xha]. match goal with |- seen (if ?b then _ else _) = _ => destruct b end; [apply seen_update|]. now apply user_ptr.
  - cbn [bha xha]. match goal with |- seen (if ?b then _ else _) = _ => destruct b end; [apply seen_update|].
    rewrite seen_pre. apply may_ext. intros n1. rewrite seen_bind, user_ptr by assumption. apply xbind_ext. intros s1 n2. apply seen_size.
  - destruct c; leaf.
  - destruct c; cbn [bha xha]; (match goal with |- seen (if ?b then _ else _) = _ => destruct b end; [apply seen_update|]);
      rewrite seen_pre; apply may_ext; intros n1; rewrite seen_bind, (user_loop true (BA t) (XA t) vs IHt); apply xbind_ext; intros s1 n2; [apply seen_size|].
    rewrite seen_pre. apply may_ext. intros n3. apply seen_size.
  - cbn [bha xha]. match goal with |- seen (if ?b then _ else _) = _ => destruct b end; [apply seen_update|].
    match goal with |- seen (if ?b then _ else _) = _ => destruct b end; [apply seen_int|]. rewrite seen_pre. apply may_ext. intros n1. now apply user_ptr.
  - cbn [bha xha]. match goal with |- seen (if ?b then _ else _) = _ => destruct b end; [apply seen_update|].
    match goal with |- seen (if ?b then _ else _) = _ => destruct b end; [apply seen_int|]. rewrite seen_pre. apply may_ext. intros n1. now apply (user_loop true (BA t) (XA t) vs IHt).
  - cbn [bha xha]. match goal with |- seen (if ?b then _ else _) = _ => destruct b end; [apply seen_update|].
    rewrite seen_pre. apply may_ext. intros n1. now apply user_unord_range.
  - destruct ts; leaf.
  - destruct ts as [|t ts]; [leaf|]. rewrite bha_tuple, xha_tuple by discriminate. now apply user_each.
  - destruct vs as [|[z|bv] [|[z2|mv] [|? ?]]]; try solve [leaf]. rewrite bha_desc, xha_desc. rewrite seen_bind, (user_each None bs H). apply xbind_ext. intros s1 n1.
    rewrite seen_bind, (user_each None ms H0). apply xbind_ext. intros s2 n2. destruct (Nat.eqb (length bs + length ms) 0); [apply seen_int|reflexivity].
  - rewrite bha_tag, xha_tag. rewrite seen_bind, (user_each (Some OCode) ts H). apply xbind_ext. intros s1 n1. apply (seen_user true).
  - destruct lead; leaf.
  - destruct vs as [|[k|?] [|v [|? ?]]]; try solve [destruct lead; leaf].
    assert (HA : forall n st, seen (alt (fun t => BA t v n st) UB ts (Z.to_nat k)) = alt (fun t => XA t v n st) UB ts (Z.to_nat k)).
    { intros n1 s1. clear - H. generalize (Z.to_nat k) as j. induction H as [|t ts Ht _ IH]; intros [|j]; cbn [alt]; try reflexivity; [apply Ht|apply IH]. }
    destruct lead; cbn [bha xha]; (match goal with |- seen (if ?b then _ else _) = _ => destruct b end; [apply seen_update|]); rewrite seen_pre; apply may_ext; intros n1; rewrite seen_bind.
    + rewrite seen_int. apply xbind_ext. intros s1 n2. rewrite seen_pre. apply may_ext. intros n3. rewrite seen_bind, HA. apply xbind_ext. intros s2 n4. apply (seen_user true).
    + rewrite HA. apply xbind_ext. intros s1 n2. rewrite seen_pre. apply may_ext. intros n3. rewrite seen_bind, seen_int. apply xbind_ext. intros s2 n4. apply (seen_user true).
  - cbn [bha xha]. match goal with |- seen (if ?b then _ else _) = _ => destruct b end; [apply seen_update|]. apply user_calls.
    intros c n1 s1. apply user_case; [exact H|]. intros t Ht. now apply user_form.
  - cbn [bha xha]. match goal with |- seen (if ?b then _ else _) = _ => destruct b end; [apply seen_update|]. apply user_calls.
    intros c n1 s1. apply user_case; [exact H|]. intros t Ht. now apply user_form.
  - cbn [bha xha]. match goal with |- seen (if ?b then _ else _) = _ => destruct b end; [apply seen_update|]. apply IHt.
  - cbn [bha xha]. match goal with |- seen (if ?b then _ else _) = _ => destruct b end; [apply seen_update|]. apply IHt.
Qed.
Theorem user_only_call k n st : seen (bha_call T countdown gir i f k n st) = xha_call h gir i f k n st.
Proof. destruct k; cbn [bha_call xha_call]; try apply seen_size_of; apply user_form, user_only. Qed.
End UserOnly.

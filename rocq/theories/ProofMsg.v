(* Facts about the messages of SpecAppend.v. *)
From Verif Require Import Base BaseFacts SpecCommon Types SpecAppend.
Open Scope N_scope.

Lemma enc_length le k z : length (enc le k z) = k.
Proof.
  unfold enc. destruct le; [|unfold toBE; rewrite rev_length]; change toLE with le_bytes; apply le_bytes_length.
Qed.
Lemma enc_bytes le k z : bytes (enc le k z).
Proof.
  unfold enc. destruct le; [|unfold toBE; apply bytes_rev]; change toLE with le_bytes; apply le_bytes_bytes.
Qed.

(* the alternative chosen, if there is one *)
Lemma alt_elim (P : ty -> Prop) ts n : Forall P ts ->
  (exists t, P t /\ In t ts /\ forall (X : Type) (f : ty -> X) d, alt f d ts n = f t) \/
  (forall (X : Type) (f : ty -> X) d, alt f d ts n = d).
Proof.
  intros H. revert n. induction H as [|t ts Ht Hts IH]; intros n; [right; destruct n; reflexivity|].
  destruct n as [|n]; [left; exists t; repeat split; [exact Ht|left; reflexivity]|].
  destruct (IH n) as [(t' & A & B & C)|C]; [left|right]; [exists t'|]; [|intros; apply C].
  repeat split; [exact A|right; exact B|]. intros. apply C.
Qed.
Ltac alt_cases H ts n t HP HI HA :=
  destruct (alt_elim _ ts n H) as [(t & HP & HI & HA)|HA]; rewrite ?HA in *.

Lemma ucase_elim (P : ty -> Prop) ts c : Forall P ts ->
  (exists z, c = KSize z) \/
  (exists t, P t /\ In t ts /\ forall (X : Type) (z : Z -> X) f d, ucase z f d ts c = f t) \/
  (forall (X : Type) (z : Z -> X) f d, ucase z f d ts c = d).
Proof.
  intros H. destruct c as [k v|kd k vs|kd k vs|k vs|z]; [| | | |left; now exists z]; right; cbn [ucase];
    (destruct (alt_elim P ts k H) as [(t & A & B & C)|C]; [left; exists t; auto|right; auto]).
Qed.
(* three cases: hash_append_size; a type; none *)
Ltac ucases H ts c z t HP HI HA :=
  destruct (ucase_elim _ ts c H) as [(z & ->)|[(t & HP & HI & HA)|HA]]; rewrite ?HA in *; cbn [ucase] in *.

(* messages depend on q only pointwise *)
Definition qeq (q1 q2 : list N -> N) := forall m, q1 m = q2 m.
Lemma qeq_shift x q1 q2 : qeq q1 q2 -> qeq (shift x q1) (shift x q2).
Proof. intros H m. apply H. Qed.
Lemma qeq_refl q : qeq q q. Proof. intros m. reflexivity. Qed.

Definition ext {X : Type} (m : X -> (list N -> N) -> list N) := forall v q1 q2, qeq q1 q2 -> m v q1 = m v q2.
Lemma seq_msg_ext {X : Type} (m : X -> (list N -> N) -> list N) : ext m -> forall vs q1 q2, qeq q1 q2 -> seq_msg m vs q1 = seq_msg m vs q2.
Proof.
  intros E. induction vs as [|v vs IH]; intros q1 q2 H; [reflexivity|]. cbn [seq_msg].
  rewrite (E v q1 q2 H). f_equal. apply IH. now apply qeq_shift.
Qed.

Section Msg.
Variables (le : bool) (ss psz : isz) (fz32 fz64 : N -> N).
Notation MSG := (msg le ss psz fz32 fz64).
Notation TMSG := (tup_msg le ss psz fz32 fz64).

Lemma each_tup ts : forall vs q,
  (fix each (ts : list ty) (vs : list val) (q : list N -> N) {struct ts} : list N :=
    match ts, vs with
    | t :: ts, v :: vs => MSG t v q ++ each ts vs (shift (MSG t v q) q)
    | _, _ => []
    end) ts vs q = TMSG ts vs q.
Proof. induction ts as [|t ts IH]; intros [|v vs] q; cbn [tup_msg]; try reflexivity; f_equal; apply IH. Qed.

Lemma msg_tuple ts vs q : ts <> [] -> MSG (TTuple ts) (VList vs) q = TMSG ts vs q.
Proof. intros H. destruct ts as [|t ts]; [easy|]. exact (each_tup (t :: ts) vs q). Qed.
Lemma msg_tag ts vs q : MSG (TTag ts) (VList vs) q = TMSG ts vs q.
Proof. exact (each_tup ts vs q). Qed.
Lemma msg_desc bs ms bv mv q : (bs <> [] \/ ms <> []) ->
  MSG (TDesc bs ms) (VList [VList bv; VList mv]) q = TMSG bs bv q ++ TMSG ms mv (shift (TMSG bs bv q) q).
Proof.
  intros H. rewrite <- (each_tup bs bv q) at 1 2. rewrite <- (each_tup ms mv).
  destruct bs as [|b bs]; [destruct ms as [|m ms]; [now destruct H|]|]; reflexivity.
Qed.

Lemma tup_msg_ext ts : Forall (fun t => ext (MSG t)) ts -> forall vs q1 q2, qeq q1 q2 -> TMSG ts vs q1 = TMSG ts vs q2.
Proof.
  induction 1 as [|t ts Ht Hts IH]; intros [|v vs] q1 q2 H; try reflexivity. cbn [tup_msg].
  rewrite (Ht v q1 q2 H). f_equal. apply IH. now apply qeq_shift.
Qed.

Lemma form_msg_ext {T} (k : call_ T) m q1 q2 : ext m -> qeq q1 q2 -> form_msg le ss k m q1 = form_msg le ss k m q2.
Proof.
  intros HM HQ. destruct k as [t v|k t vs|k t vs|t vs|z]; cbn [form_msg].
  - now apply HM.
  - now apply seq_msg_ext.
  - f_equal. now apply seq_msg_ext.
  - do 4 f_equal. apply map_ext. intros v. now rewrite (HM v q1 q2 HQ).
  - reflexivity.
Qed.
(* what a tag_invoke's call feeds *)
Definition UMSG (ts : list ty) (c : call_ nat) (q : list N -> N) : list N :=
  ucase (enc le (ibytes ss)) (fun t => form_msg le ss c (MSG t) q) [] ts c.
Lemma msg_user g ts v q : MSG (TUser g ts) v q = seq_msg (UMSG ts) (g v) q.
Proof. destruct v; reflexivity. Qed.
Lemma umsg_ext ts : Forall (fun t => ext (MSG t)) ts -> ext (UMSG ts).
Proof.
  intros H c q1 q2 HQ. unfold UMSG. ucases H ts c z t HP HI HA; try reflexivity. now apply form_msg_ext.
Qed.
Lemma msg_ext t : ext (MSG t).
Proof.
  induction t using ty_rect'; intros v q1 q2 HQ; destruct v as [z|vs]; try reflexivity.
  - exact (seq_msg_ext _ IHt vs q1 q2 HQ).
  - cbn [msg]. now rewrite (seq_msg_ext _ IHt vs q1 q2 HQ).
  - cbn [msg]. now rewrite (seq_msg_ext _ IHt vs q1 q2 HQ).
  - destruct vs as [|v vs]; [reflexivity|]. exact (seq_msg_ext _ IHt (v :: vs) q1 q2 HQ).
  - destruct vs as [|v vs]; [reflexivity|]. exact (seq_msg_ext _ IHt (v :: vs) q1 q2 HQ).
  - cbn [msg]. do 4 f_equal. apply map_ext. intros v. now rewrite (IHt v q1 q2 HQ).
  - destruct ts as [|t ts]; [reflexivity|]. rewrite !msg_tuple by discriminate. now apply tup_msg_ext.
  - destruct vs as [|[z|bv] [|[z2|mv] [|? ?]]]; try (destruct bs, ms; reflexivity).
    assert (HD : (bs = [] /\ ms = []) \/ (bs <> [] \/ ms <> [])).
    { destruct bs; [destruct ms|]; [now left|right; right; discriminate|right; left; discriminate]. }
    destruct HD as [[-> ->]|HD]; [reflexivity|]. rewrite !msg_desc by exact HD.
    rewrite (tup_msg_ext bs H bv q1 q2 HQ). f_equal. apply (tup_msg_ext ms H0). now apply qeq_shift.
  - rewrite !msg_tag. now apply tup_msg_ext.
  - destruct vs as [|[k|vs'] [|v [|? ?]]]; try (destruct lead; reflexivity).
    alt_cases H ts (Z.to_nat k) t HP HI HA; destruct lead; cbn [msg]; rewrite !HA; try reflexivity.
    + f_equal. apply HP. now apply qeq_shift.
    + f_equal. now apply HP.
  - rewrite !msg_user. apply seq_msg_ext; [now apply umsg_ext|exact HQ].
  - rewrite !msg_user. apply seq_msg_ext; [now apply umsg_ext|exact HQ].
  - exact (IHt (VInt z) q1 q2 HQ).
  - exact (IHt (VList vs) q1 q2 HQ).
Qed.
Lemma seq_msg_q t vs q1 q2 : qeq q1 q2 -> seq_msg (MSG t) vs q1 = seq_msg (MSG t) vs q2.
Proof. apply seq_msg_ext, msg_ext. Qed.
Lemma tup_msg_q ts vs q1 q2 : qeq q1 q2 -> TMSG ts vs q1 = TMSG ts vs q2.
Proof. apply tup_msg_ext. apply Forall_forall. intros t _. apply msg_ext. Qed.

Lemma umsg_q ts cs q1 q2 : qeq q1 q2 -> seq_msg (UMSG ts) cs q1 = seq_msg (UMSG ts) cs q2.
Proof. apply seq_msg_ext, umsg_ext. apply Forall_forall. intros t _. apply msg_ext. Qed.

(* message lengths *)
Fixpoint tup_blen (ts : list ty) (vs : list val) : nat :=
  match ts, vs with
  | t :: ts, v :: vs => (blen t v + tup_blen ts vs)%nat
  | _, _ => 0%nat
  end.
Lemma blen_tuple ts vs : blen (TTuple ts) (VList vs) = (8 + tup_blen ts vs)%nat.
Proof. reflexivity. Qed.
Lemma blen_tag ts vs : blen (TTag ts) (VList vs) = (8 + tup_blen ts vs)%nat.
Proof. reflexivity. Qed.
Lemma blen_desc bs ms bv mv : blen (TDesc bs ms) (VList [VList bv; VList mv]) = (8 + tup_blen bs bv + tup_blen ms mv)%nat.
Proof. reflexivity. Qed.
Lemma ibytes_8 s : (ibytes s <= 8)%nat. Proof. destruct s; cbn; lia. Qed.
Lemma seq_len_gen {X : Type} (m : X -> (list N -> N) -> list N) (b : X -> nat) vs :
  (forall v q, (length (m v q) <= b v)%nat) ->
  forall q, (length (seq_msg m vs q) <= lsum (map b vs))%nat.
Proof.
  intros H. induction vs as [|v vs IH]; intros q; cbn [seq_msg map lsum fold_right length]; [lia|].
  rewrite app_length. pose proof (H v q). pose proof (IH (shift (m v q) q)) as IH1. unfold lsum in IH1. lia.
Qed.
Lemma seq_blen t vs : (forall v q, (length (MSG t v q) <= blen t v)%nat) ->
  forall q, (length (seq_msg (MSG t) vs q) <= lsum (map (blen t) vs))%nat.
Proof. apply seq_len_gen. Qed.
Lemma form_blen_ok {T} (k : call_ T) m b : (forall v q, (length (m v q) <= b v)%nat) ->
  forall q, (length (form_msg le ss k m q) <= form_blen k b)%nat.
Proof.
  intros H q. pose proof (ibytes_8 ss). destruct k as [t v|k t vs|k t vs|t vs|z]; cbn [form_msg form_blen];
    unfold size_msg; rewrite ?app_length, ?enc_length; try lia; try apply H; pose proof (seq_len_gen m b vs H q); lia.
Qed.
Definition UBLEN (ts : list ty) (c : call_ nat) : nat := ucase (fun _ => 8%nat) (fun t => form_blen c (blen t)) 0%nat ts c.
Lemma blen_user g ts v : blen (TUser g ts) v = (8 + lsum (map (UBLEN ts) (g v)))%nat.
Proof. destruct v; reflexivity. Qed.
Lemma umsg_len ts : Forall (fun t => forall v q, (length (MSG t v q) <= blen t v)%nat) ts ->
  forall c q, (length (UMSG ts c q) <= UBLEN ts c)%nat.
Proof.
  intros H c q. unfold UMSG, UBLEN. ucases H ts c z t HP HI HA.
  - rewrite enc_length. apply ibytes_8.
  - now apply form_blen_ok.
  - cbn [length]. lia.
Qed.
Lemma tup_blen_ok ts : Forall (fun t => forall v q, (length (MSG t v q) <= blen t v)%nat) ts ->
  forall vs q, (length (TMSG ts vs q) <= tup_blen ts vs)%nat.
Proof.
  induction 1 as [|t ts Ht Hts IH]; intros [|v vs] q; cbn [tup_msg tup_blen length]; try lia.
  rewrite app_length. pose proof (Ht v q). pose proof (IH vs (shift (MSG t v q) q)). lia.
Qed.
Lemma msg_blen t : forall v q, (length (MSG t v q) <= blen t v)%nat.
Proof.
  induction t using ty_rect'; intros v q; destruct v as [z|vs].
  all: try (cbn [msg blen length]; rewrite ?enc_length; try apply ibytes_8; lia).
  all: try (cbn [msg blen]; pose proof (ibytes_8 ss); rewrite ?app_length; unfold size_msg; rewrite ?enc_length;
            try (pose proof (seq_blen t vs IHt q)); lia).
  - destruct vs as [|v vs]; [cbn; lia|]. cbn [msg blen]. pose proof (seq_blen t (v :: vs) IHt q). lia.
  - destruct vs as [|v vs]; [cbn; lia|]. cbn [msg blen]. pose proof (seq_blen t (v :: vs) IHt q). lia.
  - destruct ts; cbn [msg blen length]; lia.
  - destruct ts as [|t ts]; [cbn; lia|]. rewrite msg_tuple by discriminate. rewrite blen_tuple.
    pose proof (tup_blen_ok (t :: ts) H vs q). lia.
  - destruct bs, ms; cbn [msg blen length]; lia.
  - assert (HD : (bs = [] /\ ms = []) \/ (bs <> [] \/ ms <> [])).
    { destruct bs; [destruct ms|]; [now left|right; right; discriminate|right; left; discriminate]. }
    destruct HD as [[-> ->]|HD].
    { cbn [msg length]. destruct vs as [|[z|bv] [|[z2|mv] [|? ?]]]; cbn [blen]; lia. }
    destruct vs as [|[z|bv] [|[z2|mv] [|? ?]]]; try (destruct bs; [destruct ms; [now destruct HD|]|]; cbn [msg blen length]; lia).
    rewrite msg_desc by exact HD. rewrite blen_desc, app_length.
    pose proof (tup_blen_ok bs H bv q). pose proof (tup_blen_ok ms H0 mv (shift (TMSG bs bv q) q)). lia.
  - rewrite msg_tag, blen_tag. pose proof (tup_blen_ok ts H vs q). lia.
  - destruct lead; cbn [msg blen length]; lia.
  - destruct vs as [|[k|vs'] [|v [|? ?]]]; try (destruct lead; cbn [msg blen length]; lia).
    pose proof (ibytes_8 s).
    alt_cases H ts (Z.to_nat k) t HP HI HA; destruct lead; cbn [msg blen]; rewrite !HA, app_length, enc_length; cbn [length]; try lia.
    + pose proof (HP v (shift (enc le (ibytes s) k) q)). lia.
    + pose proof (HP v q). lia.
  - rewrite msg_user, blen_user. pose proof (seq_len_gen _ _ (g (VInt z)) (umsg_len ts H) q). lia.
  - rewrite msg_user, blen_user. pose proof (seq_len_gen _ _ (g (VList vs)) (umsg_len ts H) q). lia.
  - exact (IHt (VInt z) q).
  - exact (IHt (VList vs) q).
Qed.
Lemma umsg_blen ts c q : (length (UMSG ts c q) <= UBLEN ts c)%nat.
Proof. apply umsg_len. apply Forall_forall. intros t _. apply msg_blen. Qed.
Lemma call_msg_ext k q1 q2 : qeq q1 q2 -> call_msg le ss psz fz32 fz64 k q1 = call_msg le ss psz fz32 fz64 k q2.
Proof.
  intros H. destruct k as [t v|k t vs|k t vs|t vs|z]; cbn [call_msg]; try reflexivity; apply form_msg_ext; try exact H; apply msg_ext.
Qed.
Lemma call_blen_ok k q : (length (call_msg le ss psz fz32 fz64 k q) <= call_blen k)%nat.
Proof.
  destruct k as [t v|k t vs|k t vs|t vs|z]; cbn [call_msg call_blen].
  1-4: apply form_blen_ok, msg_blen.
  rewrite enc_length. apply ibytes_8.
Qed.
End Msg.

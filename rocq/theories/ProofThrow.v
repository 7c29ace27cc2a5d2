(* The functions of ModelThrow.v: how many crash points they have, and what the object has been fed when they are left. *)
From Verif Require Import Base BaseFacts SpecCommon Hasher Types ModelResult ModelAppend SpecAppend ProofMsg ProofMsgEq ProofAppend ModelThrow.
Open Scope N_scope.

(* ---------- the number of crash points ---------- *)
Section Points.
Variable i : impl.
Variable f : flavor.
(* G makes k operations of the user before it is done, whatever the algorithm and its state, and does what F does *)
Definition points (k : nat) (G : forall h : hasher, (h_R h -> res N) -> nat -> h_S h -> out h) (F : forall h : hasher, (h_R h -> res N) -> h_S h -> res (h_S h)) : Prop :=
  forall h gir st, (forall n, G h gir (k + n)%nat st = run h (F h gir st) n) /\
    (forall n s', (n < k)%nat -> F h gir st = Ok s' -> exists s, G h gir n st = Ok (s, None)).
Lemma points_run F : points 0 (fun h gir n st => run h (F h gir st) n) F.
Proof. intros h gir st. split; [reflexivity|]. intros n s' H. lia. Qed.
Lemma points_done : points 0 (fun h gir n st => done h st n) (fun h gir st => Ok st).
Proof. apply (points_run (fun h gir st => Ok st)). Qed.
Lemma points_throw k G F : points k G F -> points (S k) (fun h gir n st => may_throw h n st (fun n => G h gir n st)) F.
Proof.
  intros HG h gir st. destruct (HG h gir st) as [H1 H2]. split; [intros n; apply H1|]. intros [|n] s' Hn E; cbn [may_throw]; [eauto|]. apply (H2 n s'); [lia|exact E].
Qed.
Lemma points_if (p : bool) k G F : points k G F -> points ((if p then 1 else 0) + k)%nat (fun h gir n st => may_throw_if h p n st (fun n => G h gir n st)) F.
Proof. intros HG. destruct p; [now apply points_throw|exact HG]. Qed.
Lemma points_bind k1 G1 F1 k2 G2 F2 : points k1 G1 F1 -> points k2 G2 F2 ->
  points (k1 + k2) (fun h gir n st => xbind h (G1 h gir n st) (fun st n => G2 h gir n st)) (fun h gir st => st <- F1 h gir st ;; F2 h gir st).
Proof.
  intros HG1 HG2 h gir st. destruct (HG1 h gir st) as [A1 A2]. split.
  - intros n. rewrite <- Nat.add_assoc, A1. unfold run. destruct (F1 h gir st) as [s1| | |]; cbn [bind xbind]; try reflexivity. apply (HG2 h gir s1).
  - intros n s' Hn E. destruct (F1 h gir st) as [s1| | |] eqn:E1; try discriminate. cbn [bind] in E.
    destruct (Nat.ltb_spec n k1) as [HL|HL].
    + destruct (A2 n s1 HL eq_refl) as (s & ->). cbn [xbind bind]. eauto.
    + replace n with (k1 + (n - k1))%nat by lia. rewrite A1. cbn [run bind xbind]. apply (proj2 (HG2 h gir s1) (n - k1)%nat s'); [lia|exact E].
Qed.
Lemma points_ext k G G' F F' : (forall h gir n st, G' h gir n st = G h gir n st) -> (forall h gir st, F' h gir st = F h gir st) -> points k G F -> points k G' F'.
Proof. intros EG EF HG h gir st. destruct (HG h gir st) as [H1 H2]. split; [intros n; now rewrite EG, EF|]. intros n s' Hn E. rewrite EG. apply (H2 n s' Hn). now rewrite <- EF. Qed.
Definition some_points G F : Prop := exists k, points k G F.
Lemma some_run F : some_points (fun h gir n st => run h (F h gir st) n) F.
Proof. eexists. apply points_run. Qed.
Lemma some_ub : some_points (fun h gir n st => UB) (fun h gir st => UB).
Proof. exists 0%nat. intros h gir st. split; [reflexivity|]. discriminate. Qed.
Lemma some_done : some_points (fun h gir n st => done h st n) (fun h gir st => Ok st).
Proof. eexists. apply points_done. Qed.
Lemma some_throw G F : some_points G F -> some_points (fun h gir n st => may_throw h n st (fun n => G h gir n st)) F.
Proof. intros (k & H). eexists. now apply points_throw. Qed.
Lemma some_if p G F : some_points G F -> some_points (fun h gir n st => may_throw_if h p n st (fun n => G h gir n st)) F.
Proof. intros (k & H). eexists. now apply points_if. Qed.
Lemma some_bind G1 F1 G2 F2 : some_points G1 F1 -> some_points G2 F2 ->
  some_points (fun h gir n st => xbind h (G1 h gir n st) (fun st n => G2 h gir n st)) (fun h gir st => st <- F1 h gir st ;; F2 h gir st).
Proof. intros (k1 & H1) (k2 & H2). eexists. now apply points_bind. Qed.
Lemma some_ext G G' F F' : (forall h gir n st, G' h gir n st = G h gir n st) -> (forall h gir st, F' h gir st = F h gir st) -> some_points G F -> some_points G' F'.
Proof. intros EG EF (k & H). exists k. now apply (points_ext k G G' F F'). Qed.

Definition XG {X} (G : X -> forall h : hasher, (h_R h -> res N) -> nat -> h_S h -> out h) h gir : X -> nat -> h_S h -> out h := fun v n st => G v h gir n st.
Definition XF {X} (F : X -> forall h : hasher, (h_R h -> res N) -> h_S h -> res (h_S h)) h gir : X -> h_S h -> res (h_S h) := fun v st => F v h gir st.
Lemma bind_ok {A} (r : res A) : bind r (fun a => Ok a) = r.
Proof. now destruct r. Qed.
Lemma some_loop {X} p G F (vs : list X) : Forall (fun v => some_points (G v) (F v)) vs ->
  some_points (fun h gir n st => xloop h p (XG G h gir) vs n st) (fun h gir st => ha_loop h (XF F h gir) vs st).
Proof.
  induction 1 as [|v vs Hv _ IH].
  - apply (some_if p). apply some_done.
  - apply (some_if p _ _ (some_if p _ _ (some_bind (G v) (F v) _ _ Hv (some_if p _ _ IH)))).
Qed.
Lemma some_calls {X} G F (vs : list X) : Forall (fun v => some_points (G v) (F v)) vs ->
  some_points (fun h gir n st => xcalls h (XG G h gir) vs n st) (fun h gir st => ha_loop h (XF F h gir) vs st).
Proof.
  induction 1 as [|v vs Hv _ IH].
  - apply (some_throw (fun h gir n st => done h st n)). apply some_done.
  - apply (some_throw _ _ (some_bind (G v) (F v) _ _ Hv IH)).
Qed.
(* the loop for unordered ranges *)
Lemma some_unord {X} G F (vs : list val) (HX : X = val) : Forall (fun v => some_points (G v) (F v)) vs -> exists k, forall h gir st w m,
  (forall n, xunord h gir (XG G h gir) st vs w m (k + n) = ('(w, m) <- ha_unord h gir (XF F h gir) st vs w m ;; Ok (Some (w, m, n)))) /\
  (forall n r, (n < k)%nat -> ha_unord h gir (XF F h gir) st vs w m = Ok r -> xunord h gir (XG G h gir) st vs w m n = Ok None).
Proof.
  clear HX. induction 1 as [|v vs (k & Hv) _ (k2 & IH)].
  - exists 1%nat. intros h gir st w m. split; [reflexivity|]. intros [|n] r Hn E; [reflexivity|lia].
  - exists (S (S (k + S k2))). intros h gir st w m. destruct (Hv h gir st) as [A1 A2]. split.
    + intros n. cbn [Nat.add xunord ha_unord]. unfold XG at 1, XF at 1. rewrite <- Nat.add_assoc, A1. unfold run. destruct (F v h gir st) as [s1| | |]; cbn [bind]; try reflexivity.
      destruct (h_result h s1) as [[r s2]| | |]; cbn [bind]; try reflexivity. destruct (gir r) as [x| | |]; cbn [bind Nat.add]; try reflexivity. apply IH.
    + intros n r Hn E. destruct n as [|[|n]]; [reflexivity|reflexivity|]. cbn [xunord ha_unord] in *. unfold XG at 1. unfold XF at 1 in E.
      destruct (F v h gir st) as [s1| | |] eqn:E1; try discriminate. cbn [bind] in E. destruct (h_result h s1) as [[r1 s2]| | |] eqn:E2; try discriminate. cbn [bind] in E.
      destruct (gir r1) as [x| | |] eqn:E3; try discriminate. cbn [bind] in E.
      destruct (Nat.ltb_spec n k) as [HL|HL].
      * destruct (A2 n s1 HL eq_refl) as (s & ->). reflexivity.
      * replace n with (k + (n - k))%nat by lia. rewrite A1. cbn [run bind]. rewrite E2. cbn [bind]. rewrite E3. cbn [bind].
        destruct (n - k)%nat as [|n'] eqn:EN; [reflexivity|]. apply (proj2 (IH h gir st (add64 w x) (S m)) n' r); [lia|exact E].
Qed.
Lemma some_unord_range G F vs : Forall (fun v => some_points (G v) (F v)) vs ->
  some_points (fun h gir n st => xunord_range h gir i f (XG G h gir) vs n st)
    (fun h gir st => '(w, m) <- ha_unord h gir (XF F h gir) st vs 0 0 ;; st <- ha_int h i f I64 (Z.of_N w) st ;; ha_size h i f m st).
Proof.
  intros H. destruct (some_unord (X := val) G F vs eq_refl H) as (k & HK). exists k. intros h gir st. destruct (HK h gir st 0 0%nat) as [A1 A2]. split.
  - intros n. unfold xunord_range. rewrite A1. destruct (ha_unord h gir (XF F h gir) st vs 0 0) as [[w m]| | |]; reflexivity.
  - intros n s' Hn E. destruct (ha_unord h gir (XF F h gir) st vs 0 0) as [r| | |] eqn:E1; try discriminate. unfold xunord_range. rewrite (A2 n r Hn eq_refl). cbn [bind]. eauto.
Qed.
Definition GA t v : forall h : hasher, (h_R h -> res N) -> nat -> h_S h -> out h := fun h gir n st => xha h gir i f t v n st.
Definition FA t v : forall h : hasher, (h_R h -> res N) -> h_S h -> res (h_S h) := fun h gir st => ha h gir i f t v st.
Definition PT (t : ty) : Prop := forall v, some_points (GA t v) (FA t v).
Lemma all_points t vs : PT t -> Forall (fun v => some_points (GA t v) (FA t v)) vs.
Proof. intros H. apply Forall_forall. intros v _. apply H. Qed.
Lemma some_ptr t vs : PT t -> some_points (fun h gir n st => xptr_range h i f t (xha h gir i f t) vs n st) (fun h gir st => ha_ptr_range h i f t (ha h gir i f t) vs st).
Proof.
  intros HP. unfold xptr_range, ha_ptr_range.
  assert (HL : some_points (fun h gir n st => xloop h false (xha h gir i f t) vs n st) (fun h gir st => ha_loop h (ha h gir i f t) vs st)) by (apply (some_loop false (GA t) (FA t)), all_points, HP).
  assert (HG : some_points (fun h gir n st => if contiguously_hashable i f t
      then if negb (p_cx (im_pf i)) then run h (h_update h st (data_ptr i vs (flat_map (obj i t) vs)) (length vs * size_of i t)) n else xloop h false (xha h gir i f t) vs n st
      else xloop h false (xha h gir i f t) vs n st)
    (fun h gir st => if contiguously_hashable i f t then if negb (p_cx (im_pf i)) then h_update h st (data_ptr i vs (flat_map (obj i t) vs)) (length vs * size_of i t) else ha_loop h (ha h gir i f t) vs st
      else ha_loop h (ha h gir i f t) vs st)).
  { destruct (contiguously_hashable i f t); [|exact HL]. destruct (negb (p_cx (im_pf i))); [|exact HL].
    apply (some_run (fun h gir st => h_update h st (data_ptr i vs (flat_map (obj i t) vs)) (length vs * size_of i t))). }
  destruct t as [s0 sg| | | | | | | | | | | | | | | | | |]; try exact HG. destruct s0; try exact HG. destruct sg; try exact HG.
  apply (some_run (fun h gir st => h_update h st (data_ptr i vs (flat_map (obj i (TInt I8 false)) vs)) (length vs))).
Qed.
Lemma some_size z : some_points (fun h gir n st => run h (ha_size_of h i f z st) n) (fun h gir st => ha_size_of h i f z st).
Proof. apply (some_run (fun h gir st => ha_size_of h i f z st)). Qed.
Lemma some_int s z : some_points (fun h gir n st => run h (ha_int h i f s z st) n) (fun h gir st => ha_int h i f s z st).
Proof. apply (some_run (fun h gir st => ha_int h i f s z st)). Qed.
Lemma some_form {T} (k : call_ T) t : PT t -> some_points (fun h gir n st => xform h gir i f k t (xha h gir i f t) n st) (fun h gir st => form_ha h gir i f k t (ha h gir i f t) st).
Proof.
  intros HP. destruct k as [t' v|[|c] t' vs|[|c] t' vs|t' vs|z]; cbn [xform form_ha].
  - apply HP.
  - now apply some_ptr.
  - apply (some_loop true (GA t) (FA t)), all_points, HP.
  - apply (some_bind _ _ _ _ (some_ptr t vs HP) (some_size (Z.of_nat (length vs)))).
  - assert (HL := some_loop true (GA t) (FA t) vs (all_points t vs HP)). destruct c.
    + apply (some_bind _ _ _ _ HL (some_size (Z.of_nat (length vs)))).
    + apply (some_bind _ _ _ _ HL (some_throw _ _ (some_size (Z.of_nat (length vs))))).
  - apply (some_unord_range (GA t) (FA t)), all_points, HP.
  - apply some_size.
Qed.
Section Each.
Variable h : hasher.
Variable gir : h_R h -> res N.
Fixpoint xeach (p : bool) (ts : list ty) (vs : list val) (n : nat) (st : h_S h) : out h :=
  match ts, vs with
  | [], [] => done h st n
  | t :: ts, v :: vs => may_throw_if h p n st (fun n => xbind h (xha h gir i f t v n st) (fun st n => xeach p ts vs n st))
  | _, _ => UB
  end.
End Each.
Lemma each_xha h gir p ts vs n st :
  (fix each (p : bool) (ts : list ty) (vs : list val) (n : nat) (st : h_S h) {struct ts} : out h :=
    match ts, vs with
    | [], [] => done h st n
    | t :: ts, v :: vs => may_throw_if h p n st (fun n => xbind h (xha h gir i f t v n st) (fun st n => each p ts vs n st))
    | _, _ => UB
    end) p ts vs n st = xeach h gir p ts vs n st.
Proof. reflexivity. Qed.
Lemma some_each p ts : Forall PT ts -> forall vs, some_points (fun h gir n st => xeach h gir p ts vs n st) (fun h gir st => ha_each h gir i f ts vs st).
Proof.
  induction 1 as [|t ts Ht _ IH]; intros [|v vs]; cbn [xeach ha_each]; [apply some_done|apply some_ub|apply some_ub|].
  apply (some_if p _ _ (some_bind (GA t v) (FA t v) _ _ (Ht v) (IH vs))).
Qed.
Lemma xha_tuple h gir ts vs n st : ts <> [] -> xha h gir i f (TTuple ts) (VList vs) n st = xeach h gir true ts vs n st.
Proof.
  intros H. destruct ts as [|t ts]; [easy|]. rewrite <- (each_xha h gir true (t :: ts)). cbn [xha contiguously_hashable trivially_comparable andb]. rewrite not_contig. reflexivity.
Qed.
Lemma xha_tag h gir ts vs n st : xha h gir i f (TTag ts) (VList vs) n st = xbind h (xeach h gir true ts vs n st) (fun st n => may_throw h n st (done h st)).
Proof. rewrite <- (each_xha h gir true ts). cbn [xha contiguously_hashable trivially_comparable andb]. rewrite not_contig. reflexivity. Qed.
Lemma xha_desc h gir bs ms bv mv n st : xha h gir i f (TDesc bs ms) (VList [VList bv; VList mv]) n st =
  xbind h (xeach h gir false bs bv n st) (fun st n => xbind h (xeach h gir false ms mv n st) (fun st n =>
   if Nat.eqb (length bs + length ms) 0 then run h (ha_int h i f I8 0 st) n else done h st n)).
Proof. rewrite <- (each_xha h gir false bs). cbn [xha contiguously_hashable trivially_comparable andb]. rewrite not_contig. reflexivity. Qed.
Lemma some_when (b : bool) G1 F1 G2 F2 : some_points G1 F1 -> some_points G2 F2 ->
  some_points (fun h gir n st => if b then G1 h gir n st else G2 h gir n st) (fun h gir st => if b then F1 h gir st else F2 h gir st).
Proof. now destruct b. Qed.
Lemma some_user ts : Forall PT ts -> forall cs, some_points
  (fun h gir n st => xcalls h (fun c n st => ucase (fun z => run h (ha_size_of h i f z st) n) (fun t => xform h gir i f c t (xha h gir i f t) n st) UB ts c) cs n st)
  (fun h gir st => ha_loop h (fun c st => ucase (fun z => ha_size_of h i f z st) (fun t => form_ha h gir i f c t (ha h gir i f t) st) UB ts c) cs st).
Proof.
  intros H cs. apply (some_calls (fun c h gir n st => ucase (fun z => run h (ha_size_of h i f z st) n) (fun t => xform h gir i f c t (xha h gir i f t) n st) UB ts c)
    (fun c h gir st => ucase (fun z => ha_size_of h i f z st) (fun t => form_ha h gir i f c t (ha h gir i f t) st) UB ts c)).
  apply Forall_forall. intros c _. destruct (ucase_elim _ ts c H) as [(z & ->)|[(t & HP & HI & HAl)|HAl]].
  - apply some_size.
  - eapply some_ext; [intros; rewrite HAl; reflexivity|intros; rewrite HAl; reflexivity|]. now apply some_form.
  - eapply some_ext; [intros; rewrite HAl; reflexivity|intros; rewrite HAl; reflexivity|]. apply some_ub.
Qed.
Ltac ctg := match goal with |- context [(negb ?x && ?y)%bool] => apply (some_when (negb x && y)%bool) end.
Ltac opn := unfold GA, FA; cbn [xha ha].
Lemma some_direct t v : some_points (fun h gir n st => run h (h_update h st (Ptr (obj i t v)) (size_of i t)) n) (fun h gir st => h_update h st (Ptr (obj i t v)) (size_of i t)).
Proof. apply (some_run (fun h gir st => h_update h st (Ptr (obj i t v)) (size_of i t))). Qed.
Theorem xha_points t : PT t.
Proof.
  induction t using ty_rect'; intros v.
  1-7: opn; ctg; [apply some_direct|]; destruct v; try apply some_ub; apply some_int.
  - opn; ctg; [apply some_direct|]. destruct v as [z|vs]; [apply some_ub|]. now apply some_ptr.
  - opn; ctg; [apply some_direct|]. destruct v as [z|vs]; [apply some_ub|]. apply (some_throw _ _ (some_bind _ _ _ _ (some_ptr t vs IHt) (some_size (Z.of_nat (length vs))))).
  - opn; ctg; [apply some_direct|]. assert (HL := fun vs => some_loop true (GA t) (FA t) vs (all_points t vs IHt)). destruct c; (destruct v as [z|vs]; [apply some_ub|]).
    + apply (some_throw _ _ (some_bind _ _ _ _ (HL vs) (some_size (Z.of_nat (length vs))))).
    + apply (some_throw _ _ (some_bind _ _ _ _ (HL vs) (some_throw _ _ (some_size (Z.of_nat (length vs)))))).
  - opn; ctg; [apply some_direct|]. destruct v as [z|vs]; [apply some_ub|]. apply (some_when (Nat.eqb n 0)); [apply some_int|]. apply (some_throw _ _ (some_ptr t vs IHt)).
  - opn; ctg; [apply some_direct|]. destruct v as [z|vs]; [apply some_ub|]. apply (some_when (Nat.eqb n 0)); [apply some_int|].
    apply (some_throw _ _ (some_loop true (GA t) (FA t) vs (all_points t vs IHt))).
  - opn; ctg; [apply some_direct|]. destruct v as [z|vs]; [apply some_ub|]. apply (some_throw _ _ (some_unord_range (GA t) (FA t) vs (all_points t vs IHt))).
  - destruct ts as [|t ts]; [opn; ctg; [apply some_direct|destruct v; [apply some_ub|apply some_int]]|]. destruct v as [z|vs].
    + opn; ctg; [apply some_direct|]. apply some_ub.
    + eapply some_ext; [intros; unfold GA; apply xha_tuple; discriminate|intros; unfold FA; apply ha_tuple; discriminate|]. now apply some_each.
  - destruct v as [z|vs]; [opn; ctg; [apply some_direct|apply some_ub]|]. destruct vs as [|[z|bv] [|[z2|mv] [|? ?]]]; try (opn; ctg; [apply some_direct|apply some_ub]).
    eapply some_ext; [intros; unfold GA; apply xha_desc|intros; unfold FA; apply ha_desc|].
    apply (some_bind _ _ _ _ (some_each false bs H bv) (some_bind _ _ _ _ (some_each false ms H0 mv) (some_when (Nat.eqb (length bs + length ms) 0) _ _ _ _ (some_int I8 0) some_done))).
  - destruct v as [z|vs]; [opn; ctg; [apply some_direct|apply some_ub]|].
    eapply some_ext; [intros; unfold GA; apply xha_tag|intros; unfold FA; rewrite ha_tag; symmetry; apply bind_ok|].
    apply (some_bind _ _ _ _ (some_each true ts H vs) (some_throw _ _ some_done)).
  - destruct v as [z|vs]; [opn; destruct lead; (ctg; [apply some_direct|apply some_ub])|].
    destruct vs as [|[k|?] [|v [|? ?]]]; try (opn; destruct lead; (ctg; [apply some_direct|apply some_ub])).
    assert (HA : some_points (fun h gir n st => alt (fun t => xha h gir i f t v n st) UB ts (Z.to_nat k)) (fun h gir st => alt (fun t => ha h gir i f t v st) UB ts (Z.to_nat k))).
    { destruct (alt_elim _ ts (Z.to_nat k) H) as [(t & HP & HN & HAl)|HAl].
      - eapply some_ext; [intros; rewrite HAl; reflexivity|intros; rewrite HAl; reflexivity|]. apply HP.
      - eapply some_ext; [intros; rewrite HAl; reflexivity|intros; rewrite HAl; reflexivity|]. apply some_ub. }
    destruct lead; opn; (ctg; [apply some_direct|]).
    + eapply some_ext; [reflexivity| |exact (some_throw _ _ (some_bind _ _ _ _ (some_int s k) (some_throw _ _ (some_bind _ _ _ _ HA (some_throw _ _ some_done)))))].
      intros h gir st. cbn beta. destruct (ha_int h i f s k st); cbn [bind]; try reflexivity. symmetry. apply bind_ok.
    + eapply some_ext; [reflexivity| |exact (some_throw _ _ (some_bind _ _ _ _ HA (some_throw _ _ (some_bind _ _ _ _ (some_int s k) (some_throw _ _ some_done)))))].
      intros h gir st. cbn beta. destruct (alt _ _ _ _); cbn [bind]; try reflexivity. symmetry. apply bind_ok.
  - opn; ctg; [apply some_direct|]. destruct v; now apply some_user.
  - opn; ctg; [apply some_direct|]. destruct v; apply IHt.
Qed.
Theorem call_points k : exists n, points n (fun h gir n st => xha_call h gir i f k n st) (fun h gir st => ha_call h gir i f k st).
Proof.
  destruct k as [t v|d t vs|d t vs|t vs|z]; cbn [xha_call ha_call].
  1-4: apply some_form, xha_points.
  apply some_size.
Qed.
End Points.

(* ---------- what has been fed ---------- *)
Section Corr.
Variable h : hasher.
Variable nul : bool.
Variable A : Type.
Variable au : A -> list N -> A.
Variable ar : A -> h_R h * A.
Variable ok : A -> Prop.
Variable Rel : A -> h_S h -> Prop.
Hypothesis RF : refines h nul A au ar ok Rel.
Variable fits : A -> nat -> Prop.
Hypothesis FL : fits_laws au ar ok fits.
Variable gir : h_R h -> res N.
Variable g : h_R h -> N.
Hypothesis Hg : forall a, gir (fst (ar a)) = Ok (g (fst (ar a))).
Variable i : impl.
Variable f : flavor.
Notation le := (order_le (fl_order f)).
Notation MSG := (msg le (fl_size f) (im_psz i) (fadd0 i 8 23) (fadd0 i 11 52)).
Notation TMSG := (tup_msg le (fl_size f) (im_psz i) (fadd0 i 8 23) (fadd0 i 11 52)).
Notation XA := (xha h gir i f).
Notation HA := (ha h gir i f).
Notation feeds := (feeds h A au Rel).
Notation qa := (qa h A au ar g).
Notation FTS a n := (fits a n).

(* "st becomes a state representing a followed by a prefix of m, by all of m unless an exception was thrown" *)
Definition xfeeds (r : out h) (a : A) (m : list N) : Prop :=
  exists s o j, r = Ok (s, o) /\ Rel (au a (firstn j m)) s /\ (o <> None -> firstn j m = m).
Lemma xfeeds_run r a m n : feeds r a m -> xfeeds (run h r n) a m.
Proof. intros (s & -> & R). exists s, (Some n), (length m). rewrite firstn_all. auto. Qed.
Lemma xfeeds_done a s n : Rel a s -> xfeeds (done h s n) a [].
Proof. intros R. exists s, (Some n), 0%nat. rewrite (rf_nil _ _ _ _ _ _ _ RF). auto. Qed.
Lemma xfeeds_bind r a m k m2 : xfeeds r a m -> (forall s n, Rel (au a m) s -> xfeeds (k s n) (au a m) m2) -> xfeeds (xbind h r k) a (m ++ m2).
Proof.
  intros (s & o & j & -> & R & HO) HK. cbn [xbind bind]. destruct o as [n|].
  - rewrite HO in R by discriminate. destruct (HK s n R) as (s2 & o2 & j2 & E2 & R2 & HO2). exists s2, o2, (length m + j2)%nat. split; [exact E2|].
    rewrite firstn_app_2. rewrite <- (rf_app _ _ _ _ _ _ _ RF). split; [exact R2|]. intros H. now rewrite HO2.
  - exists s, None, (Nat.min j (length m)). split; [reflexivity|]. rewrite firstn_app. replace (Nat.min j (length m) - length m)%nat with 0%nat by lia.
    cbn [firstn]. rewrite app_nil_r. split; [|easy].
    replace (firstn (Nat.min j (length m)) m) with (firstn j m); [exact R|]. destruct (Nat.le_ge_cases j (length m)); [now rewrite Nat.min_l|rewrite Nat.min_r by assumption; now rewrite !firstn_all2 by lia].
Qed.
Lemma xfeeds_throw n s a m k : Rel a s -> (forall n, xfeeds (k n) a m) -> xfeeds (may_throw h n s k) a m.
Proof.
  intros R HK. destruct n as [|n]; cbn [may_throw]; [|apply HK]. exists s, None, 0%nat. cbn [firstn]. rewrite (rf_nil _ _ _ _ _ _ _ RF). split; [reflexivity|]. split; [exact R|easy].
Qed.
Lemma xfeeds_if p n s a m k : Rel a s -> (forall n, xfeeds (k n) a m) -> xfeeds (may_throw_if h p n s k) a m.
Proof. intros R HK. destruct p; [now apply xfeeds_throw|apply HK]. Qed.
Lemma xfeeds_end n s a : Rel a s -> xfeeds (may_throw h n s (done h s)) a [].
Proof. intros R. apply xfeeds_throw; [exact R|]. intros m. now apply xfeeds_done. Qed.

Definition XP (t : ty) : Prop := forall v a s n, Rel a s -> has_type (im_psz i) t v -> fits a (blen t v) -> xfeeds (XA t v n s) a (MSG t v (qa a)).
Lemma fits_lower a L L' : fits a L -> (L' <= L)%nat -> fits a L'.
Proof. apply (fl_mono _ _ _ _ FL). Qed.
Lemma fits_after a m k L : fits a (k + L)%nat -> (length m <= k)%nat -> fits (au a m) L.
Proof. intros F H. apply (fl_au _ _ _ _ FL). apply (fl_mono _ _ _ _ FL _ _ _ F). lia. Qed.
Lemma qa_step a m : qeq (shift m (qa a)) (qa (au a m)).
Proof. exact (qa_au h nul A au ar ok Rel RF g a m). Qed.
Lemma xloop_feeds p t vs : XP t -> Forall (has_type (im_psz i) t) vs -> forall a s n, Rel a s -> fits a (lsum (map (blen t) vs)) ->
  xfeeds (xloop h p (XA t) vs n s) a (seq_msg (MSG t) vs (qa a)).
Proof.
  intros HP. induction 1 as [|v vs Hv Hvs IH]; intros a s n R F; cbn [xloop seq_msg].
  - apply xfeeds_if; [exact R|]. intros m. now apply xfeeds_done.
  - cbn [map lsum fold_right] in F. apply xfeeds_if; [exact R|]. intros n1. apply xfeeds_if; [exact R|]. intros n2. apply xfeeds_bind.
    + apply HP; [exact R|exact Hv|]. apply (fits_lower a _ _ F). lia.
    + intros s1 n3 R1. rewrite (seq_msg_q _ _ _ _ _ t vs _ _ (qa_step a _)). apply xfeeds_if; [exact R1|]. intros n4. apply IH; [exact R1|].
      apply (fits_after a _ _ _ F). apply msg_blen.
Qed.
Lemma xeach_feeds p ts : Forall XP ts -> forall vs a s n, Rel a s -> Zip (has_type (im_psz i)) ts vs -> fits a (tup_blen ts vs) ->
  xfeeds (xeach i f h gir p ts vs n s) a (TMSG ts vs (qa a)).
Proof.
  induction 1 as [|t ts Ht Hts IH]; intros [|v vs] a s n R HZ F; cbn [Zip] in HZ; try easy; cbn [xeach tup_msg].
  - now apply xfeeds_done.
  - destruct HZ as [H1 H2]. cbn [tup_blen] in F. apply xfeeds_if; [exact R|]. intros n1. apply xfeeds_bind.
    + apply Ht; [exact R|exact H1|]. apply (fits_lower a _ _ F). lia.
    + intros s1 n2 R1. rewrite (tup_msg_q _ _ _ _ _ ts vs _ _ (qa_step a _)). apply IH; [exact R1|exact H2|].
      apply (fits_after a _ _ _ F). apply msg_blen.
Qed.
Hypothesis Hnull : im_null i = true -> nul = true.
(* ranges of pointers: nothing is thrown between the elements; the calls of update() are those of ModelAppend.v *)
Lemma xptr_feeds t vs a s n : XP t -> Forall (has_type (im_psz i) t) vs -> Rel a s -> fits a (lsum (map (blen t) vs)) ->
  xfeeds (xptr_range h i f t (XA t) vs n s) a (seq_msg (MSG t) vs (qa a)).
Proof.
  intros HP HV R F. pose proof (contig_range h nul A au ar ok Rel RF fits FL gir g Hg i f Hnull t vs) as CR.
  assert (HL : xfeeds (xloop h false (XA t) vs n s) a (seq_msg (MSG t) vs (qa a))) by now apply xloop_feeds.
  pose proof (ha_msg h nul A au ar ok Rel RF fits FL gir g Hg i f Hnull t) as HM. specialize (CR HM a s HV R F). unfold xptr_range. unfold ha_ptr_range in CR.
  destruct t as [s0 sg| | | | | | | | | | | | | | | | | |];
    try (match goal with |- context [contiguously_hashable i f ?t] => destruct (contiguously_hashable i f t); [|exact HL] end;
         destruct (negb (p_cx (im_pf i))); [now apply xfeeds_run|exact HL]).
  destruct s0; try (match goal with |- context [contiguously_hashable i f ?t] => destruct (contiguously_hashable i f t); [|exact HL] end;
         destruct (negb (p_cx (im_pf i))); [now apply xfeeds_run|exact HL]).
  destruct sg; try (match goal with |- context [contiguously_hashable i f ?t] => destruct (contiguously_hashable i f t); [|exact HL] end;
         destruct (negb (p_cx (im_pf i))); [now apply xfeeds_run|exact HL]).
  now apply xfeeds_run.
Qed.
(* unordered ranges work on copies: thrown before the combined value is appended, an exception leaves the object unchanged *)
Lemma xunord_ok t vs (HP : XP t) a s : Rel a s -> Forall (has_type (im_psz i) t) vs -> fits a (lsum (map (fun v => 192 + blen t v)%nat vs)) -> forall w m n, w < 2^64 ->
  xunord h gir (XA t) s vs w m n = Ok None \/
  exists n', xunord h gir (XA t) s vs w m n = Ok (Some (sum64 (w :: map (fun v => qa a (MSG t v (qa a))) vs), (m + length vs)%nat, n')).
Proof.
  intros R. induction 1 as [|v vs Hv Hvs IH]; intros F w m n HW.
  - destruct n as [|n]; [now left|]. right. exists n. cbn [xunord map]. unfold sum64. cbn [fold_right length]. rewrite N.add_0_r, N.mod_small by exact HW. do 4 f_equal. lia.
  - cbn [map lsum fold_right] in F. destruct n as [|[|n]]; [now left|now left|]. cbn [xunord map].
    assert (F1 : fits a (blen t v + 192)%nat) by (apply (fits_lower a _ _ F); lia).
    assert (F2 : fits a (lsum (map (fun v => 192 + blen t v)%nat vs))) by (apply (fits_lower a _ _ F); unfold lsum; lia).
    destruct (HP v a s n R Hv) as (s1 & o & j & E1 & R1 & HO). { apply (fits_lower a _ _ F1). lia. }
    rewrite E1. cbn [bind]. destruct o as [n1|]; [|now left]. rewrite HO in R1 by discriminate.
    assert (F3 : fits (au a (MSG t v (qa a))) 192) by (apply (fits_after a _ _ _ F1); apply msg_blen).
    destruct (rf_result _ _ _ _ _ _ _ RF _ s1 R1) as (s2 & E2 & _).
    { exact (fl_ok _ _ _ _ FL _ _ F3). }
    { apply (fl_ok _ _ _ _ FL _ 0%nat). apply (fl_ar _ _ _ _ FL). exact F3. }
    rewrite E2. cbn [bind]. rewrite Hg. cbn [bind]. destruct n1 as [|n1]; [now left|].
    destruct (IH F2 (add64 w (g (fst (ar (au a (MSG t v (qa a))))))) (S m) n1) as [E|(n' & E)].
    { unfold add64, w64. apply N.mod_lt. discriminate. }
    + left. exact E.
    + right. exists n'. rewrite E. do 4 f_equal; [|cbn [length]; lia]. unfold sum64. cbn [fold_right]. unfold add64, w64.
      rewrite N.add_mod_idemp_l by discriminate. rewrite <- N.add_assoc. reflexivity.
Qed.
Ltac fm F := eapply fits_lower; [exact F|cbn [blen ibytes]; try apply ibytes_8; lia].
Lemma xunord_feeds t vs (HP : XP t) a s n : Rel a s -> Forall (has_type (im_psz i) t) vs -> fits a (16 + lsum (map (fun v => 192 + blen t v)%nat vs)) ->
  xfeeds (xunord_range h gir i f (XA t) vs n s) a (enc le 8 (Z.of_N (sum64 (map (fun v => qa a (MSG t v (qa a))) vs))) ++ size_msg le (fl_size f) (length vs)).
Proof.
  intros R HV F. unfold xunord_range. destruct (xunord_ok t vs HP a s R HV) with (w := 0) (m := 0%nat) (n := n) as [E|(n' & E)]; [fm F|reflexivity| |]; rewrite E; cbn [bind].
  - exists s, None, 0%nat. cbn [firstn]. rewrite (rf_nil _ _ _ _ _ _ _ RF). split; [reflexivity|]. split; [exact R|easy].
  - apply xfeeds_run. cbn [Nat.add]. apply (feeds_bind h nul A au ar ok Rel RF).
    + apply (ha_int_feeds h nul A au ar ok Rel RF fits FL gir g Hg i f a I64 _ s R). fm F.
    + intros s1 R1. apply (ha_size_feeds h nul A au ar ok Rel RF fits FL gir g Hg i f); [exact R1|]. apply (fits_after a _ 8 8); [fm F|]. rewrite enc_length. apply le_n.
Qed.
Lemma seqlen t vs q : (length (seq_msg (MSG t) vs q) <= lsum (map (blen t) vs))%nat.
Proof. apply seq_blen. apply msg_blen. Qed.
Lemma tuplen ts vs q : (length (TMSG ts vs q) <= tup_blen ts vs)%nat.
Proof. apply tup_blen_ok. apply Forall_forall. intros t _. apply msg_blen. Qed.
Lemma size_feeds a k s n : Rel a s -> fits a 8 -> xfeeds (run h (ha_size h i f k s) n) a (size_msg le (fl_size f) k).
Proof. intros R F. apply xfeeds_run. now apply (ha_size_feeds h nul A au ar ok Rel RF fits FL gir g Hg i f). Qed.
Lemma int_feeds a b z s n : Rel a s -> fits a (ibytes b) -> xfeeds (run h (ha_int h i f b z s) n) a (enc le (ibytes b) z).
Proof. intros R F. apply xfeeds_run. now apply (ha_int_feeds h nul A au ar ok Rel RF fits FL gir g Hg i f). Qed.
Lemma zero_feeds a s n : Rel a s -> fits a 1 -> xfeeds (run h (ha_int h i f I8 0 s) n) a [0].
Proof. intros R F. apply xfeeds_run. now apply (ha_zero_feeds h nul A au ar ok Rel RF fits FL gir g Hg i f). Qed.
Lemma direct_feeds t v a s n : contiguously_hashable i f t = true -> has_type (im_psz i) t v -> Rel a s -> fits a (blen t v) ->
  xfeeds (run h (h_update h s (Ptr (obj i t v)) (size_of i t)) n) a (MSG t v (qa a)).
Proof. intros HC HV R F. apply xfeeds_run. now apply (contig_feeds h nul A au ar ok Rel RF fits FL gir g Hg i f). Qed.
Lemma xform_feeds {T} (k : call_ T) t a s n : XP t -> Rel a s -> form_ok k (has_type (im_psz i) t) -> fits a (form_blen k (blen t)) ->
  xfeeds (xform h gir i f k t (XA t) n s) a (form_msg le (fl_size f) k (MSG t) (qa a)).
Proof.
  intros HP R HV F. destruct k as [t' v|[|c] t' vs|[|c] t' vs|t' vs|z]; cbn [form_ok form_blen xform form_msg] in *.
  - now apply HP.
  - now apply xptr_feeds.
  - now apply xloop_feeds.
  - apply xfeeds_bind; [apply xptr_feeds; [exact HP|exact HV|exact R|fm F]|]. intros s1 n1 R1. apply size_feeds; [exact R1|]. rewrite Nat.add_comm in F. apply (fits_after a _ _ _ F), seqlen.
  - destruct c; (apply xfeeds_bind; [apply xloop_feeds; [exact HP|exact HV|exact R|fm F]|]; intros s1 n1 R1).
    + apply size_feeds; [exact R1|]. rewrite Nat.add_comm in F. apply (fits_after a _ _ _ F), seqlen.
    + apply xfeeds_throw; [exact R1|]. intros n2. apply size_feeds; [exact R1|]. rewrite Nat.add_comm in F. apply (fits_after a _ _ _ F), seqlen.
  - apply xunord_feeds; [exact HP|exact R|exact HV|exact F].
  - apply xfeeds_run. now apply (ha_size_of_feeds h nul A au ar ok Rel RF fits FL gir g Hg i f).
Qed.
Lemma xuser_feeds ts : Forall XP ts -> forall cs a s n, Rel a s -> Forall (UOK (im_psz i) ts) cs -> fits a (lsum (map (UBLEN ts) cs)) ->
  xfeeds (xcalls h (fun c n st => ucase (fun z => run h (ha_size_of h i f z st) n) (fun t => xform h gir i f c t (XA t) n st) UB ts c) cs n s) a
    (seq_msg (UMSG le (fl_size f) (im_psz i) (fadd0 i 8 23) (fadd0 i 11 52) ts) cs (qa a)).
Proof.
  intros H. induction cs as [|c cs IH]; intros a s n R HV F; cbn [xcalls seq_msg].
  - now apply xfeeds_end.
  - cbn [map lsum fold_right] in F. inversion HV as [|? ? V1 V2]; subst. apply xfeeds_throw; [exact R|]. intros n1. apply xfeeds_bind.
    + assert (F1 : fits a (UBLEN ts c)) by (apply (fits_lower a _ _ F); lia). clear - H R V1 F1 RF FL Hg Hnull.
      unfold UOK, UBLEN, UMSG in *. ucases H ts c z t HP HI HAl; [|now apply xform_feeds|contradiction].
      apply xfeeds_run. now apply (ha_size_of_feeds h nul A au ar ok Rel RF fits FL gir g Hg i f).
    + intros s1 n2 R1. rewrite (umsg_q _ _ _ _ _ ts cs _ _ (qa_step a _)). apply IH; [exact R1|exact V2|].
      apply (fits_after a _ _ _ F). apply umsg_blen.
Qed.
Ltac contig EC := match goal with |- context [(negb ?x && ?y)%bool] =>
     destruct (negb x && y)%bool eqn:EC; [apply andb_prop in EC; destruct EC as [_ EC]|] end.
Ltac nocontig := cbn [xha contiguously_hashable trivially_comparable andb]; rewrite not_contig.
Theorem xha_msg t : XP t.
Proof.
  induction t using ty_rect'; intros v a st n1 R HV F.
  all: destruct v as [z|vs]; try easy.
  1-4: cbn [xha]; contig EC; [now apply direct_feeds|]; cbn [msg]; apply int_feeds; [exact R|]; fm F.
  - nocontig. apply int_feeds; [exact R|]. fm F.
  - nocontig. apply (int_feeds a I32 _ st n1 R). fm F.
  - nocontig. apply (int_feeds a I64 _ st n1 R). fm F.
  - cbn [xha]. contig EC; [now apply direct_feeds|]. cbn [msg]. apply xptr_feeds; [assumption|apply HV|exact R|]. fm F.
  - nocontig. cbn [msg blen] in *. apply xfeeds_throw; [exact R|]. intros n2. apply xfeeds_bind.
    + apply xptr_feeds; [assumption|apply HV|exact R|]. fm F.
    + intros s1 n3 R1. apply size_feeds; [exact R1|]. rewrite Nat.add_comm in F. apply (fits_after a _ _ _ F), seqlen.
  - cbn [blen] in F. nocontig. destruct c; cbn [msg]; (apply xfeeds_throw; [exact R|]; intros n2; apply xfeeds_bind;
      [apply xloop_feeds; [assumption|exact HV|exact R|fm F]|intros s1 n3 R1]).
    + apply size_feeds; [exact R1|]. rewrite Nat.add_comm in F. apply (fits_after a _ _ _ F), seqlen.
    + apply xfeeds_throw; [exact R1|]. intros n4. apply size_feeds; [exact R1|]. rewrite Nat.add_comm in F. apply (fits_after a _ _ _ F), seqlen.
  - nocontig. cbn [has_type] in HV. destruct HV as [HL HV]. destruct vs as [|v vs]; cbn [length] in HL; subst n; cbn [Nat.eqb].
    + apply (zero_feeds a st n1 R). fm F.
    + apply xfeeds_throw; [exact R|]. intros n2. apply xptr_feeds; [assumption|exact HV|exact R|]. fm F.
  - nocontig. cbn [has_type] in HV. destruct HV as [HL HV]. destruct vs as [|v vs]; cbn [length] in HL; subst n; cbn [Nat.eqb].
    + apply (zero_feeds a st n1 R). fm F.
    + apply xfeeds_throw; [exact R|]. intros n2. apply xloop_feeds; [assumption|exact HV|exact R|]. fm F.
  - nocontig. cbn [blen] in F. cbn [msg]. apply xfeeds_throw; [exact R|]. intros n2. apply xunord_feeds; [exact IHt|exact R|exact HV|exact F].
  - cbn [has_type] in HV. rewrite each_ty in HV. destruct ts as [|t ts].
    + nocontig. apply (zero_feeds a st n1 R). fm F.
    + rewrite blen_tuple in F. rewrite xha_tuple, msg_tuple by discriminate. apply xeach_feeds; [assumption..|]. fm F.
  - cbn [has_type] in HV. destruct vs as [|[z|bv] [|[z2|mv] [|? ?]]]; try easy.
    rewrite !each_ty in HV. destruct HV as [HB HM]. rewrite xha_desc. rewrite blen_desc in F.
    assert (HD : (bs = [] /\ ms = []) \/ (bs <> [] \/ ms <> [])).
    { destruct bs; [destruct ms|]; [now left|right; right; discriminate|right; left; discriminate]. }
    destruct HD as [[-> ->]|HD].
    + destruct bv; [|easy]. destruct mv; [|easy]. cbn [xeach bind xbind done length Nat.add Nat.eqb]. apply (zero_feeds a st n1 R). fm F.
    + rewrite msg_desc by exact HD. apply xfeeds_bind; [apply xeach_feeds; [assumption..|]; fm F|]. intros s1 n2 R1.
      replace (Nat.eqb (length bs + length ms) 0) with false
        by (destruct bs; [destruct ms; [destruct HD; easy|]|]; cbn [length]; symmetry; apply Nat.eqb_neq; lia).
      rewrite (tup_msg_q _ _ _ _ _ ms mv _ _ (qa_step a _)).
      rewrite <- (app_nil_r (TMSG ms mv (qa (au a (TMSG bs bv (qa a)))))).
      apply xfeeds_bind; [|intros s2 n3 R2; now apply xfeeds_done].
      apply xeach_feeds; [assumption..|]. apply (fits_after a _ (tup_blen bs bv)); [fm F|apply tuplen].
  - cbn [has_type] in HV. rewrite each_ty in HV. destruct HV as [_ HV]. rewrite blen_tag in F.
    rewrite xha_tag, msg_tag. rewrite <- (app_nil_r (TMSG ts vs (qa a))). apply xfeeds_bind; [apply xeach_feeds; [assumption..|]; fm F|]. intros s1 n2 R1. now apply xfeeds_end.
  - destruct vs as [|[k|?] [|v [|? ?]]]; try easy. cbn [has_type blen] in HV, F. destruct HV as [HI HV].
    nocontig. pose proof (ibytes_8 s). alt_cases H ts (Z.to_nat k) t HP HN HAl; [|easy]. destruct lead; cbn [msg]; rewrite HAl.
    + apply xfeeds_throw; [exact R|]. intros n2. apply xfeeds_bind; [apply int_feeds; [exact R|fm F]|]. intros s1 n3 R1. apply xfeeds_throw; [exact R1|]. intros n4. rewrite HAl.
      rewrite (msg_ext _ _ _ _ _ t v _ _ (qa_step a _)). match goal with |- xfeeds _ _ ?m => rewrite <- (app_nil_r m) end.
      apply xfeeds_bind; [|intros s2 n5 R2; now apply xfeeds_end]. apply HP; [exact R1|exact HV|]. apply (fits_after a _ 8); [fm F|now rewrite enc_length].
    + apply xfeeds_throw; [exact R|]. intros n2. rewrite HAl. apply xfeeds_bind; [apply HP; [exact R|exact HV|fm F]|]. intros s1 n3 R1. apply xfeeds_throw; [exact R1|]. intros n4.
      match goal with |- xfeeds _ _ ?m => rewrite <- (app_nil_r m) end.
      apply xfeeds_bind; [|intros s2 n5 R2; now apply xfeeds_end]. apply int_feeds; [exact R1|]. apply (fits_after a _ (blen t v)); [fm F|apply msg_blen].
  - rewrite has_type_user in HV. destruct HV as [_ HV]. rewrite blen_user in F. rewrite msg_user.
    nocontig. match goal with |- context [?g0 (VInt z)] => apply (xuser_feeds ts H (g0 (VInt z)) a st n1 R HV) end. fm F.
  - rewrite has_type_user in HV. destruct HV as [_ HV]. rewrite blen_user in F. rewrite msg_user.
    nocontig. match goal with |- context [?g0 (VList vs)] => apply (xuser_feeds ts H (g0 (VList vs)) a st n1 R HV) end. fm F.
  - cbn [xha]. contig EC; [now apply direct_feeds|]. apply (IHt (VInt z) a st n1 R (proj1 (proj2 HV)) F).
  - cbn [xha]. contig EC; [now apply direct_feeds|]. apply (IHt (VList vs) a st n1 R (proj1 (proj2 HV)) F).
Qed.
Theorem xha_call_msg k a st n : Rel a st -> call_ok (im_psz i) k -> fits a (call_blen k) ->
  xfeeds (xha_call h gir i f k n st) a (call_msg le (fl_size f) (im_psz i) (fadd0 i 8 23) (fadd0 i 11 52) k (qa a)).
Proof.
  destruct k as [t v|d t vs|d t vs|t vs|z]; cbn [call_ok call_blen xha_call call_msg]; intros R HV F.
  1-4: apply xform_feeds; [apply xha_msg|exact R|exact HV|exact F].
  apply xfeeds_run. now apply (ha_size_of_feeds h nul A au ar ok Rel RF fits FL gir g Hg i f).
Qed.
End Corr.

(* when the ranges are not empty, whether data() of an empty range is null does not matter; as section Null of ProofAppend.v *)
Section Null.
Variable h : hasher.
Variable gir : h_R h -> res N.
Variable i : impl.
Variable f : flavor.
Notation H1 := (xha h gir i f).
Notation H2 := (xha h gir (no_null i) f).
Notation fn := (nat -> h_S h -> out h).
Lemma xbind_same (r : out h) (k1 k2 : h_S h -> nat -> out h) : (forall s n, k1 s n = k2 s n) -> xbind h r k1 = xbind h r k2.
Proof. intros E. destruct r as [[s [n|]]| | |]; cbn [xbind bind]; auto. Qed.
Lemma may_same n st (k1 k2 : nat -> out h) : (forall n, k1 n = k2 n) -> may_throw h n st k1 = may_throw h n st k2.
Proof. intros E. destruct n; cbn [may_throw]; auto. Qed.
Lemma may_if_same p n st (k1 k2 : nat -> out h) : (forall n, k1 n = k2 n) -> may_throw_if h p n st k1 = may_throw_if h p n st k2.
Proof. intros E. destruct p; cbn [may_throw_if]; [now apply may_same|apply E]. Qed.
Lemma xloop_same {X : Type} p (F G : X -> fn) vs : Forall (fun v => forall n st, F v n st = G v n st) vs ->
  forall n st, xloop h p F vs n st = xloop h p G vs n st.
Proof.
  induction 1 as [|v vs E _ IH]; intros n st; cbn [xloop]; [reflexivity|]. apply may_if_same. intros n1. apply may_if_same. intros n2. rewrite E. apply xbind_same.
  intros s n3. apply may_if_same. intros n4. apply IH.
Qed.
Lemma xcalls_same {X : Type} (F G : X -> fn) vs : Forall (fun v => forall n st, F v n st = G v n st) vs ->
  forall n st, xcalls h F vs n st = xcalls h G vs n st.
Proof. induction 1 as [|v vs E _ IH]; intros n st; cbn [xcalls]; [reflexivity|]. apply may_same. intros n1. rewrite E. apply xbind_same. intros s n3. apply IH. Qed.
Lemma xunord_same (F G : val -> fn) vs : Forall (fun v => forall n st, F v n st = G v n st) vs ->
  forall st w m n, xunord h gir F st vs w m n = xunord h gir G st vs w m n.
Proof.
  induction 1 as [|v vs E _ IH]; intros st w m n; cbn [xunord]; [reflexivity|]. destruct n as [|[|n]]; try reflexivity. rewrite E.
  destruct (G v n st) as [[s1 [n1|]]| | | ]; cbn [bind]; auto.
  destruct (h_result h s1) as [[r s2]| | | ]; cbn [bind]; auto. destruct (gir r); cbn [bind]; auto. destruct n1; auto.
Qed.
Lemma xptr_same t (F G : val -> fn) vs n st : vs <> [] -> Forall (fun v => forall n st, F v n st = G v n st) vs ->
  xptr_range h i f t F vs n st = xptr_range h (no_null i) f t G vs n st.
Proof.
  intros HN E. unfold xptr_range. change (contiguously_hashable (no_null i) f t) with (contiguously_hashable i f t).
  change (obj (no_null i)) with (obj i). change (size_of (no_null i)) with (size_of i). change (im_pf (no_null i)) with (im_pf i).
  rewrite (xloop_same false F G vs E n st). destruct vs as [|v vs]; [easy|]. reflexivity.
Qed.
Definition xsame (t : ty) : Prop := forall v n st, has_type (im_psz i) t v -> null_free t v -> H1 t v n st = H2 t v n st.
Lemma xsame_all t vs : xsame t -> Forall (has_type (im_psz i) t) vs -> Forall (null_free t) vs -> Forall (fun v => forall n st, H1 t v n st = H2 t v n st) vs.
Proof. intros HS HT HN. rewrite Forall_forall in *. intros v Hv n st. apply HS; auto. Qed.
Lemma xeach_same p ts : Forall xsame ts -> forall vs n st, Zip (has_type (im_psz i)) ts vs ->
  (fix all (ts : list ty) (vs : list val) : Prop :=
    match ts, vs with
    | t :: ts, v :: vs => null_free t v /\ all ts vs
    | _, _ => True
    end) ts vs -> xeach i f h gir p ts vs n st = xeach (no_null i) f h gir p ts vs n st.
Proof.
  induction 1 as [|t ts HS _ IH]; intros [|v vs] n st HZ HN; [reflexivity|destruct HZ|destruct HZ|]. cbn [xeach]. destruct HZ as [Z1 Z2], HN as [N1 N2].
  apply may_if_same. intros n1. rewrite (HS v n1 st Z1 N1). apply xbind_same. intros s n2. now apply IH.
Qed.
Lemma xunord_range_same (F G : val -> fn) vs n st : Forall (fun v => forall n st, F v n st = G v n st) vs ->
  xunord_range h gir i f F vs n st = xunord_range h gir (no_null i) f G vs n st.
Proof. intros E. unfold xunord_range. rewrite (xunord_same F G vs E). reflexivity. Qed.
Lemma xform_same {T} (k : call_ T) t n st : xsame t -> form_ok k (has_type (im_psz i) t) -> form_null k (null_free t) ->
  xform h gir i f k t (H1 t) n st = xform h gir (no_null i) f k t (H2 t) n st.
Proof.
  intros HS HT HN. destruct k as [t' v|[|c] t' vs|[|c] t' vs|t' vs|z]; cbn [form_ok form_null xform] in *.
  - now apply HS.
  - apply xptr_same; [apply HN|]. now apply xsame_all.
  - apply xloop_same. now apply xsame_all.
  - destruct HN as [N1 N2]. rewrite (xptr_same t (H1 t) (H2 t) vs n st N1 (xsame_all t vs HS HT N2)). reflexivity.
  - rewrite (xloop_same true (H1 t) (H2 t) vs (xsame_all t vs HS HT HN)). reflexivity.
  - apply xunord_range_same. now apply xsame_all.
  - reflexivity.
Qed.
Lemma xuser_same ts : Forall xsame ts -> forall cs, Forall (UOK (im_psz i) ts) cs -> Forall (UNF ts) cs -> forall n st,
  xcalls h (fun c n st => ucase (fun z => run h (ha_size_of h i f z st) n) (fun t => xform h gir i f c t (H1 t) n st) UB ts c) cs n st =
  xcalls h (fun c n st => ucase (fun z => run h (ha_size_of h (no_null i) f z st) n) (fun t => xform h gir (no_null i) f c t (H2 t) n st) UB ts c) cs n st.
Proof.
  intros H cs HT HN. apply xcalls_same. rewrite Forall_forall in HT, HN |- *. intros c Hc n st. specialize (HT c Hc). specialize (HN c Hc). clear Hc.
  unfold UOK, UNF in *. ucases H ts c z t HP HI HAl; [reflexivity|now apply xform_same|contradiction].
Qed.
Theorem xha_null t : xsame t.
Proof.
  assert (HL : forall (t : ty) (vs : list val) n, n <> 0%nat -> length vs = n -> vs <> []) by (intros ? [|] n; cbn; congruence).
  induction t using ty_rect'; intros v n0 st HT HN; destruct v as [z|vs]; try (exfalso; exact HT).
  1-7: reflexivity.
  - cbn [has_type null_free] in *. cbn [xha]. destruct HT as (T1 & T2 & T3).
    rewrite (xptr_same t (H1 t) (H2 t) vs n0 st); [reflexivity|now apply (HL t vs n)|now apply xsame_all].
  - cbn [has_type null_free] in *. cbn [xha contiguously_hashable trivially_comparable andb]. rewrite !not_contig. apply may_same. intros n1.
    rewrite (xptr_same t (H1 t) (H2 t) vs n1 st); [reflexivity|apply HN|]. now apply xsame_all.
  - cbn [has_type null_free] in *. cbn [xha contiguously_hashable trivially_comparable andb]. rewrite !not_contig. destruct c; apply may_same; intros n1;
      (rewrite (xloop_same true (H1 t) (H2 t) vs); [reflexivity|]); now apply xsame_all.
  - cbn [has_type null_free] in *. cbn [xha contiguously_hashable trivially_comparable andb]. rewrite !not_contig. destruct HT as [T1 T2]. destruct (Nat.eqb_spec n 0) as [->|T3]; [reflexivity|].
    apply may_same. intros n1. apply xptr_same; [now apply (HL t vs n)|now apply xsame_all].
  - cbn [has_type null_free] in *. cbn [xha contiguously_hashable trivially_comparable andb]. rewrite !not_contig. destruct HT as [T1 T2]. destruct (Nat.eqb n 0); [reflexivity|].
    apply may_same. intros n1. apply xloop_same. now apply xsame_all.
  - cbn [has_type null_free] in *. cbn [xha contiguously_hashable trivially_comparable andb]. rewrite !not_contig. apply may_same. intros n1. apply xunord_range_same. now apply xsame_all.
  - cbn [has_type null_free] in *. rewrite each_ty in HT. destruct ts as [|t ts]; [reflexivity|].
    rewrite !xha_tuple by discriminate. now apply xeach_same.
  - cbn [has_type null_free] in *. destruct vs as [|[z|bv] [|[z2|mv] [|? ?]]]; try (exfalso; exact HT). rewrite !each_ty in HT.
    rewrite !xha_desc. rewrite (xeach_same false bs H bv n0 st) by tauto. apply xbind_same. intros s1 n1.
    rewrite (xeach_same false ms H0 mv) by tauto. reflexivity.
  - cbn [has_type null_free] in *. rewrite each_ty in HT. rewrite !xha_tag. rewrite (xeach_same true ts H vs n0 st) by tauto. reflexivity.
  - destruct vs as [|[k|?] [|v [|? ?]]]; try (exfalso; exact HT). cbn [has_type null_free] in *. destruct HT as [_ HT].
    cbn [xha contiguously_hashable trivially_comparable andb]. rewrite !not_contig.
    alt_cases H ts (Z.to_nat k) t HP HI HAl; [|easy]. destruct lead.
    + apply may_same. intros n1. change (ha_int h (no_null i) f s k st) with (ha_int h i f s k st). apply xbind_same. intros s1 n2. apply may_same. intros n3.
      rewrite !HAl. rewrite (HP v n3 s1 HT HN). reflexivity.
    + apply may_same. intros n1. rewrite !HAl. rewrite (HP v n1 st HT HN). reflexivity.
  - rewrite has_type_user in HT. rewrite null_free_user in HN. cbn [xha contiguously_hashable trivially_comparable andb]. rewrite !not_contig.
    now apply xuser_same.
  - rewrite has_type_user in HT. rewrite null_free_user in HN. cbn [xha contiguously_hashable trivially_comparable andb]. rewrite !not_contig.
    now apply xuser_same.
  - cbn [xha]. change (contiguously_hashable (no_null i) f) with (contiguously_hashable i f).
    rewrite (IHt (VInt z) n0 st (proj1 (proj2 HT)) HN). reflexivity.
  - cbn [xha]. change (contiguously_hashable (no_null i) f) with (contiguously_hashable i f).
    rewrite (IHt (VList vs) n0 st (proj1 (proj2 HT)) HN). reflexivity.
Qed.
Theorem xcall_null k n st : call_ok (im_psz i) k -> call_null_free k -> xha_call h gir i f k n st = xha_call h gir (no_null i) f k n st.
Proof.
  destruct k as [t v|d t vs|d t vs|t vs|z]; cbn [call_ok call_null_free xha_call]; intros HT HN.
  1-4: apply xform_same; [apply xha_null|exact HT|exact HN].
  reflexivity.
Qed.
End Null.

(* all together *)
Theorem xcall_feeds h nul A au ar ok Rel (RF : refines h nul A au ar ok Rel) fits (FL : fits_laws au ar ok fits) gir g
  (Hg : forall a, gir (fst (ar a)) = Ok (g (fst (ar a)))) i f k a st n :
  (im_null i = true -> nul = true \/ call_null_free k) -> Rel a st -> call_ok (im_psz i) k -> fits a (call_blen k) ->
  xfeeds h A au Rel (xha_call h gir i f k n st) a
    (call_msg (order_le (fl_order f)) (fl_size f) (im_psz i) (fadd0 i 8 23) (fadd0 i 11 52) k (qa h A au ar g a)).
Proof.
  intros HN R HK F.
  assert (D : (im_null i = true -> nul = true) \/ call_null_free k).
  { destruct (im_null i); [destruct (HN eq_refl); auto|left; discriminate]. }
  destruct D as [D|D].
  - eapply xha_call_msg; eassumption.
  - rewrite xcall_null by assumption. eapply (xha_call_msg h nul A au ar ok Rel RF fits FL gir g Hg (no_null i)); try assumption. discriminate.
Qed.

(* unordered ranges and containers: left by an exception, the object is as before the call *)
Definition unordered_call (k : call) : Prop :=
  match k with KUnord _ _ => True | KVal (TUnord _) (VList _) => True | _ => False end.
Lemma xunord_range_throw h gir i f F vs n st s' : xunord_range h gir i f F vs n st = Ok (s', None) -> s' = st.
Proof.
  unfold xunord_range. destruct (xunord h gir F st vs 0 0 n) as [[[[w m] n']|]| | |]; cbn [bind]; try discriminate.
  - unfold run. destruct (st <- ha_int h i f I64 (Z.of_N w) st ;; ha_size h i f m st); discriminate.
  - intros E. congruence.
Qed.
Lemma unordered_throw h gir i f k n st s' : unordered_call k -> xha_call h gir i f k n st = Ok (s', None) -> s' = st.
Proof.
  destruct k as [t v|d t vs|d t vs|t vs|z]; cbn [unordered_call xha_call xform]; try contradiction.
  - destruct t; try contradiction. destruct v as [|vs]; try contradiction. intros _. cbn [xha contiguously_hashable trivially_comparable andb]. rewrite not_contig.
    destruct n as [|n]; cbn [may_throw]; [congruence|]. apply xunord_range_throw.
  - intros _. apply xunord_range_throw.
Qed.

(* C45: hash_append with user-defined hash algorithms; C46: hmac over user-defined algorithms. *)
From Verif Require Import Base BaseFacts SpecCommon Hasher Types ModelResult ModelAppend SpecAppend
  ProofMsg ProofMsgEq ProofMsgExt ProofAppend Behaves UserAlg Instances ProofRuns PropsHistory Samples PropsAppend.
Open Scope N_scope.

(* get_integral_result<std::uint64_t>( r ), by result type *)
Definition gir64 (pf : plat) (r : result) : res N :=
  match r with RInt s x => gir_int I64 s x | RDigest d => gir_digest pf I64 d end.
(* A program on a class [h] whose result_type is seen as [view]; [digest_result]: array-like results
   have at least 8 elements (a static_assert of get_integral_result) *)
Definition uruns (h : hasher) (view : h_R h -> result) (i : impl) (f : flavor) (c : ctor) (xs : list ustep) : res (list result) :=
  rs <- program h (fun r => gir64 (im_pf i) (view r)) i f c xs ;; Ok (map view rs).
Definition uvalid (nul : bool) (i : impl) (c : ctor) (xs : list ustep) : Prop :=
  valid_ctor c /\ Forall (valid_step nul i) xs.

Definition digest_okb (r : result) : bool :=
  match r with RInt _ _ => true | RDigest d => forallb (fun b => b <? 256) d && Nat.leb 8 (length d) end.
Lemma digest_okb_ok r : digest_okb r = true <-> digest_result r.
Proof.
  destruct r as [s x|d]; cbn [digest_okb digest_result]; [tauto|]. rewrite andb_true_iff, Nat.leb_le. unfold bytes. rewrite forallb_forall, Forall_forall.
  split; intros [H1 H2]; (split; [intros b Hb; apply N.ltb_lt; now apply H1|exact H2]).
Qed.
Lemma gir64_ok pf r : digest_result r -> gir64 pf r = Ok (result64 r).
Proof. destruct r as [s x|d]; cbn; [intros _; apply gir_int64|intros [H1 H2]; now apply gir_digest64]. Qed.

Section User.
Variable h : hasher.
Variable nul : bool.
Hypothesis HA : hash_algorithm h nul.
Variable view : h_R h -> result.
Hypothesis HR : all_results h nul (fun r => digest_result (view r)).
Variable r0 : h_R h.
Hypothesis H0 : digest_result (view r0).
Notation okr := (fun r => digest_okb (view r)).
Notation AR := (fun u => (view (fst (u_ar h okr r0 u)), snd (u_ar h okr r0 u))).
Definition uexpected (i : impl) (f : flavor) (u : U) (xs : list ustep) : list result :=
  aprun u_au AR result64 (call_message i f) u xs.
Definition usteps (i : impl) (f : flavor) (u : U) (xs : list ustep) : U :=
  asteps u_au AR result64 (call_message i f) u xs.
Definition uquery (u : U) : list N -> N := aq u_au AR result64 u.

Lemma user_results : all_results h nul (fun r => okr r = true).
Proof. intros c ops rs HC HV E. eapply Forall_impl; [|exact (HR c ops rs HC HV E)]. intros r. cbn. apply digest_okb_ok. Qed.
Lemma user_runs i f c xs : uvalid nul i c xs -> uruns h view i f c xs = Ok (uexpected i f (u_start c) xs).
Proof.
  intros [HC HV]. unfold uruns.
  destruct (program_ok h nul U result u_au AR u_start view anyfit (u_behaves h nul HA okr user_results r0 result view)
    (fun r => gir64 (im_pf i) (view r)) result64) with (i := i) (f := f) (c := c) (xs := xs) as (rs & E & M); try assumption.
  - intros a r E. apply gir64_ok. cbn [fst] in E. rewrite E. apply digest_okb_ok.
    apply (u_okr h okr r0 a). now apply digest_okb_ok.
  - exact I.
  - rewrite E. cbn [bind]. now rewrite M.
Qed.
Lemma user_app i f u xs ys : uexpected i f u (xs ++ ys) = uexpected i f u xs ++ uexpected i f (usteps i f u xs) ys.
Proof. apply aprun_app. Qed.
Lemma user_steps_app i f u xs ys : usteps i f u (xs ++ ys) = usteps i f (usteps i f u xs) ys.
Proof. apply asteps_app. Qed.
Lemma user_interchange i f c pre x y post : uvalid nul i c (pre ++ x ++ post) -> Forall (valid_step nul i) y ->
  Forall (fun s => s <> SResult) x -> Forall (fun s => s <> SResult) y ->
  usteps i f (u_start c) (pre ++ x) = usteps i f (u_start c) (pre ++ y) ->
  exists rs, uruns h view i f c (pre ++ x ++ post) = Ok rs /\ uruns h view i f c (pre ++ y ++ post) = Ok rs.
Proof.
  intros HV HY NX NY ES. eexists. split; [now apply user_runs|].
  assert (HV' : uvalid nul i c (pre ++ y ++ post)).
  { destruct HV as [HC HV]. split; [exact HC|]. rewrite !Forall_app in *. tauto. }
  rewrite user_runs by exact HV'. f_equal. rewrite !user_app.
  rewrite !user_steps_app in ES. rewrite ES. f_equal. f_equal.
  assert (HN : forall z, Forall (fun s => s <> SResult) z -> forall u, uexpected i f u z = []).
  { clear. induction 1 as [|[p n| |k] z H NZ IH]; intros s; cbn [uexpected aprun]; unfold uexpected in *; auto. easy. }
  now rewrite !HN.
Qed.
Lemma user_query i f c pre x : uvalid nul i c pre -> bytes x -> exists rs r,
  uruns h view i f c (pre ++ [feed x; SResult]) = Ok (rs ++ [r]) /\ result64 r = uquery (usteps i f (u_start c) pre) x.
Proof.
  intros [HC HV] HX. rewrite user_runs.
  - rewrite user_app. eexists _, _. split; [reflexivity|]. unfold uquery, aq, feed. cbn [data fst]. now rewrite firstn_all.
  - split; [exact HC|]. apply Forall_app. split; [exact HV|].
    constructor; [split; [apply le_n|exact HX]|]. constructor; [exact I|constructor].
Qed.
Lemma user_call_state i f c pre k : usteps i f (u_start c) (pre ++ [SCall k]) =
  u_au (usteps i f (u_start c) pre) (call_message i f k (uquery (usteps i f (u_start c) pre))).
Proof. rewrite user_steps_app. reflexivity. Qed.
Lemma user_feed_state i f c pre m : usteps i f (u_start c) (pre ++ [feed m]) = u_au (usteps i f (u_start c) pre) m.
Proof. rewrite user_steps_app. cbn [usteps asteps feed data]. unfold usteps. cbn [asteps feed data]. now rewrite firstn_all. Qed.
End User.

(* there is a result *)
Lemma some_result h nul (P : h_R h -> Prop) : hash_algorithm h nul -> all_results h nul P -> exists r0, P r0.
Proof.
  intros HA HP. assert (HV : Forall (valid_op nul) [OResult]) by (repeat constructor).
  destruct (al_runs _ _ HA CDefault [OResult] I HV) as (rs & E). pose proof (HP CDefault _ _ I HV E) as HF.
  destruct (session_inv _ _ _ _ E) as (s & E2). apply session_ok in E2. unfold session in E2. cbn [construct bind run] in E2.
  destruct (h_result h (h_init h)) as [[r s1]| | |]; cbn [bind] in E2; try discriminate. injection E2 as <-. inversion HF. eauto.
Qed.

(* hash_append and the range functions feed the documented message to every algorithm that meets
   the requirements, in every program *)
Theorem C45_feeds h nul view i f c pre k post q m :
  hash_algorithm h nul -> all_results h nul (fun r => digest_result (view r)) ->
  uvalid nul i c (pre ++ [SCall k] ++ post) ->
  (forall x, bytes x -> exists rs r, uruns h view i f c (pre ++ [feed x; SResult]) = Ok (rs ++ [r]) /\ result64 r = q x) ->
  m = call_message i f k q ->
  exists rs, uruns h view i f c (pre ++ [SCall k] ++ post) = Ok rs /\ uruns h view i f c (pre ++ [feed m] ++ post) = Ok rs.
Proof.
  intros HA HR HV HQ ->. destruct (some_result h nul _ HA HR) as (r0 & H0).
  assert (HVp : uvalid nul i c pre). { destruct HV as [HC HV]. split; [exact HC|]. rewrite Forall_app in HV. tauto. }
  apply (user_interchange h nul HA view HR r0 H0); try assumption.
  - constructor; [|constructor]. split; [apply le_n|]. apply call_msg_bytes.
  - constructor; [discriminate|constructor].
  - constructor; [discriminate|constructor].
  - rewrite user_call_state, user_feed_state. f_equal. apply call_ext_b. intros x Bx _.
    destruct (HQ x Bx) as (rs & r & E1 & E2).
    destruct (user_query h nul HA view HR r0 H0 i f c pre x HVp Bx) as (rs' & r' & F1 & F2).
    rewrite F1 in E1. injection E1 as E1. apply app_inj_tail in E1. destruct E1 as [_ <-]. congruence.
Qed.
Theorem C45_query h nul view i f c pre :
  hash_algorithm h nul -> all_results h nul (fun r => digest_result (view r)) -> uvalid nul i c pre ->
  exists q, forall x, bytes x -> exists rs r, uruns h view i f c (pre ++ [feed x; SResult]) = Ok (rs ++ [r]) /\ result64 r = q x.
Proof.
  intros HA HR HV. destruct (some_result h nul _ HA HR) as (r0 & H0). eexists. intros x HX.
  apply (user_query h nul HA view HR r0 H0 i f c pre x HV HX).
Qed.

(* equal values are interchangeable *)
Theorem C45_equal_values h nul view i f c pre t v1 v2 post :
  hash_algorithm h nul -> all_results h nul (fun r => digest_result (view r)) -> im_down i = false ->
  uvalid nul i c (pre ++ [SAppend t v1] ++ post) -> uvalid nul i c (pre ++ [SAppend t v2] ++ post) ->
  equal t v1 v2 ->
  exists rs, uruns h view i f c (pre ++ [SAppend t v1] ++ post) = Ok rs /\ uruns h view i f c (pre ++ [SAppend t v2] ++ post) = Ok rs.
Proof.
  intros HA HR HD V1 V2 EQ. destruct (some_result h nul _ HA HR) as (r0 & H0).
  assert (HC : forall k, uvalid nul i c (pre ++ [SCall k] ++ post) -> valid_step nul i (SCall k)).
  { intros k [_ HV]. rewrite Forall_app in HV. destruct HV as [_ HV]. cbn [app] in HV. now inversion HV. }
  apply (user_interchange h nul HA view HR r0 H0); try assumption.
  - constructor; [now apply HC|constructor].
  - constructor; [discriminate|constructor].
  - constructor; [discriminate|constructor].
  - rewrite !user_call_state. f_equal. unfold call_message. cbn [call_msg form_msg].
    apply msg_equal; try assumption.
    + now apply fadd0_zeros32.
    + now apply fadd0_zeros64.
    + apply (HC _ V1).
    + apply (HC _ V2).
Qed.

(* no valid program fails *)
Theorem C45_no_failure h nul view i f c xs :
  hash_algorithm h nul -> all_results h nul (fun r => digest_result (view r)) -> uvalid nul i c xs ->
  exists rs, uruns h view i f c xs = Ok rs.
Proof.
  intros HA HR HV. destruct (some_result h nul _ HA HR) as (r0 & H0). eexists. now apply (user_runs h nul HA view HR r0 H0).
Qed.

(* ---------- the algorithms of the library meet the requirements ---------- *)
(* (spooky2_128 does not: it fails an assertion after 2^w bytes, C18_spooky_overflow_refuted) *)
Definition step_of (o : op) : ustep := match o with OUpdate p n => SUpdate p n | OResult => SResult end.
Lemma program_ops h gir i f c ops : program h gir i f c (map step_of ops) = session h c ops.
Proof.
  unfold program, session. destruct (construct h c) as [s| | |]; cbn [bind]; auto.
  revert s. induction ops as [|[p n|] t IH]; intros s; cbn [map step_of prun run bind]; auto.
  - destruct (h_update h s p n) as [s1| | |]; cbn [bind]; auto.
  - destruct (h_result h s) as [[r s1]| | |]; cbn [bind]; auto. rewrite IH. destruct (run h s1 t) as [[rs s2]| | |]; reflexivity.
Qed.
Lemma aprun_ops {A R} (au : A -> list N -> A) (ar : A -> R * A) g M ops : forall a,
  aprun au ar g M a (map step_of ops) = fst (arun au ar a ops).
Proof.
  induction ops as [|[p n|] t IH]; intros a; cbn [map step_of aprun arun]; auto.
  rewrite IH. destruct (ar a) as [r a']. cbn [fst snd]. destruct (arun au ar a' t); reflexivity.
Qed.
Lemma pack_out_inj e a r1 r2 : pk_out (pack e a) r1 = pk_out (pack e a) r2 -> r1 = r2.
Proof.
  assert (HD : forall h E (x y : h_R h), pk_out (pack_digest e h E) x = pk_out (pack_digest e h E) y -> x = y).
  { intros h E x y H. cbn [pk_out pack_digest] in H. injection H as H. destruct E. exact H. }
  assert (HI : forall s h E (x y : h_R h), pk_out (pack_int s h E) x = pk_out (pack_int s h E) y -> x = y).
  { intros s h E x y H. cbn [pk_out pack_int] in H. injection H as H. destruct E. exact H. }
  destruct a as [m|m| | | | | | | | | ]; try (destruct m); cbn [pack] in *; first [apply HD|apply HI].
Qed.
Lemma map_out_inj e a rs1 : forall rs2, map (pk_out (pack e a)) rs1 = map (pk_out (pack e a)) rs2 -> rs1 = rs2.
Proof.
  induction rs1 as [|r rs IH]; intros [|r2 rs2] H; try discriminate; [reflexivity|]. cbn [map] in H. injection H as H1 H2.
  apply pack_out_inj in H1. apply IH in H2. now subst.
Qed.
Lemma session_library e a c ops : valid_env e -> a <> Aspooky -> valid_ctor c -> Forall (valid_op (nul_of a)) ops ->
  exists rs, session (pk_h (pack e a)) c ops = Ok rs /\
    map (pk_out (pack e a)) rs = aseg (mc_au (machine_of (e_cw e) a)) (mc_ar (machine_of (e_cw e) a)) (mc_start (machine_of (e_cw e) a) c) (segments [] ops).
Proof.
  intros HE HA HC HV.
  assert (HX : valid_program e a c (map step_of ops)).
  { split; [exact HC|]. induction HV as [|[p n|] t Ho HT IH]; cbn [map step_of]; constructor; auto. }
  assert (HR : room e a c (map step_of ops)) by (unfold room; destruct a; exact I || easy).
  pose proof (runs_expected e a le_flavor c _ HE HX HR) as E. unfold runs in E. rewrite program_ops in E.
  destruct (session (pk_h (pack e a)) c ops) as [rs| | |]; cbn [bind] in E; try discriminate. exists rs. split; [reflexivity|].
  injection E as ->. unfold expected. rewrite aprun_ops.
  rewrite <- (machine_nil (e_cw e) a (mc_start (machine_of (e_cw e) a) c)) at 1.
  apply arun_segments; [apply machine_nil|apply machine_app].
Qed.
Lemma aseg_results {A R} (au : A -> list N -> A) (ar : A -> R * A) (P : R -> Prop) : (forall a, P (fst (ar a))) ->
  forall segs a, Forall P (aseg au ar a segs).
Proof.
  intros HP. induction segs as [|d [|d2 t] IH]; intros a; try constructor.
  change (Forall P (let '(r, a') := ar (au a d) in r :: aseg au ar a' (d2 :: t))).
  pose proof (HP (au a d)) as H. destruct (ar (au a d)) as [r a']. constructor; [exact H|apply IH].
Qed.
Theorem C45_library e a : valid_env e -> a <> Aspooky ->
  hash_algorithm (pk_h (pack e a)) (nul_of a) /\
  all_results (pk_h (pack e a)) (nul_of a) (fun r => digest_result (pk_out (pack e a) r)).
Proof.
  intros HE HA. pose proof (fun c ops => session_library e a c ops HE HA) as HS. split; [constructor|].
  - intros c ops HC HV. destruct (HS c ops HC HV) as (rs & E & _). eauto.
  - intros c o1 o2 HC V1 V2 ES. destruct (HS c o1 HC V1) as (r1 & E1 & M1). destruct (HS c o2 HC V2) as (r2 & E2 & M2).
    rewrite E1, E2. f_equal. apply (map_out_inj e a). now rewrite M1, M2, ES.
  - intros ops HV. assert (H0 : valid_ctor (CSeed 0)) by reflexivity.
    destruct (HS (CSeed 0) ops H0 HV) as (r1 & E1 & M1). destruct (HS CDefault ops I HV) as (r2 & E2 & M2).
    rewrite E1, E2. f_equal. apply (map_out_inj e a). rewrite M1, M2. now rewrite (proj1 (start_zero (e_cw e) a Null)).
  - intros p ops HP HV. destruct (HS (CBytes p 0) ops HP HV) as (r1 & E1 & M1). destruct (HS CDefault ops I HV) as (r2 & E2 & M2).
    rewrite E1, E2. f_equal. apply (map_out_inj e a). rewrite M1, M2. now rewrite (proj2 (start_zero (e_cw e) a p)).
  - intros c ops rs HC HV E. destruct (HS c ops HC HV) as (rs' & E' & M). rewrite E in E'. injection E' as <-.
    assert (HF : Forall digest_result (map (pk_out (pack e a)) rs)).
    { rewrite M. apply aseg_results. intros s. apply machine_digest. }
    rewrite Forall_map in HF. exact HF.
Qed.

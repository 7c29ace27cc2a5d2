(* User-defined hash algorithms: the documented requirements (doc/hash2/hashing_bytes.adoc, "Hash
   Algorithm Requirements"), stated about observable call histories only, and the fact that a class
   that meets them behaves like an abstract machine (Behaves.v). *)
From Verif Require Import Base BaseFacts Hasher Types ModelResult ModelAppend SpecAppend ProofMsg ProofAppend Behaves.
Open Scope N_scope.

(* [nul]: whether update( nullptr, 0 ) is supported *)
Record hash_algorithm (h : hasher) (nul : bool) : Prop := {
  (* valid calls succeed *)
  al_runs : forall c ops, valid_ctor c -> Forall (valid_op nul) ops -> exists rs, session h c ops = Ok rs;
  (* "Calling update several times is equivalent to calling it once with the concatenated byte
     sequences from the individual calls": histories that feed the same bytes before, between and
     after their result() calls have the same results *)
  al_parts : forall c ops1 ops2, valid_ctor c -> Forall (valid_op nul) ops1 -> Forall (valid_op nul) ops2 ->
    segments [] ops1 = segments [] ops2 -> session h c ops1 = session h c ops2;
  (* "Using a seed value of 0 is equivalent to default construction" *)
  al_zero : forall ops, Forall (valid_op nul) ops -> session h (CSeed 0) ops = session h CDefault ops;
  (* "A null sequence (one with length 0) produces a default-constructed instance" *)
  al_null : forall p ops, valid_arg true p 0 -> Forall (valid_op nul) ops ->
    session h (CBytes p 0) ops = session h CDefault ops }.

(* every result the class can return satisfies P *)
Definition all_results (h : hasher) (nul : bool) (P : h_R h -> Prop) : Prop :=
  forall c ops rs, valid_ctor c -> Forall (valid_op nul) ops -> session h c ops = Ok rs -> Forall P rs.

(* ---------- histories ---------- *)
Fixpoint canon (segs : list (list N)) : list op :=
  match segs with
  | [] => []
  | [d] => [OUpdate (Ptr d) (length d)]
  | d :: t => OUpdate (Ptr d) (length d) :: OResult :: canon t
  end.
Lemma segments_canon segs : segs <> [] -> segments [] (canon segs) = segs.
Proof.
  induction segs as [|d [|d' t] IH]; intros H; [easy| |].
  - cbn. now rewrite firstn_all.
  - change (segments [] (OUpdate (Ptr d) (length d) :: OResult :: canon (d' :: t)) = d :: d' :: t).
    cbn [segments data]. rewrite firstn_all. cbn [app]. f_equal. apply IH. discriminate.
Qed.
Lemma canon_valid nul segs : Forall bytes segs -> Forall (valid_op nul) (canon segs).
Proof.
  induction 1 as [|d [|d' t] Hd HT IH]; [constructor| |].
  - constructor; [|constructor]. split; [apply le_n|exact Hd].
  - change (Forall (valid_op nul) (OUpdate (Ptr d) (length d) :: OResult :: canon (d' :: t))).
    constructor; [split; [apply le_n|exact Hd]|]. constructor; [exact I|exact IH].
Qed.
Lemma segments_update acc ops p n dn cur : segments acc ops = dn ++ [cur] ->
  segments acc (ops ++ [OUpdate p n]) = dn ++ [cur ++ data p n].
Proof.
  revert acc dn. induction ops as [|[p' n'|] t IH]; intros acc dn H; cbn [segments app] in *.
  - destruct dn as [|x dn]; [injection H as ->; reflexivity|]. injection H as -> H. destruct dn; discriminate.
  - now apply IH.
  - destruct dn as [|x dn].
    + cbn [app] in H. injection H as -> H. exfalso. now apply (segments_nonempty [] t).
    + cbn [app] in *. injection H as -> H. f_equal. now apply IH.
Qed.
Lemma segments_result acc ops dn cur : segments acc ops = dn ++ [cur] ->
  segments acc (ops ++ [OResult]) = (dn ++ [cur]) ++ [[]].
Proof.
  revert acc dn. induction ops as [|[p' n'|] t IH]; intros acc dn H; cbn [segments app] in *.
  - destruct dn as [|x dn]; [injection H as ->; reflexivity|]. injection H as -> H. destruct dn; discriminate.
  - now apply IH.
  - destruct dn as [|x dn].
    + cbn [app] in H. injection H as -> H. exfalso. now apply (segments_nonempty [] t).
    + cbn [app] in *. injection H as -> H. f_equal. now apply IH.
Qed.
Lemma segments_bytes nul ops : Forall (valid_op nul) ops -> forall acc, bytes acc -> Forall bytes (segments acc ops).
Proof.
  induction 1 as [|[p n|] t H HT IH]; intros acc HA; cbn [segments].
  - now constructor.
  - apply IH. apply bytes_app. split; [exact HA|]. apply (valid_data _ _ _ H).
  - constructor; [exact HA|]. apply IH. constructor.
Qed.

Lemma run_app h xs ys : forall s, run h s (xs ++ ys) = ('(r1, s) <- run h s xs ;; '(r2, s) <- run h s ys ;; Ok (r1 ++ r2, s)).
Proof.
  induction xs as [|[p n|] xs IH]; intros s; cbn [run app bind].
  - destruct (run h s ys) as [[r2 s2]| | |]; reflexivity.
  - destruct (h_update h s p n) as [s1| | |]; cbn [bind]; auto.
  - destruct (h_result h s) as [[r s1]| | |]; cbn [bind]; auto. rewrite IH.
    destruct (run h s1 xs) as [[r1 s2]| | |]; cbn [bind]; auto.
    destruct (run h s2 ys) as [[r2 s3]| | |]; reflexivity.
Qed.
Lemma exec_app h c xs ys : exec h c (xs ++ ys) =
  ('(r1, s) <- exec h c xs ;; '(r2, s) <- run h s ys ;; Ok (r1 ++ r2, s)).
Proof. unfold exec. destruct (construct h c) as [s| | |]; cbn [bind]; auto. apply run_app. Qed.
Lemma session_inv h c ops rs : session h c ops = Ok rs -> exists s, exec h c ops = Ok (rs, s).
Proof. rewrite session_exec. destruct (exec h c ops) as [[r s]| | |]; cbn [bind]; intros H; try discriminate. injection H as ->. eauto. Qed.
Lemma session_app h c ops rs s ys : exec h c ops = Ok (rs, s) ->
  session h c (ops ++ ys) = ('(r2, _) <- run h s ys ;; Ok (rs ++ r2)).
Proof. intros H. rewrite session_exec, exec_app, H. cbn [bind]. destruct (run h s ys) as [[r2 s2]| | |]; reflexivity. Qed.
Lemma run_length h ops : forall s rs s', run h s ops = Ok (rs, s') ->
  length rs = length (filter (fun o => match o with OResult => true | _ => false end) ops).
Proof.
  induction ops as [|[p n|] t IH]; intros s rs s'; cbn [run filter].
  - intros H. now injection H as <- <-.
  - destruct (h_update h s p n); cbn [bind]; try discriminate. apply IH.
  - destruct (h_result h s) as [[r s1]| | |]; cbn [bind]; try discriminate.
    destruct (run h s1 t) as [[r2 s2]| | |] eqn:E; cbn [bind]; try discriminate. intros H. injection H as <- <-.
    cbn [length]. f_equal. eapply IH. exact E.
Qed.

(* ---------- the abstract machine of a class that meets the requirements ---------- *)
Section Machine.
Variable h : hasher.
Variable nul : bool.
Hypothesis HA : hash_algorithm h nul.
Variable okr : h_R h -> bool.
Hypothesis HO : all_results h nul (fun r => okr r = true).
Variable r0 : h_R h.          (* any value: never returned *)

(* constructor, segments before each result(), current segment *)
Definition U : Type := ctor * list (list N) * list N.
Definition u_au (u : U) (d : list N) : U := let '(c, dn, cur) := u in (c, dn, cur ++ d).
Definition u_res (c : ctor) (segs : list (list N)) : h_R h :=
  match session h c (canon (segs ++ [[]])) with Ok rs => if okr (last rs r0) then last rs r0 else r0 | _ => r0 end.
Definition u_ar (u : U) : h_R h * U := let '(c, dn, cur) := u in (u_res c (dn ++ [cur]), (c, dn ++ [cur], [])).
Definition u_start (c : ctor) : U := (c, [], []).
Definition u_rel (u : U) (s : h_S h) : Prop := let '(c, dn, cur) := u in
  valid_ctor c /\ exists ops rs, Forall (valid_op nul) ops /\ segments [] ops = dn ++ [cur] /\ exec h c ops = Ok (rs, s).

Lemma u_refines : refines h nul U u_au u_ar (fun _ => True) u_rel.
Proof.
  constructor.
  - intros [[c dn] cur] s p n (HC & ops & rs & HV & HS & HE) _ HP _.
    assert (HV' : Forall (valid_op nul) (ops ++ [OUpdate p n])) by (apply Forall_app; split; [exact HV|now constructor]).
    destruct (al_runs _ _ HA c _ HC HV') as (rs' & E'). rewrite (session_app _ _ _ _ _ _ HE) in E'. cbn [run] in E'.
    destruct (h_update h s p n) as [s'| | |] eqn:EU; cbn [bind] in E'; try discriminate.
    exists s'. split; [reflexivity|]. split; [exact HC|]. exists (ops ++ [OUpdate p n]), (rs ++ []).
    split; [exact HV'|]. split; [now apply segments_update|]. rewrite exec_app, HE. cbn [bind run]. rewrite EU. reflexivity.
  - intros [[c dn] cur] s (HC & ops & rs & HV & HS & HE) _ _.
    assert (HV' : Forall (valid_op nul) (ops ++ [OResult])) by (apply Forall_app; split; [exact HV|now constructor]).
    destruct (al_runs _ _ HA c _ HC HV') as (rs' & E'). pose proof E' as E2. rewrite (session_app _ _ _ _ _ _ HE) in E'. cbn [run] in E'.
    destruct (h_result h s) as [[r s']| | |] eqn:EU; cbn [bind] in E'; try discriminate. injection E' as <-.
    exists s'. cbn [u_ar fst snd]. split.
    + f_equal. f_equal. unfold u_res.
      assert (HB : Forall bytes ((dn ++ [cur]) ++ [[]])).
      { rewrite <- (segments_result _ _ _ _ HS). eapply segments_bytes; [exact HV'|constructor]. }
      rewrite <- (al_parts _ _ HA c (ops ++ [OResult])), E2; try assumption.
      * rewrite last_last. pose proof (HO c _ _ HC HV' E2) as HR. apply Forall_app in HR. destruct HR as [_ HR].
        inversion HR as [|? ? HR1 _]; subst. now rewrite HR1.
      * now apply canon_valid.
      * rewrite (segments_result _ _ _ _ HS). symmetry. apply segments_canon. destruct (dn ++ [cur]); discriminate.
    + split; [exact HC|]. exists (ops ++ [OResult]), (rs ++ [r]). split; [exact HV'|].
      split; [now apply segments_result|]. rewrite exec_app, HE. cbn [bind run]. rewrite EU. reflexivity.
  - intros [[c dn] cur]. cbn [u_au]. now rewrite app_nil_r.
  - intros [[c dn] cur] d1 d2. cbn [u_au]. now rewrite app_assoc.
Qed.
Lemma u_construct c : valid_ctor c -> exists s, construct h c = Ok s /\ u_rel (u_start c) s.
Proof.
  intros HC. destruct (al_runs _ _ HA c [] HC (Forall_nil _)) as (rs & E).
  destruct (session_inv _ _ _ _ E) as (s & E2). pose proof E2 as E3. unfold exec in E2.
  destruct (construct h c) as [s1| | |] eqn:EC; cbn [bind run] in E2; try discriminate. injection E2 as <- <-.
  exists s1. split; [reflexivity|]. split; [exact HC|]. exists [], []. split; [constructor|]. split; [reflexivity|exact E3].
Qed.
Lemma u_behaves R (out : h_R h -> R) : behaves h nul u_au (fun u => (out (fst (u_ar u)), snd (u_ar u))) u_start out anyfit.
Proof.
  exists u_rel, u_ar, (fun _ => True), (fun _ _ => True). split; [exact u_refines|]. split.
  { constructor; trivial. }
  split; [intros a; split; reflexivity|]. intros c L HC _. destruct (u_construct c HC) as (s & E & HR). eauto.
Qed.
Lemma u_okr u : okr r0 = true -> okr (fst (u_ar u)) = true.
Proof.
  intros H0. destruct u as [[c dn] cur]. cbn [u_ar fst]. unfold u_res. destruct (session h c _) as [rs| | |]; try exact H0.
  destruct (okr (last rs r0)) eqn:E; [exact E|exact H0].
Qed.
End Machine.

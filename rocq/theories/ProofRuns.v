(* Properties of call histories, for all algorithms, environments and programs. *)
From Coq Require Import Permutation.
From Verif Require Import Base BaseFacts SpecCommon Hasher GenBlk Types ModelResult ModelAppend SpecAppend
  ProofMsg ProofMsgEq ProofMsgExt ProofAppend Behaves ProofXxh ProofMurmur ProofSpooky ProofSip ProofFnv Instances.
Open Scope N_scope.

(* ---------- abstract runs ---------- *)
Section Abs.
Context {A R : Type}.
Variables (au : A -> list N -> A) (ar : A -> R * A) (g : R -> N).
Variable M : call -> (list N -> N) -> list N.
Notation RUN := (aprun au ar g M).

Fixpoint asteps (a : A) (xs : list ustep) : A :=
  match xs with
  | [] => a
  | SUpdate p n :: t => asteps (au a (data p n)) t
  | SResult :: t => asteps (snd (ar a)) t
  | SCall k :: t => asteps (au a (M k (aq au ar g a))) t
  end.
Lemma aprun_app xs ys : forall a, RUN a (xs ++ ys) = RUN a xs ++ RUN (asteps a xs) ys.
Proof.
  induction xs as [|[p n| |k] xs IH]; intros a; cbn [aprun asteps app].
  - reflexivity.
  - apply IH.
  - f_equal. apply IH.
  - apply IH.
Qed.
Lemma asteps_app xs ys : forall a, asteps a (xs ++ ys) = asteps (asteps a xs) ys.
Proof. induction xs as [|[p n| |k] xs IH]; intros a; cbn [asteps app]; auto. Qed.
Lemma aprun_length xs : forall a, length (RUN a xs) = length (filter (fun x => match x with SResult => true | _ => false end) xs).
Proof. induction xs as [|[p n| |k] xs IH]; intros a; cbn [aprun filter length]; auto. Qed.
End Abs.

Lemma aprun_msg {A R} (au : A -> list N -> A) (ar : A -> R * A) g M1 M2 xs :
  Forall (fun x => match x with SCall k => forall q, M1 k q = M2 k q | _ => True end) xs ->
  forall a, aprun au ar g M1 a xs = aprun au ar g M2 a xs.
Proof.
  induction 1 as [|[p n| |k] xs Hx HX IH]; intros a; cbn [aprun]; auto.
  - f_equal. apply IH.
  - rewrite Hx. apply IH.
Qed.

(* two block machines that agree while less than 2^32 bytes have been fed *)
Definition aweight {St} (a : ast St) : N := let '(_, c, l) := a in c + N.of_nat (length l).
Lemma aweight_au {St} (a : ast St) d : aweight (ab_au a d) = aweight a + N.of_nat (length d).
Proof. destruct a as [[st c] l]. unfold ab_au, aweight. rewrite app_length. lia. Qed.

Section Agree.
Context {St R : Type}.
Variables (ar1 ar2 : ast St -> R * ast St) (g : R -> N).
Variables (le : bool) (ss psz : isz) (fz32 fz64 : N -> N).
Notation M := (call_msg le ss psz fz32 fz64).
Hypothesis HA : forall a, aweight a + 192 < 2^32 -> ar1 a = ar2 a.
Hypothesis HW : forall a, aweight (snd (ar1 a)) <= aweight a + 192.
Lemma blk_agree nul i' xs : Forall (valid_step nul i') xs -> forall a, aweight a + N.of_nat (weight xs) < 2^32 ->
  aprun ab_au ar1 g M a xs = aprun ab_au ar2 g M a xs.
Proof.
  induction 1 as [|x xs Hx HX IH]; intros a H; [reflexivity|].
  unfold weight in H. cbn [map lsum fold_right] in H. change (fold_right Nat.add 0%nat (map step_weight xs)) with (weight xs) in H.
  destruct x as [p n| |k]; cbn [aprun step_weight] in *.
  - apply IH. rewrite aweight_au, (proj2 (valid_data _ _ _ Hx)). lia.
  - rewrite <- (HA a) by lia. f_equal. apply IH. pose proof (HW a). lia.
  - rewrite (call_ext_b le ss psz fz32 fz64 k (aq ab_au ar1 g a) (aq ab_au ar2 g a)).
    + apply IH. rewrite aweight_au. pose proof (call_blen_ok le ss psz fz32 fz64 k (aq ab_au ar2 g a)). lia.
    + intros m Bm Lm. unfold aq. rewrite HA; [reflexivity|]. rewrite aweight_au. lia.
Qed.
End Agree.

(* ---------- machines ---------- *)
Lemma machine_nil cw a s : mc_au (machine_of cw a) s [] = s.
Proof.
  destruct a as [m|m| | | | | | | | | ]; cbn [machine_of mc_au md_machine hmac_machine blk_machine fnv_machine] in *;
    try (destruct s as [[st c] l]; unfold ab_au; now rewrite app_nil_r); try apply app_nil_r.
  destruct s. cbn [fst snd]. now rewrite app_nil_r.
Qed.
Lemma machine_app cw a s d1 d2 : mc_au (machine_of cw a) (mc_au (machine_of cw a) s d1) d2 = mc_au (machine_of cw a) s (d1 ++ d2).
Proof.
  destruct a as [m|m| | | | | | | | | ]; cbn [machine_of mc_au md_machine hmac_machine blk_machine fnv_machine] in *;
    try (destruct s as [[st c] l]; unfold ab_au; now rewrite app_assoc); try (symmetry; apply app_assoc).
  destruct s. cbn [fst snd]. now rewrite app_assoc.
Qed.

(* The results a program is expected to give *)
Definition expected (e : env) (a : alg) (f : flavor) (c : ctor) (xs : list ustep) : list result :=
  aprun (mc_au (machine_of (e_cw e) a)) (mc_ar (machine_of (e_cw e) a)) result64
        (call_message (e_impl e) f) (mc_start (machine_of (e_cw e) a) c) xs.
Definition state (e : env) (a : alg) (f : flavor) (c : ctor) (xs : list ustep) :=
  asteps (mc_au (machine_of (e_cw e) a)) (mc_ar (machine_of (e_cw e) a)) result64
        (call_message (e_impl e) f) (mc_start (machine_of (e_cw e) a) c) xs.
Definition query (e : env) (a : alg) (f : flavor) (c : ctor) (xs : list ustep) : list N -> N :=
  aq (mc_au (machine_of (e_cw e) a)) (mc_ar (machine_of (e_cw e) a)) result64 (state e a f c xs).

Lemma weight_app xs ys : weight (xs ++ ys) = (weight xs + weight ys)%nat.
Proof. unfold weight. rewrite map_app. induction (map step_weight xs); cbn [app lsum fold_right] in *; unfold lsum in *; lia. Qed.
Lemma weight_cons x xs : weight (x :: xs) = (step_weight x + weight xs)%nat.
Proof. reflexivity. Qed.
Lemma roomy_mono e a c L L' : roomy e a c L -> (L' <= L)%nat -> roomy e a c L'.
Proof. destruct a; cbn [roomy]; auto. intros; lia. Qed.

(* replacing steps that feed the same bytes *)
Lemma same_state e a f c pre m1 m2 post :
  state e a f c (pre ++ m1) = state e a f c (pre ++ m2) ->
  (forall s, aprun (mc_au (machine_of (e_cw e) a)) (mc_ar (machine_of (e_cw e) a)) result64 (call_message (e_impl e) f) s m1 = []) ->
  (forall s, aprun (mc_au (machine_of (e_cw e) a)) (mc_ar (machine_of (e_cw e) a)) result64 (call_message (e_impl e) f) s m2 = []) ->
  expected e a f c (pre ++ m1 ++ post) = expected e a f c (pre ++ m2 ++ post).
Proof.
  unfold state, expected. intros H E1 E2. rewrite !asteps_app in H. rewrite !aprun_app. rewrite E1, E2, H. reflexivity.
Qed.

Lemma valid_app e a c xs ys : valid_program e a c (xs ++ ys) -> valid_program e a c xs.
Proof.
  intros (H1 & H2). apply Forall_app in H2. split; tauto.
Qed.

Theorem runs_expected e a f c xs : valid_env e -> valid_program e a c xs -> room e a c xs ->
  runs e a f c xs = Ok (expected e a f c xs).
Proof. exact (runs_ok e a f c xs). Qed.

(* ---------- the 64-bit query, in terms of the API ---------- *)
Lemma query_runs e a f c pre x : valid_env e -> valid_program e a c pre -> bytes x ->
  roomy e a c (weight pre + length x + 192) ->
  exists rs r, runs e a f c (pre ++ [SUpdate (Ptr x) (length x); SResult]) = Ok (rs ++ [r]) /\
    result64 r = query e a f c pre x.
Proof.
  intros HE HV HB HR.
  assert (HV' : valid_program e a c (pre ++ [SUpdate (Ptr x) (length x); SResult])).
  { destruct HV as (H1 & H2). split; [exact H1|]. apply Forall_app. split; [exact H2|].
    constructor; [split; [apply le_n|exact HB]|]. constructor; [exact I|constructor]. }
  rewrite (runs_expected e a f c _ HE HV').
  - unfold expected. rewrite aprun_app. cbn [aprun]. eexists _, _. split; [reflexivity|].
    unfold query, aq, state. cbn [data]. now rewrite firstn_all.
  - unfold room. rewrite weight_app, !weight_cons. cbn [step_weight]. apply (roomy_mono _ _ _ _ _ HR). unfold weight. cbn. lia.
Qed.

(* ---------- size_t of 32 or 64 bits ---------- *)
Definition cw_ok (cw : N) : Prop := cw = 2^32 \/ cw = 2^64.
Lemma small_mod cw x : cw_ok cw -> x < 2^32 -> x mod cw = x.
Proof. intros [-> | ->] H; apply N.mod_small; lia. Qed.
Lemma mod_192 n B : (0 < B <= 192)%nat -> (n + (B - n mod B) <= n + 192)%nat.
Proof. lia. Qed.

Lemma xx32_agree cw1 cw2 a : cw_ok cw1 -> cw_ok cw2 -> aweight a + 192 < 2^32 -> xx32_ar cw1 a = xx32_ar cw2 a.
Proof. destruct a as [[st c] l]. unfold aweight, xx32_ar. intros. rewrite !small_mod by (assumption || lia). reflexivity. Qed.
Lemma xx32_w cw a : aweight (snd (xx32_ar cw a)) <= aweight a + 192.
Proof.
  destruct a as [[st c] l]. unfold xx32_ar. destruct (fold_left _ _ _) as [[[v1 v2] v3] v4]. cbn [snd aweight length]. lia.
Qed.
Lemma mur32_agree cw1 cw2 a : cw_ok cw1 -> cw_ok cw2 -> aweight a + 192 < 2^32 -> mur32_ar cw1 a = mur32_ar cw2 a.
Proof. destruct a as [[st c] l]. unfold aweight, mur32_ar. intros. rewrite !small_mod by (assumption || lia). reflexivity. Qed.
Lemma mur32_w cw a : aweight (snd (mur32_ar cw a)) <= aweight a + 192.
Proof. destruct a as [[st c] l]. unfold mur32_ar. cbn [snd aweight length]. lia. Qed.
Lemma mur128_agree cw1 cw2 a : cw_ok cw1 -> cw_ok cw2 -> aweight a + 192 < 2^32 -> mur128_ar cw1 a = mur128_ar cw2 a.
Proof. destruct a as [[st c] l]. unfold aweight, mur128_ar. intros. rewrite !small_mod by (assumption || lia). reflexivity. Qed.
Lemma mur128_w cw a : aweight (snd (mur128_ar cw a)) <= aweight a + 192.
Proof. destruct a as [[st c] l]. unfold mur128_ar. cbn [snd aweight length]. lia. Qed.
Lemma sp_agree cw1 cw2 a : cw_ok cw1 -> cw_ok cw2 -> aweight a + 192 < 2^32 -> sp_ar cw1 a = sp_ar cw2 a.
Proof.
  destruct a as [[st c] l]. unfold aweight, sp_ar. intros H1 H2 HW. f_equal. f_equal. f_equal. unfold sp_next.
  assert (HL : forall cw, cw_ok cw -> (cw <=? c + N.of_nat (length l + (192 - length l mod 192))) = false).
  { intros cw [-> | ->]; apply N.leb_gt; lia. }
  now rewrite !HL.
Qed.
Lemma sp_w cw a : aweight (snd (sp_ar cw a)) <= aweight a + 192.
Proof.
  destruct a as [[st c] l]. unfold sp_ar. cbn [snd aweight length]. unfold sp_next.
  destruct (cw <=? c + N.of_nat (length l + (192 - length l mod 192))); lia.
Qed.

Ltac start_w := cbn [valid_ctor ctor_weight] in *; match goal with V : valid_arg _ _ _ |- _ => pose proof (valid_data _ _ _ V) as [_ ?HL] end.
Lemma xx32_start_agree cw1 cw2 c : cw_ok cw1 -> cw_ok cw2 -> valid_ctor c -> ctor_weight c < 2^32 ->
  xx32_start cw1 c = xx32_start cw2 c /\ aweight (xx32_start cw1 c) <= ctor_weight c.
Proof.
  intros H1 H2 HV HW. destruct c as [|n|p n]; [split; [reflexivity|cbn; lia]|split; [reflexivity|]|].
  - cbn [xx32_start]. unfold aweight. cbn [length ctor_weight]. lia.
  - start_w. cbn [xx32_start]. destruct (Nat.eqb n 0); [split; [reflexivity|cbn; lia]|].
    split; [f_equal; apply xx32_agree; auto; unfold aweight; rewrite HL; lia|].
    pose proof (xx32_w cw1 (SpecXxh.XXH32_init 0, 0, data p n)) as W. unfold aweight in W at 2. rewrite HL in W. lia.
Qed.
Lemma mur32_start_agree cw1 cw2 c : cw_ok cw1 -> cw_ok cw2 -> valid_ctor c -> ctor_weight c < 2^32 ->
  mur32_start cw1 c = mur32_start cw2 c /\ aweight (mur32_start cw1 c) <= ctor_weight c.
Proof.
  intros H1 H2 HV HW. destruct c as [|n|p n]; [split; [reflexivity|cbn; lia]|split; [reflexivity|]|].
  - cbn [mur32_start]. unfold aweight. cbn [length ctor_weight]. lia.
  - start_w. cbn [mur32_start]. destruct (Nat.leb_spec n 4); [split; [reflexivity|unfold aweight; cbn [length ctor_weight]; lia]|].
    split; [f_equal; apply mur32_agree; auto; unfold aweight; rewrite skipn_length, HL; lia|].
    match goal with |- aweight (snd (mur32_ar cw1 ?x)) <= _ => pose proof (mur32_w cw1 x) as W end.
    unfold aweight in W at 2. rewrite skipn_length, HL in W. cbn [ctor_weight]. lia.
Qed.
Lemma mur128_start_agree cw1 cw2 c : cw_ok cw1 -> cw_ok cw2 -> valid_ctor c -> ctor_weight c < 2^32 ->
  mur128_start cw1 c = mur128_start cw2 c /\ aweight (mur128_start cw1 c) <= ctor_weight c.
Proof.
  intros H1 H2 HV HW. destruct c as [|n|p n]; [split; [reflexivity|cbn; lia]|split; [reflexivity|]|].
  - cbn [mur128_start]. unfold aweight. cbn [length ctor_weight]. lia.
  - start_w. cbn [mur128_start]. destruct (Nat.leb_spec n 8); [split; [reflexivity|unfold aweight; cbn [length ctor_weight]; lia]|].
    destruct (Nat.leb_spec n 16); [split; [reflexivity|unfold aweight; cbn [length ctor_weight]; lia]|].
    split; [f_equal; apply mur128_agree; auto; unfold aweight; rewrite skipn_length, HL; lia|].
    match goal with |- aweight (snd (mur128_ar cw1 ?x)) <= _ => pose proof (mur128_w cw1 x) as W end.
    unfold aweight in W at 2. rewrite skipn_length, HL in W. cbn [ctor_weight]. lia.
Qed.
Lemma sp_start_agree cw1 cw2 c : cw_ok cw1 -> cw_ok cw2 -> valid_ctor c -> ctor_weight c < 2^32 ->
  sp_start cw1 c = sp_start cw2 c /\ aweight (sp_start cw1 c) <= ctor_weight c.
Proof.
  intros H1 H2 HV HW. destruct c as [|n|p n]; [split; [reflexivity|cbn; lia]|split; [reflexivity|]|].
  - cbn [sp_start]. unfold aweight. cbn [length ctor_weight]. lia.
  - start_w. cbn [sp_start]. destruct (Nat.leb_spec n 16); [split; [reflexivity|unfold aweight; cbn [length ctor_weight]; lia]|].
    split; [f_equal; apply sp_agree; auto; unfold aweight; rewrite skipn_length, HL; lia|].
    match goal with |- aweight (snd (sp_ar cw1 ?x)) <= _ => pose proof (sp_w cw1 x) as W end.
    unfold aweight in W at 2. rewrite skipn_length, HL in W. cbn [ctor_weight]. lia.
Qed.

(* algorithms that count bytes in a size_t *)
Definition counts_size_t (a : alg) : bool :=
  match a with Axx32 | Amur32 | Amur128 | Aspooky => true | _ => false end.
Lemma blk_agree' {St R} (ar1 ar2 : ast St -> R * ast St) (out : R -> result) le ss psz fz32 fz64 nul i' xs a1 a2 :
  (forall a, aweight a + 192 < 2^32 -> ar1 a = ar2 a) -> (forall a, aweight (snd (ar1 a)) <= aweight a + 192) ->
  Forall (valid_step nul i') xs -> a1 = a2 -> aweight a1 + N.of_nat (weight xs) < 2^32 ->
  aprun ab_au (fun a => (out (fst (ar1 a)), snd (ar1 a))) result64 (call_msg le ss psz fz32 fz64) a1 xs =
  aprun ab_au (fun a => (out (fst (ar2 a)), snd (ar2 a))) result64 (call_msg le ss psz fz32 fz64) a2 xs.
Proof.
  intros HA HW HV <- H. eapply (blk_agree (fun a => (out (fst (ar1 a)), snd (ar1 a))) (fun a => (out (fst (ar2 a)), snd (ar2 a)))).
  - intros a Ha. now rewrite HA.
  - exact HW.
  - exact HV.
  - exact H.
Qed.
Lemma machine_agree cw1 cw2 a c xs le ss psz fz32 fz64 nul i' :
  cw_ok cw1 -> cw_ok cw2 -> valid_ctor c -> Forall (valid_step nul i') xs ->
  (cw1 = cw2 \/ counts_size_t a = false \/ ctor_weight c + N.of_nat (weight xs) < 2^32) ->
  aprun (mc_au (machine_of cw1 a)) (mc_ar (machine_of cw1 a)) result64 (call_msg le ss psz fz32 fz64) (mc_start (machine_of cw1 a) c) xs =
  aprun (mc_au (machine_of cw2 a)) (mc_ar (machine_of cw2 a)) result64 (call_msg le ss psz fz32 fz64) (mc_start (machine_of cw2 a) c) xs.
Proof.
  intros H1 H2 HC HX [->|[HS|HS]]; [reflexivity| |].
  { destruct a; try discriminate; reflexivity. }
  destruct a as [m|m| | | | | | | | | ]; try reflexivity; cbn [machine_of mc_au mc_ar mc_start blk_machine].
  - destruct (xx32_start_agree cw1 cw2 c) as [E W]; auto; [lia|].
    eapply blk_agree'; [intros x Hx; now apply xx32_agree|intros x; apply xx32_w|exact HX|exact E|lia].
  - destruct (mur32_start_agree cw1 cw2 c) as [E W]; auto; [lia|].
    eapply blk_agree'; [intros x Hx; now apply mur32_agree|intros x; apply mur32_w|exact HX|exact E|lia].
  - destruct (mur128_start_agree cw1 cw2 c) as [E W]; auto; [lia|].
    eapply blk_agree'; [intros x Hx; now apply mur128_agree|intros x; apply mur128_w|exact HX|exact E|lia].
  - destruct (sp_start_agree cw1 cw2 c) as [E W]; auto; [lia|].
    eapply blk_agree'; [intros x Hx; now apply sp_agree|intros x; apply sp_w|exact HX|exact E|lia].
Qed.

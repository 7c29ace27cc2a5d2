(* C70 and C73 for user-defined hash algorithms: what an unordered container contributes. *)
From Verif Require Import Base BaseFacts SpecCommon Gen Hasher Types ModelResult ModelAppend SpecAppend ProofMsg ProofMsgEq ProofMsgExt ProofAppend Behaves
  Instances ProofRuns Samples PropsHistory PropsAppend UserAlg PropsUser PropsUserAppend ModelExamples PropsTools PropsUnord.
From Verif Require PropsSets.
Open Scope N_scope.

Notation container := PropsSets.container.
Notation total := PropsSets.total.

(* the hash of an element: that of a copy of the hash object to which the element is appended *)
Definition uelement_hash (H : hasher) (view : h_R H -> result) (e : env) (f : flavor) (c : ctor) (pre : list ustep) (t : ty) (v : val) (x : Z) : Prop :=
  exists rs r, uruns H view (e_impl e) f c (pre ++ [SAppend t v; SResult]) = Ok (rs ++ [r]) /\ PropsSets.uint64_value e r = Ok x.

Section Sets.
Variables (H : hasher) (nul : bool) (view : h_R H -> result) (e : env).
Hypothesis HU : user_algorithm H nul view.

Lemma uelement_valid c pre t vs post v : In v vs ->
  uvalid nul (e_impl e) c (pre ++ [container t vs] ++ post) -> uvalid nul (e_impl e) c (pre ++ [SAppend t v; SResult]).
Proof.
  intros HI HV. destruct (uvalid_call _ _ _ _ _ _ HV) as [HT HN]. cbn [call_ok form_ok has_type] in HT.
  destruct HV as [HC HP]. split; [exact HC|]. apply Forall_app in HP. apply Forall_app. split; [apply HP|].
  constructor; [|constructor; [exact I|constructor]]. cbn [valid_step call_ok form_ok]. rewrite Forall_forall in HT. split; [now apply HT|].
  intros E. destruct (HN E) as [H1|H1]; [now left|right]. cbn [call_null_free form_null null_free] in *. rewrite Forall_forall in H1. now apply H1.
Qed.
Lemma uelement_query r0 f c pre t v : digest_result (view r0) -> uvalid nul (e_impl e) c (pre ++ [SAppend t v; SResult]) ->
  let q := uquery H view r0 (usteps H view r0 (e_impl e) f (u_start c) pre) in
  exists rs r, uruns H view (e_impl e) f c (pre ++ [SAppend t v; SResult]) = Ok (rs ++ [r]) /\
    PropsSets.uint64_value e r = Ok (Z.of_N (q (message (e_impl e) f t v q))).
Proof.
  intros H0 HV q. destruct HU as [HA HR]. pose proof (user_runs H nul HA view HR r0 H0 (e_impl e) f c _ HV) as E.
  rewrite user_app in E. eexists _, _. split; [exact E|]. apply PropsSets.uint64_value_ok. cbn [fst]. apply digest_okb_ok.
  apply (u_okr H (fun r => digest_okb (view r)) r0). now apply digest_okb_ok.
Qed.
Lemma uelement_unique r0 f c pre t v x : digest_result (view r0) -> uvalid nul (e_impl e) c (pre ++ [SAppend t v; SResult]) ->
  let q := uquery H view r0 (usteps H view r0 (e_impl e) f (u_start c) pre) in
  uelement_hash H view e f c pre t v x -> x = Z.of_N (q (message (e_impl e) f t v q)).
Proof.
  intros H0 HV q (rs & r & E & X). destruct (uelement_query r0 f c pre t v H0 HV) as (rs' & r' & E' & X').
  rewrite E in E'. injection E' as E'. apply app_inj_tail in E'. destruct E' as [_ ->]. rewrite X in X'. now injection X'.
Qed.
Lemma utotal_query r0 f c pre t vs xs post : digest_result (view r0) ->
  uvalid nul (e_impl e) c (pre ++ [container t vs] ++ post) -> Forall2 (uelement_hash H view e f c pre t) vs xs ->
  let q := uquery H view r0 (usteps H view r0 (e_impl e) f (u_start c) pre) in
  Z.of_N (sum64 (map (fun v => q (message (e_impl e) f t v q)) vs)) = total xs.
Proof.
  intros H0 HV HF q. rewrite PropsSets.sum64_total. f_equal.
  assert (G : forall v x, In v vs -> uelement_hash H view e f c pre t v x -> x = Z.of_N (q (message (e_impl e) f t v q))).
  { intros v x Hv. apply uelement_unique; [exact H0|exact (uelement_valid _ _ _ _ _ _ Hv HV)]. }
  clear HV. induction HF as [|v x vs xs Hx HF IH]; [reflexivity|]. cbn [map]. rewrite (G v x (or_introl eq_refl) Hx). f_equal.
  apply IH. intros w y Hw. apply G. now right.
Qed.
(* two containers that feed the same bytes *)
Lemma ucontainers r0 f c pre t vs1 vs2 post : digest_result (view r0) ->
  uvalid nul (e_impl e) c (pre ++ [container t vs1] ++ post) -> uvalid nul (e_impl e) c (pre ++ [container t vs2] ++ post) ->
  let q := uquery H view r0 (usteps H view r0 (e_impl e) f (u_start c) pre) in
  length vs1 = length vs2 ->
  sum64 (map (fun v => q (message (e_impl e) f t v q)) vs1) = sum64 (map (fun v => q (message (e_impl e) f t v q)) vs2) ->
  exists rs, uruns H view (e_impl e) f c (pre ++ [container t vs1] ++ post) = Ok rs /\ uruns H view (e_impl e) f c (pre ++ [container t vs2] ++ post) = Ok rs.
Proof.
  intros H0 V1 V2 q HL HS. destruct HU as [HA HR]. apply (user_interchange H nul HA view HR r0 H0); try assumption.
  - constructor; [apply (uvalid_call _ _ _ _ _ _ V2)|constructor].
  - constructor; [discriminate|constructor].
  - constructor; [discriminate|constructor].
  - unfold PropsSets.container. rewrite !user_call_state. f_equal. unfold call_message. cbn [call_msg form_msg msg].
    change (uquery H view r0 (usteps H view r0 (e_impl e) f (u_start c) pre)) with q. unfold message in HS. rewrite HS, HL. reflexivity.
Qed.
End Sets.

(* Containers with the same number of elements whose hashes have the same sum modulo 2^64 have the same effect, whatever follows *)
Theorem C73_user_same H nul view e f c pre t vs1 vs2 xs1 xs2 post : user_algorithm H nul view ->
  uvalid nul (e_impl e) c (pre ++ [container t vs1] ++ post) -> uvalid nul (e_impl e) c (pre ++ [container t vs2] ++ post) ->
  Forall2 (uelement_hash H view e f c pre t) vs1 xs1 -> Forall2 (uelement_hash H view e f c pre t) vs2 xs2 ->
  length vs1 = length vs2 -> total xs1 = total xs2 ->
  exists rs, uruns H view (e_impl e) f c (pre ++ [container t vs1] ++ post) = Ok rs /\ uruns H view (e_impl e) f c (pre ++ [container t vs2] ++ post) = Ok rs.
Proof.
  intros HU V1 V2 F1 F2 HL HT. destruct (some_result H nul _ (proj1 HU) (proj2 HU)) as (r0 & H0).
  apply (ucontainers H nul view e HU r0); try assumption. apply N2Z.inj.
  rewrite (utotal_query H nul view e HU r0 f c pre t vs1 xs1 post H0 V1 F1), (utotal_query H nul view e HU r0 f c pre t vs2 xs2 post H0 V2 F2). exact HT.
Qed.
(* every element has a hash *)
Theorem C73_user_hashes H nul view e f c pre t vs post : user_algorithm H nul view -> uvalid nul (e_impl e) c (pre ++ [container t vs] ++ post) ->
  exists xs, Forall2 (uelement_hash H view e f c pre t) vs xs.
Proof.
  intros HU HV. destruct (some_result H nul _ (proj1 HU) (proj2 HU)) as (r0 & H0).
  assert (G : forall v, In v vs -> exists x, uelement_hash H view e f c pre t v x).
  { intros v Hv. destruct (uelement_query H nul view e HU r0 f c pre t v H0 (uelement_valid nul e _ _ _ _ _ _ Hv HV)) as (rs & r & E & X).
    eexists. exists rs, r. split; [exact E|exact X]. }
  clear HV. induction vs as [|v vs IH]; [exists []; constructor|]. destruct (G v (or_introl eq_refl)) as (x & Hx).
  destruct IH as (xs & Hxs); [intros w Hw; apply G; now right|]. exists (x :: xs). now constructor.
Qed.

(* Among the 2^n containers that hold one value of each of n pairs, at least 2^(n-64) have the same effect in every program *)
Definition same_effect (H : hasher) (nul : bool) (view : h_R H -> result) (e : env) (f : flavor) (c : ctor) (pre : list ustep) (t : ty) (ls : list (list val)) : Prop :=
  forall post, exists rs, forall vs, In vs ls -> uvalid nul (e_impl e) c (pre ++ [container t vs] ++ post) ->
    uruns H view (e_impl e) f c (pre ++ [container t vs] ++ post) = Ok rs.
Theorem C70_user_values H nul view e f c pre t ps : user_algorithm H nul view ->
  exists xss, NoDup xss /\ Forall (fun xs => length xs = length ps) xss /\
    2 ^ N.of_nat (length ps) <= 2 ^ 64 * N.of_nat (length xss) /\
    same_effect H nul view e f c pre t (map (choose ps) xss).
Proof.
  intros HU. destruct (some_result H nul _ (proj1 HU) (proj2 HU)) as (r0 & H0).
  set (q := uquery H view r0 (usteps H view r0 (e_impl e) f (u_start c) pre)).
  set (g := fun xs => sum64 (map (fun v => q (message (e_impl e) f t v q)) (choose ps xs))).
  set (n := length ps).
  assert (H2 : 0 < 2 ^ N.of_nat n) by (apply N.neq_0_lt_0, N.pow_nonzero; discriminate).
  set (k := (2 ^ N.of_nat n - 1) / 2 ^ 64).
  assert (HK : 2^64 * k <= 2 ^ N.of_nat n - 1) by (apply N.mul_div_le; discriminate).
  assert (HK2 : 2 ^ N.of_nat n - 1 < 2^64 * (k + 1)) by (rewrite N.add_1_r; apply N.mul_succ_div_gt; discriminate).
  destruct (pigeons g k (2^64) (all_bits n)) as (v & Hv).
  { intros xs _. unfold g, sum64. apply N.mod_lt. discriminate. }
  { rewrite all_bits_length, N.mul_comm. clear - HK H2. lia. }
  exists (filter (fun x => N.eqb (g x) v) (all_bits n)). set (xss := filter _ _) in *.
  assert (HI : forall xs, In xs xss -> length xs = n /\ g xs = v).
  { intros xs E. apply filter_In in E. destruct E as [G1 G2]. split; [now apply all_bits_in|now apply N.eqb_eq]. }
  repeat split.
  - apply NoDup_filter, all_bits_nodup.
  - apply Forall_forall. intros xs E. apply (HI xs E).
  - clearbody k. apply N.lt_succ_r. assert (2^64 * (k + 1) <= 2^64 * N.of_nat (length xss)) by (apply N.mul_le_mono_l; lia). clear - H1 HK2 H2. lia.
  - intros post.
    exists (uexpected H view r0 (e_impl e) f (u_start c)  (pre ++ [container t (choose ps (nth 0 xss []))] ++ post)).
    intros vs HV V. apply in_map_iff in HV. destruct HV as (xs & <- & HX).
    assert (HY : In (nth 0 xss []) xss) by (destruct xss; [contradiction|now left]).
    destruct (HI xs HX) as [LX GX]. destruct (HI _ HY) as [LY GY].
    rewrite (user_runs H nul (proj1 HU) view (proj2 HU) r0 H0 (e_impl e) f c _ V). apply (f_equal (@Ok _)).
    rewrite !app_assoc. rewrite !(user_app H view r0 _ _ _ (_ ++ _)).
    assert (ES : usteps H view r0 (e_impl e) f (u_start c) (pre ++ [container t (choose ps xs)]) =
                 usteps H view r0 (e_impl e) f (u_start c) (pre ++ [container t (choose ps (nth 0 xss []))])).
    { unfold PropsSets.container. rewrite !user_call_state. f_equal. unfold call_message. cbn [call_msg form_msg msg].
      change (uquery H view r0 (usteps H view r0 (e_impl e) f (u_start c) pre)) with q. unfold g, message in GX, GY.
      rewrite GX, GY, !choose_length by assumption. reflexivity. }
    rewrite ES. f_equal. rewrite !user_app. reflexivity.
Qed.
(* two different sets of 65 integers below 130 have the same effect *)
Theorem C70_user_collision H nul view e f c pre s sg : user_algorithm H nul view -> (130 <= natural s sg)%Z ->
  exists z1 z2, length z1 = 65%nat /\ length z2 = 65%nat /\ NoDup z1 /\ NoDup z2 /\ Forall (fun z => 0 <= z < 130)%Z (z1 ++ z2) /\
    (exists z, In z z1 /\ ~ In z z2) /\
    forall post, uvalid nul (e_impl e) c (pre ++ post) ->
      exists rs, uruns H view (e_impl e) f c (pre ++ [container (TInt s sg) (map VInt z1)] ++ post) = Ok rs /\
                 uruns H view (e_impl e) f c (pre ++ [container (TInt s sg) (map VInt z2)] ++ post) = Ok rs.
Proof.
  intros HU HN. destruct (C70_user_values H nul view e f c pre (TInt s sg) (int_pairs 0 65) HU) as (xss & H1 & H2 & H3 & H4).
  rewrite int_pairs_length in H2, H3. rewrite Forall_forall in H2.
  destruct xss as [|xs [|ys xss]]; [vm_compute in H3; elim (H3 eq_refl)|vm_compute in H3; elim (H3 eq_refl)|].
  assert (NE : xs <> ys) by (inversion H1; subst; intros ->; cbn [In] in *; tauto).
  pose proof (H2 xs ltac:(now left)) as LX. pose proof (H2 ys ltac:(right; now left)) as LY.
  assert (B : forall zs, length zs = 65%nat -> Forall (fun z => 0 <= z < 130)%Z (int_set 0 zs)).
  { intros zs HL. apply Forall_forall. intros z Hz. apply int_set_range in Hz. rewrite HL in Hz. lia. }
  exists (int_set 0 xs), (int_set 0 ys). rewrite !int_set_length. do 2 (split; [assumption|]). do 2 (split; [apply int_set_nodup|]).
  split; [apply Forall_app; auto|]. split; [apply int_set_other; congruence|].
  intros post HV. destruct (H4 post) as (rs & HR).
  assert (V : forall zs, length zs = 65%nat -> uvalid nul (e_impl e) c (pre ++ [container (TInt s sg) (map VInt (int_set 0 zs))] ++ post)).
  { intros zs HL. destruct HV as [HC HV]. apply Forall_app in HV. split; [exact HC|]. apply Forall_app. split; [apply HV|]. constructor; [|apply HV].
    assert (HZ : (2 * Z.of_nat (length zs) <= natural s sg)%Z) by (rewrite HL; exact HN).
    destruct (int_set_valid e Afnv32 s sg zs HZ) as [T1 T2]. split; [exact T1|]. intros E. right.
    cbn [call_null_free form_null null_free]. apply Forall_forall. intros; exact I. }
  exists rs. split; apply HR; try (apply V; assumption).
  - cbn [map In]. left. rewrite <- int_choose, LX. reflexivity.
  - cbn [map In]. right. left. rewrite <- int_choose, LY. reflexivity.
Qed.

(* ---------- concrete cases ---------- *)
(* the class xxhash_128 of the documentation; std::unordered_set<unsigned char> after other calls *)
Example C70_user_collision_ex : exists z1 z2, NoDup z1 /\ NoDup z2 /\ (exists z, In z z1 /\ ~ In z z2) /\ exists rs,
  uruns (xxhash_128 (e_pf env_pc)) RDigest (e_impl env_pc) le_flavor (CSeed 7) (sample ++ [container (TInt I8 false) (map VInt z1)] ++ [SResult]) = Ok rs /\
  uruns (xxhash_128 (e_pf env_pc)) RDigest (e_impl env_pc) le_flavor (CSeed 7) (sample ++ [container (TInt I8 false) (map VInt z2)] ++ [SResult]) = Ok rs.
Proof.
  destruct (C70_user_collision (xxhash_128 (e_pf env_pc)) true RDigest env_pc le_flavor (CSeed 7) sample I8 false (xxhash_128_user _) ltac:(vm_compute; discriminate))
    as (z1 & z2 & _ & _ & N1 & N2 & _ & D & G).
  exists z1, z2. repeat (split; [assumption|]). apply G.
  assert (V : valid_program env_pc Axx64 (CSeed 7) (sample ++ [SResult])).
  { apply steps_valid; [reflexivity|reflexivity|]. unfold steps_ok. rewrite Forall_app. split; [exact sample_ok|repeat constructor]. }
  exact V.
Qed.
Example C73_user_hashes_ex : exists x1 x2, Forall2 (uelement_hash (xxhash_128 (e_pf env_pc)) RDigest env_pc le_flavor (CSeed 7) [] (TInt I8 false)) [VInt 5; VInt 6] [x1; x2] /\ x1 <> x2.
Proof.
  eexists _, _. split; [constructor; [|constructor; [|constructor]]; (eexists [], _; split; [vm_compute; reflexivity|vm_compute; reflexivity])|discriminate].
Qed.
(* fnv1a_64 as a user's class: the hashes of the bytes 0 and 3 have the sum of those of 1 and 2 *)
Example C73_user_same_ex : let H := pk_h (pack env_pc Afnv64) in let view := pk_out (pack env_pc Afnv64) in exists rs,
  uruns H view (e_impl env_pc) le_flavor CDefault [container (TInt I8 false) [VInt 0; VInt 3]; SResult] = Ok rs /\
  uruns H view (e_impl env_pc) le_flavor CDefault [container (TInt I8 false) [VInt 1; VInt 2]; SResult] = Ok rs.
Proof.
  cbv zeta.
  assert (V : forall x y, (0 <= x < 256)%Z -> (0 <= y < 256)%Z -> uvalid true (e_impl env_pc) CDefault [container (TInt I8 false) [VInt x; VInt y]; SResult]).
  { intros x y Hx Hy. split; [exact I|]. constructor; [|constructor; [exact I|constructor]]. split; [cbn; repeat constructor; lia|intros _; now left]. }
  apply (C73_user_same (pk_h (pack env_pc Afnv64)) true (pk_out (pack env_pc Afnv64)) env_pc le_flavor CDefault [] (TInt I8 false) [VInt 0; VInt 3] [VInt 1; VInt 2]
    [12638153115695167455; 12638154215206795666]%Z [12638152016183539244; 12638155314718423877]%Z [SResult]); try reflexivity.
  - exact (C45_library env_pc Afnv64 env_pc_valid ltac:(discriminate)).
  - apply V; lia.
  - apply V; lia.
  - constructor; [|constructor; [|constructor]]; (eexists [], _; split; [vm_compute; reflexivity|vm_compute; reflexivity]).
  - constructor; [|constructor; [|constructor]]; (eexists [], _; split; [vm_compute; reflexivity|vm_compute; reflexivity]).
Qed.

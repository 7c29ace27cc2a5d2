(* Properties of every hash algorithm of the library, over arbitrary programs of update(),
   result() and hash_append() calls (Behaves.v: [ustep]; Instances.v: [alg], [env], [runs]).

   [runs e a f c xs] is the list of results the program [xs] obtains from algorithm [a], in
   environment [e] (byte order, constant or run-time evaluation, pointer size, size_t width,
   contents of uninitialised memory), constructed by [c]; it is [Ok _] only if no assertion
   fails and no undefined operation (out-of-bounds access, null memcpy) happens. *)
From Coq Require Import Permutation.
From Verif Require Import Base BaseFacts SpecCommon Hasher GenBlk Types ModelResult ModelAppend SpecAppend
  ProofMsg ProofMsgEq ProofMsgExt ProofAppend Behaves ProofXxh ProofMurmur ProofSpooky ProofSip ProofFnv Instances ProofRuns Samples.
Open Scope N_scope.

(* Only spooky2 limits what may be fed: less than 2^(width of size_t) bytes, 192 per result() *)
Lemma room_any e a c xs : a <> Aspooky -> room e a c xs.
Proof. intros H. unfold room. destruct a; try exact I. easy. Qed.

(* ---------- C18: no assertion fires, no access is out of bounds ---------- *)
Definition results_in (xs : list ustep) : nat :=
  length (filter (fun x => match x with SResult => true | _ => false end) xs).
Theorem C18_no_failure e a f c xs : valid_env e -> valid_program e a c xs -> room e a c xs ->
  exists rs, runs e a f c xs = Ok rs /\ length rs = results_in xs.
Proof.
  intros HE HV HR. eexists. split; [now apply runs_expected|]. apply aprun_length.
Qed.
(* the sample program of Samples.v (updates, results, hash_append of a tuple, of an unordered range
   and of a double) meets the hypotheses, for every algorithm, on two machines *)
Lemma sample_valid a : valid_program env_pc a (CSeed 7) sample /\ valid_program env_be a (CSeed 7) sample.
Proof. split; (apply steps_valid; [reflexivity|reflexivity|exact sample_ok]). Qed.
Lemma sample_room a : room env_pc a (CSeed 7) sample /\ room env_be a (CSeed 7) sample.
Proof. split; (destruct a; try exact I; vm_compute; reflexivity). Qed.
Example C18_no_failure_ex a : exists r1 r2, runs env_pc a le_flavor (CSeed 7) sample = Ok [r1; r2].
Proof.
  destruct (C18_no_failure env_pc a le_flavor (CSeed 7) sample env_pc_valid (proj1 (sample_valid a)) (proj1 (sample_room a)))
    as (rs & E & HL). change (results_in sample) with 2%nat in HL. rewrite E.
  destruct rs as [|r1 [|r2 [|r3 rs]]]; try discriminate. exists r1, r2. reflexivity.
Qed.

(* ---------- C01: chunking is unobservable ---------- *)
Definition updates (cs : list (ptr * nat)) : list ustep := map (fun x => SUpdate (fst x) (snd x)) cs.
Definition fed (cs : list (ptr * nat)) : list N := concat (map (fun x => data (fst x) (snd x)) cs).

Lemma asteps_updates cw a M cs : forall s,
  asteps (mc_au (machine_of cw a)) (mc_ar (machine_of cw a)) result64 M s (updates cs) = mc_au (machine_of cw a) s (fed cs).
Proof.
  induction cs as [|[p n] cs IH]; intros s; cbn [updates map asteps].
  - symmetry. apply machine_nil.
  - change (map _ cs) with (updates cs). rewrite IH, machine_app. reflexivity.
Qed.
Lemma aprun_updates {A} (au : A -> list N -> A) (ar : A -> result * A) M cs : forall s, aprun au ar result64 M s (updates cs) = [].
Proof. induction cs as [|[p n] cs IH]; intros s; cbn [updates map aprun]; [reflexivity|]. apply IH. Qed.
Lemma weight_updates nul psz cs : Forall (valid_step nul psz) (updates cs) -> weight (updates cs) = length (fed cs).
Proof.
  induction cs as [|[p n] cs IH]; intros H; [reflexivity|]. inversion H; subst.
  change (updates ((p, n) :: cs)) with (SUpdate p n :: updates cs). rewrite weight_cons, IH by assumption.
  unfold fed. cbn [map concat fst snd step_weight]. rewrite app_length. now rewrite (proj2 (valid_data _ _ _ H2)).
Qed.

Theorem C01_chunking e a f c pre cs1 cs2 post : valid_env e ->
  valid_program e a c (pre ++ updates cs1 ++ post) -> valid_program e a c (pre ++ updates cs2 ++ post) ->
  room e a c (pre ++ updates cs1 ++ post) ->
  fed cs1 = fed cs2 ->
  exists rs, runs e a f c (pre ++ updates cs1 ++ post) = Ok rs /\ runs e a f c (pre ++ updates cs2 ++ post) = Ok rs.
Proof.
  intros HE V1 V2 HR EF. exists (expected e a f c (pre ++ updates cs1 ++ post)). split; [now apply runs_expected|].
  rewrite runs_expected; [|assumption..|].
  - f_equal. symmetry. apply same_state.
    + unfold state. rewrite !asteps_app, !asteps_updates, EF. reflexivity.
    + apply aprun_updates.
    + apply aprun_updates.
  - unfold room in *. rewrite !weight_app in *.
    destruct V1 as (_ & V1), V2 as (_ & V2). rewrite !Forall_app in V1, V2.
    destruct V1 as (_ & V1 & _), V2 as (_ & V2 & _).
    rewrite (weight_updates _ _ _ V2), <- EF, <- (weight_updates _ _ _ V1). exact HR.
Qed.
Definition chunks_ex1 : list (ptr * nat) := [(Ptr [1; 2; 3; 4; 5], 5%nat)].
Definition chunks_ex2 : list (ptr * nat) := [(Ptr [1; 2; 77], 2%nat); (Ptr [], 0%nat); (Ptr [3; 4; 5], 3%nat)].
Example C01_chunking_ex a : exists rs,
  runs env_pc a le_flavor CDefault (sample ++ updates chunks_ex1 ++ [SResult; SResult]) = Ok rs /\
  runs env_pc a le_flavor CDefault (sample ++ updates chunks_ex2 ++ [SResult; SResult]) = Ok rs.
Proof.
  assert (V : forall cs, steps_ok (updates cs) -> valid_program env_pc a CDefault (sample ++ updates cs ++ [SResult; SResult])).
  { intros cs H. apply steps_valid; [reflexivity|exact I|]. unfold steps_ok in *. rewrite !Forall_app.
    split; [exact sample_ok|]. split; [exact H|]. repeat constructor. }
  apply C01_chunking; [exact env_pc_valid|apply V; unfold steps_ok, chunks_ex1; ok|apply V; unfold steps_ok, chunks_ex2; ok| |reflexivity].
  destruct a; try exact I. vm_compute. reflexivity.
Qed.

(* ---------- C19: update with no bytes changes nothing ---------- *)
Theorem C19_empty_update e a f c pre p post : valid_env e -> valid_program e a c (pre ++ SUpdate p 0 :: post) ->
  room e a c (pre ++ post) ->
  exists rs, runs e a f c (pre ++ SUpdate p 0 :: post) = Ok rs /\ runs e a f c (pre ++ post) = Ok rs.
Proof.
  intros HE HV HR.
  assert (V2 : valid_program e a c (pre ++ updates [] ++ post)).
  { destruct HV as (H1 & H2). split; [exact H1|]. rewrite Forall_app in *.
    destruct H2 as [H2 H4]. inversion H4; subst. split; assumption. }
  destruct (C01_chunking e a f c pre [] [(p, 0%nat)] post HE V2 HV HR) as (rs & E1 & E2).
  { destruct p; reflexivity. }
  exists rs. split; [exact E2|exact E1].
Qed.
Example C19_empty_update_ex a : exists rs,
  runs env_be a be32_flavor (CSeed 7) (sample ++ SUpdate (Ptr [5]) 0 :: sample) = Ok rs /\
  runs env_be a be32_flavor (CSeed 7) (sample ++ sample) = Ok rs.
Proof.
  apply C19_empty_update; [exact env_be_valid| |destruct a; try exact I; vm_compute; reflexivity].
  apply steps_valid; [reflexivity|reflexivity|]. apply Forall_app. split; [exact sample_ok|].
  constructor; [|exact sample_ok]. ok.
Qed.

(* ---------- C14: zero and empty seeds ---------- *)
Lemma start_zero cw a p : mc_start (machine_of cw a) CDefault = mc_start (machine_of cw a) (CSeed 0) /\
  mc_start (machine_of cw a) CDefault = mc_start (machine_of cw a) (CBytes p 0).
Proof.
  assert (HD : data p 0 = []) by (destruct p; reflexivity).
  destruct a as [m|m| | | | | | | | | ]; cbn [machine_of mc_start md_machine hmac_machine blk_machine fnv_machine].
  - split; reflexivity.
  - cbn [ProofHmac.hkey N.eqb]. rewrite HD. split; reflexivity.
  - split; reflexivity.
  - split; reflexivity.
  - split; reflexivity.
  - split; reflexivity.
  - split; [reflexivity|]. cbn [fnv_start]. now rewrite HD.
  - split; [reflexivity|]. cbn [fnv_start]. now rewrite HD.
  - split; [reflexivity|]. cbn [mur32_start Nat.leb]. now rewrite HD.
  - split; [reflexivity|]. cbn [mur128_start Nat.leb]. now rewrite HD.
  - split; [reflexivity|]. cbn [sp_start Nat.leb]. now rewrite HD.
Qed.
Theorem C14_zero_seed e a f p xs : valid_env e -> valid_program e a (CBytes p 0) xs -> room e a (CBytes p 0) xs ->
  exists rs, runs e a f CDefault xs = Ok rs /\ runs e a f (CSeed 0) xs = Ok rs /\ runs e a f (CBytes p 0) xs = Ok rs.
Proof.
  intros HE HV HR.
  assert (HV' : forall c, valid_ctor c -> valid_program e a c xs) by (intros c Hc; destruct HV as (H1 & H2); split; auto).
  assert (HR' : forall c, ctor_weight c = 0 -> room e a c xs).
  { intros c Hc. unfold room in *. destruct a; cbn [roomy] in *; auto. rewrite Hc. cbn [ctor_weight] in HR. lia. }
  destruct (start_zero (e_cw e) a p) as [E1 E2].
  exists (expected e a f CDefault xs). split; [|split].
  - apply runs_expected; [exact HE|now apply HV'|now apply HR'].
  - rewrite runs_expected; [|exact HE|apply HV'; reflexivity|now apply HR']. unfold expected. now rewrite E1.
  - rewrite runs_expected; [|exact HE|exact HV|exact HR]. unfold expected. now rewrite E2.
Qed.
Example C14_zero_seed_ex a : exists rs, runs env_pc a le_flavor CDefault sample = Ok rs /\
  runs env_pc a le_flavor (CSeed 0) sample = Ok rs /\ runs env_pc a le_flavor (CBytes Null 0) sample = Ok rs.
Proof.
  apply C14_zero_seed; [exact env_pc_valid| |destruct a; try exact I; vm_compute; reflexivity].
  apply steps_valid; [reflexivity|split; reflexivity|exact sample_ok].
Qed.

(* ---------- floating point normalisation ---------- *)
Lemma is_nan_spec e m b : is_nan e m b = true <-> flt_nan e m b.
Proof. unfold is_nan, flt_nan. apply N.ltb_lt. Qed.
Lemma fadd0_id i1 i2 e m b : im_down i1 = im_down i2 -> ~ flt_nan e m b -> fadd0 i1 e m b = fadd0 i2 e m b.
Proof.
  intros HD HN. unfold fadd0. destruct (is_nan e m b) eqn:E; [now apply is_nan_spec in E|]. now rewrite HD.
Qed.

(* ---------- C24, C25: independence of the platform ---------- *)
(* [e1] and [e2] may differ in byte order, constant/run-time evaluation, the null-ness of empty
   ranges, the contents of uninitialised memory, and the NaN that NaN + 0 yields; the width of
   size_t may differ too, for the algorithms that count bytes in a size_t while less than 2^32
   bytes are fed. *)
Theorem C25_portable e1 e2 a f c xs :
  valid_env e1 -> valid_env e2 ->
  im_psz (e_impl e1) = im_psz (e_impl e2) -> im_down (e_impl e1) = im_down (e_impl e2) ->
  valid_program e1 a c xs -> valid_program e2 a c xs -> room e1 a c xs -> room e2 a c xs ->
  Forall (fun x => match x with SCall k => call_nan_free k | _ => True end) xs \/
    (forall b, im_nan (e_impl e1) b = im_nan (e_impl e2) b) ->
  e_cw e1 = e_cw e2 \/ counts_size_t a = false \/ ctor_weight c + N.of_nat (weight xs) < 2^32 ->
  exists rs, runs e1 a f c xs = Ok rs /\ runs e2 a f c xs = Ok rs.
Proof.
  intros E1 E2 HP HD V1 V2 R1 R2 HN HW. exists (expected e1 a f c xs). split; [now apply runs_expected|].
  rewrite runs_expected by assumption. f_equal. unfold expected. symmetry.
  destruct V1 as (VC & VX). transitivity
   (aprun (mc_au (machine_of (e_cw e2) a)) (mc_ar (machine_of (e_cw e2) a)) result64
     (call_message (e_impl e1) f) (mc_start (machine_of (e_cw e2) a) c) xs).
  - unfold call_message. eapply machine_agree; [apply E1|apply E2|exact VC|exact VX|exact HW].
  - apply aprun_msg. apply Forall_forall. intros x Hx. destruct x as [p n| |k]; trivial. intros q.
    unfold call_message. rewrite HP.
    destruct HN as [HN|HN].
    + rewrite Forall_forall in HN. specialize (HN _ Hx). cbn in HN.
      apply (call_agree _ _ _ _ _ _ _ (fun b => ~ flt_nan 8 23 b) (fun b => ~ flt_nan 11 52 b)).
      * intros b Hb. now apply fadd0_id.
      * intros b Hb. now apply fadd0_id.
      * exact HN.
      * intros m _ _. reflexivity.
    + apply (call_agree _ _ _ _ _ _ _ (fun b => True) (fun b => True)).
      * intros b _. unfold fadd0. now rewrite HN, HD.
      * intros b _. unfold fadd0. now rewrite HN, HD.
      * apply call_floats_true.
      * intros m _ _. reflexivity.
Qed.
(* a little-endian 64-bit machine and a big-endian one with 32-bit size_t *)
Example C25_portable_ex a : exists rs,
  runs env_pc a be32_flavor (CSeed 7) sample = Ok rs /\ runs env_be a be32_flavor (CSeed 7) sample = Ok rs.
Proof.
  apply C25_portable; try reflexivity; try apply sample_valid; try apply sample_room.
  - exact env_pc_valid.
  - exact env_be_valid.
  - left. unfold sample, sample_tuple. repeat constructor. cbn. unfold flt_nan. vm_compute. discriminate.
  - right. right. vm_compute. reflexivity.
Qed.

(* In particular: constant evaluation and run-time evaluation *)
Definition set_cx (e : env) (cx : bool) : env :=
  {| e_impl := {| im_pf := {| p_le := p_le (e_pf e); p_cx := cx |}; im_psz := im_psz (e_impl e);
                  im_null := im_null (e_impl e); im_down := im_down (e_impl e); im_nan := im_nan (e_impl e) |};
     e_cw := e_cw e; e_junk := e_junk e |}.
Theorem C24_constexpr e a f c xs : valid_env e -> valid_program e a c xs -> room e a c xs ->
  exists rs, runs (set_cx e true) a f c xs = Ok rs /\ runs (set_cx e false) a f c xs = Ok rs.
Proof.
  intros HE HV HR.
  apply C25_portable; try reflexivity; try exact HE; try exact HV; try exact HR.
  - right. reflexivity.
  - left. reflexivity.
Qed.
Example C24_constexpr_ex a : exists rs, runs (set_cx env_pc true) a le_flavor (CSeed 7) sample = Ok rs /\
  runs (set_cx env_pc false) a le_flavor (CSeed 7) sample = Ok rs.
Proof. apply C24_constexpr; [exact env_pc_valid|apply sample_valid|apply sample_room]. Qed.

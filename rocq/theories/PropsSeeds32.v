(* C16: "instances of the hash algorithm initialized by different seeds produce different hash values when
   passed the same message" (doc/hash2/hashing_bytes.adoc:89-91) cannot hold for results of 32 bits:
   whatever is hashed, 2^32 of the 64-bit seeds have the same hash value. *)
From Verif Require Import Base BaseFacts SpecCommon Gen Bits Hasher GenBlk Types ModelResult ModelAppend SpecAppend ProofMsg ProofMsgEq ProofMsgExt
  ProofAppend Behaves Instances ProofRuns Samples PropsHistory PropsAlg PropsAppend PropsIntegral ProofRange PropsUnord.
Open Scope N_scope.

Definition results32 (a : alg) : Prop := match a with Asip32 | Axx32 | Afnv32 | Amur32 => True | _ => False end.
Lemma below_all K : exists l, NoDup l /\ N.of_nat (length l) = K /\ forall n, In n l -> n < K.
Proof.
  exists (map N.of_nat (seq 0 (N.to_nat K))). split; [|split].
  - apply FinFun.Injective_map_NoDup; [intros x y E; lia|apply seq_NoDup].
  - rewrite map_length, seq_length. lia.
  - intros n Hn. apply in_map_iff in Hn. destruct Hn as (k & <- & Hk). apply in_seq in Hk. lia.
Qed.
Lemma result32 e a f c xs : results32 a -> valid_env e -> valid_program e a c xs -> results_in xs = 1%nat ->
  exists x, x < 2^32 /\ runs e a f c xs = Ok [RInt I32 x].
Proof.
  intros HA HE HV HR.
  assert (RM : room e a c xs) by (apply room_any; destruct a; try contradiction; discriminate).
  pose proof (results_words e a f c xs HV) as HW. rewrite runs_expected by assumption.
  assert (HL : length (expected e a f c xs) = 1%nat) by (rewrite <- HR; apply aprun_length).
  assert (HS : Forall (fun r => exists x, r = RInt I32 x) (expected e a f c xs)).
  { unfold expected. generalize (mc_start (machine_of (e_cw e) a) c). clear - HA. induction xs as [|[p n| |k] xs IH]; intros s; cbn [aprun]; [constructor|apply IH| |apply IH].
    constructor; [|apply IH]. destruct a; try contradiction; cbn [machine_of blk_machine fnv_machine mc_ar fst]; eexists; reflexivity. }
  destruct (expected e a f c xs) as [|r [|]]; try discriminate. inversion HW; subst. inversion HS as [|? ? (x & ->) _]; subst. exists x. split; [assumption|reflexivity].
Qed.
Theorem C16_results32_refuted e a f xs : results32 a -> valid_env e -> Forall (valid_step (nul_of a) (e_impl e)) xs -> results_in xs = 1%nat ->
  exists seeds x, NoDup seeds /\ 2^32 <= N.of_nat (length seeds) /\
    Forall (fun n => n < 2^64 /\ runs e a f (CSeed n) xs = Ok [RInt I32 x]) seeds.
Proof.
  intros HA HE HX HR. destruct (below_all (2^64)) as (l & L1 & L2 & L3).
  assert (HV : forall n, n < 2^64 -> exists x, x < 2^32 /\ runs e a f (CSeed n) xs = Ok [RInt I32 x]).
  { intros n Hn. apply result32; try assumption. split; [exact Hn|exact HX]. }
  set (g := fun n => match runs e a f (CSeed n) xs with Ok [RInt I32 x] => x | _ => 0 end).
  assert (HG : forall n, n < 2^64 -> g n < 2^32 /\ runs e a f (CSeed n) xs = Ok [RInt I32 (g n)]).
  { intros n Hn. destruct (HV n Hn) as (x & Hx & E). unfold g. rewrite E. now split. }
  destruct (pigeons g (2^32 - 1) (2^32) l) as (x & Hx).
  - intros n Hn. apply HG. now apply L3.
  - rewrite L2. reflexivity.
  - exists (filter (fun n => g n =? x) l), x. split; [now apply NoDup_filter|]. split; [clear - Hx; lia|].
    apply Forall_forall. intros n Hn. apply filter_In in Hn. destruct Hn as [Hn E]. apply N.eqb_eq in E. apply L3 in Hn. split; [exact Hn|]. rewrite <- E. now apply HG.
Qed.
Example C16_results32_refuted_ex : exists seeds x, NoDup seeds /\ 2^32 <= N.of_nat (length seeds) /\
  Forall (fun n => n < 2^64 /\ runs env_pc Asip32 le_flavor (CSeed n) [SUpdate (Ptr [97; 98; 99]) 3; SResult] = Ok [RInt I32 x]) seeds.
Proof.
  apply C16_results32_refuted; [exact I|exact env_pc_valid| |reflexivity]. repeat constructor.
Qed.

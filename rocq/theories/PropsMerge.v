(* C66: objects with different seeds that get the same calls never become the same (fnv1a, murmur3, siphash, spooky2);
   with xxhash they do. *)
From Verif Require Import Base BaseFacts SpecCommon Gen Bits GenMD Hasher GenBlk Types ModelResult ModelAppend SpecAppend ProofMsg ProofAppend ProofMsgEq
  Behaves Instances ProofRuns Samples PropsHistory PropsAlg PropsAppend PropsSeeds PropsPrims PropsResults ProofObj ProofLocal PropsLocal PropsLocal64 ProofMurmurDistinct.
From Verif Require Import PropsLong ProofSpookyMix ProofSpooky ModelSpooky SpecSpooky SpecFnv ProofFnv SpecMurmur ProofMurmur SpecXxh ProofXxh SpecSip ModelSip ProofSip PropsReveal ProofMerge.
Open Scope N_scope.

(* A call that feeds the same bytes to every object: any update or result, and any hash_append call whose bytes do not depend on
   the object (that is, without unordered containers, C25) *)
Definition same_bytes (i : impl) (f : flavor) (x : ustep) : Prop :=
  match x with SCall k => forall q1 q2, call_message i f k q1 = call_message i f k q2 | _ => True end.

Section Pairs.
Context {A R : Type}.
Variables (au : A -> list N -> A) (ar : A -> R * A) (g : R -> N).
Variable i : impl.
Variable f : flavor.
Variable nul : bool.
Variable D : A -> A -> Prop.
Hypothesis Hu : forall a b d, bytes d -> D a b -> D (au a d) (au b d).
Hypothesis Hr : forall a b, D a b -> D (snd (ar a)) (snd (ar b)).
Lemma pairs_states xs : Forall (valid_step nul i) xs -> Forall (same_bytes i f) xs -> forall a b, D a b ->
  D (asteps au ar g (call_message i f) a xs) (asteps au ar g (call_message i f) b xs).
Proof.
  intros HV HP. induction xs as [|x xs IH]; intros a b H; [exact H|].
  inversion HV as [|? ? V1 V2]; subst. inversion HP as [|? ? P1 P2]; subst. destruct x as [p n| |k]; cbn [asteps].
  - apply IH; try assumption. apply Hu; [|exact H]. apply (valid_data nul). exact V1.
  - apply IH; try assumption. now apply Hr.
  - apply IH; try assumption. rewrite (P1 (aq au ar g a) (aq au ar g b)). apply Hu; [|exact H]. apply call_msg_bytes.
Qed.
Hypothesis Hd : forall a b, D a b -> fst (ar a) <> fst (ar b).
Lemma pairs_results xs : Forall (valid_step nul i) xs -> Forall (same_bytes i f) xs -> forall a b, D a b ->
  Forall2 (fun r1 r2 => r1 <> r2) (aprun au ar g (call_message i f) a xs) (aprun au ar g (call_message i f) b xs).
Proof.
  intros HV HP. induction xs as [|x xs IH]; intros a b H; [constructor|].
  inversion HV as [|? ? V1 V2]; subst. inversion HP as [|? ? P1 P2]; subst. destruct x as [p n| |k]; cbn [aprun].
  - apply IH; try assumption. apply Hu; [|exact H]. apply (valid_data nul). exact V1.
  - constructor; [now apply Hd|]. apply IH; try assumption. now apply Hr.
  - apply IH; try assumption. rewrite (P1 (aq au ar g a) (aq au ar g b)). apply Hu; [|exact H]. apply call_msg_bytes.
Qed.
End Pairs.

(* the results of the two programs differ at every position *)
Definition all_different (e : env) (a : alg) (f : flavor) (c1 c2 : ctor) (xs : list ustep) : Prop :=
  exists rs1 rs2, runs e a f c1 xs = Ok rs1 /\ runs e a f c2 xs = Ok rs2 /\ Forall2 (fun r1 r2 => r1 <> r2) rs1 rs2.

(* ---------- fnv1a ---------- *)
Lemma fnv_different e a F s inv f c1 c2 xs : machine_of (e_cw e) a = fnv_machine F s -> a <> Aspooky ->
  (fnv_prime F * inv) mod 2 ^ fnv_w F = 1 mod 2 ^ fnv_w F -> 8 <= fnv_w F -> fnv_basis F < 2 ^ fnv_w F ->
  valid_env e -> valid_ctor c1 -> valid_ctor c2 -> Forall (valid_step (nul_of a) (e_impl e)) xs -> Forall (same_bytes (e_impl e) f) xs ->
  interchangeable e a f c1 c2 \/ all_different e a f c1 c2 xs.
Proof.
  intros HM HA HI HW HB HE H1 H2 HV HP.
  destruct (N.eq_dec (FNV1a F (fnv_start c1)) (FNV1a F (fnv_start c2))) as [E|E].
  - left. intros ys HX. rewrite !runs_expected; try assumption; try (now apply room_any); [|now apply (valid_other e a c1)].
    apply (f_equal Ok). unfold expected. rewrite HM. now apply fnv_reveal.
  - right. eexists _, _. rewrite !runs_expected; try assumption; try (now apply room_any); try (split; assumption).
    split; [reflexivity|]. split; [reflexivity|]. unfold expected. rewrite HM.
    apply (pairs_results _ _ _ _ _ (nul_of a) (fun l1 l2 : list N => FNV1a F l1 <> FNV1a F l2)); try assumption.
    + intros l1 l2 d Hd HN. cbn [fnv_machine mc_au]. rewrite <- !fnv_app. intros X. apply HN.
      apply (fnv_states F inv HI HW) in X; [exact X|exact Hd|now apply FNV1a_lt|now apply FNV1a_lt].
    + intros l1 l2 HN. cbn [fnv_machine mc_ar snd]. unfold fnv_pad. rewrite <- !fnv_app. intros X. apply HN.
      apply (fnv_states F inv HI HW) in X; [exact X| |now apply FNV1a_lt|now apply FNV1a_lt]. repeat constructor.
    + intros l1 l2 HN X. apply HN. cbn [fnv_machine mc_ar fst] in X. now injection X.
Qed.
Theorem C66_fnv32 e f c1 c2 xs : valid_env e -> valid_program e Afnv32 c1 xs -> valid_ctor c2 -> Forall (same_bytes (e_impl e) f) xs ->
  interchangeable e Afnv32 f c1 c2 \/ all_different e Afnv32 f c1 c2 xs.
Proof. intros HE [H1 HV] H2 HP. now apply (fnv_different e Afnv32 FNV32 I32 0x359c449b). Qed.
Theorem C66_fnv64 e f c1 c2 xs : valid_env e -> valid_program e Afnv64 c1 xs -> valid_ctor c2 -> Forall (same_bytes (e_impl e) f) xs ->
  interchangeable e Afnv64 f c1 c2 \/ all_different e Afnv64 f c1 c2 xs.
Proof. intros HE [H1 HV] H2 HP. now apply (fnv_different e Afnv64 FNV64 I64 0xce965057aff6957b). Qed.

(* ---------- murmur3 ---------- *)
(* same count and buffered bytes, different states *)
Definition apart {St} (P : St -> Prop) (x y : ast St) : Prop :=
  snd (fst x) = snd (fst y) /\ snd x = snd y /\ bytes (snd x) /\ P (fst (fst x)) /\ P (fst (fst y)) /\ fst (fst x) <> fst (fst y).
Lemma apart_update {St} (P : St -> Prop) x y d : bytes d -> apart P x y -> apart P (ab_au x d) (ab_au y d).
Proof.
  destruct x as [[s1 c1] l1], y as [[s2 c2] l2]. unfold apart, ab_au. cbn [fst snd]. intros Hd (-> & -> & Hl & H1 & H2 & HN).
  repeat split; try assumption. apply bytes_app. now split.
Qed.
Theorem C66_murmur32 e f c1 c2 xs : valid_env e -> valid_program e Amur32 c1 xs -> valid_ctor c2 -> same_form c1 c2 -> Forall (same_bytes (e_impl e) f) xs ->
  interchangeable e Amur32 f c1 c2 \/ all_different e Amur32 f c1 c2 xs.
Proof.
  intros HE [H1 HV] H2 HF HP.
  pose proof (mur32_count (e_cw e) c1 c2 H1 H2 HF) as HC.
  destruct (mur32_start_lt (e_cw e) c1 H1) as (st1 & k1 & E1 & L1). destruct (mur32_start_lt (e_cw e) c2 H2) as (st2 & k2 & E2 & L2). rewrite E1, E2 in HC. cbn [fst snd] in HC. subst k2.
  destruct (N.eq_dec st1 st2) as [E|E].
  - left. apply same_start; try assumption; [discriminate|]. cbn [machine_of blk_machine mc_start]. rewrite E1, E2, E. reflexivity.
  - right. eexists _, _. rewrite !runs_expected; try assumption; try (now apply room_any); try (split; assumption).
    split; [reflexivity|]. split; [reflexivity|]. unfold expected. cbn [machine_of blk_machine mc_start mc_ar mc_au]. rewrite E1, E2.
    apply (pairs_results _ _ _ _ _ (nul_of Amur32) (apart (fun s => s < 2^32))); try assumption.
    + intros a b d. apply apart_update.
    + intros [[s1 n1] l1] [[s2 n2] m2] (X1 & X2 & Hl & P1 & P2 & HN). cbn [fst snd] in *. subst n2 m2. unfold mur32_ar. cbn [snd]. unfold apart. cbn [fst snd]. refine (conj eq_refl (conj eq_refl (conj _ (conj _ (conj _ _))))).
      * constructor.
      * apply (fold_P (fun s => s < 2^32)); try assumption; try lia. intros. apply ADD_lt'.
      * apply (fold_P (fun s => s < 2^32)); try assumption; try lia. intros. apply ADD_lt'.
      * intros X. apply HN. apply (fold_inj (fun s => s < 2^32) Mur32_block 4 l1) in X; try assumption; try lia.
        -- intros. apply ADD_lt'.
        -- intros x y b P3 P4 Hb Y. apply Mur32_block_inj in Y; [|assumption|assumption]. now apply lxor_inj_r in Y.
    + intros [[s1 n1] l1] [[s2 n2] m2] (X1 & X2 & Hl & P1 & P2 & HN). cbn [fst snd] in *. subst n2 m2. unfold mur32_ar. cbn [fst]. intros X.
      assert (Q : forall x y, RInt I32 x = RInt I32 y -> x = y) by (intros x y Y; now injection Y). apply Q in X. apply HN. now apply mur32_states in X.
    + unfold apart. cbn [fst snd]. refine (conj eq_refl (conj eq_refl (conj _ (conj L1 (conj L2 E))))). constructor.
Qed.
Theorem C66_murmur128 e f c1 c2 xs : valid_env e -> valid_program e Amur128 c1 xs -> valid_ctor c2 -> same_form c1 c2 -> Forall (same_bytes (e_impl e) f) xs ->
  interchangeable e Amur128 f c1 c2 \/ all_different e Amur128 f c1 c2 xs.
Proof.
  intros HE [H1 HV] H2 HF HP.
  pose proof (mur128_count (e_cw e) c1 c2 H1 H2 HF) as HC.
  destruct (mur128_start_lt (e_cw e) c1 H1) as (st1 & k1 & E1 & L1). destruct (mur128_start_lt (e_cw e) c2 H2) as (st2 & k2 & E2 & L2). rewrite E1, E2 in HC. cbn [fst snd] in HC. subst k2.
  assert (D : {st1 = st2} + {st1 <> st2}) by (decide equality; apply N.eq_dec). destruct D as [E|E].
  - left. apply same_start; try assumption; [discriminate|]. cbn [machine_of blk_machine mc_start]. rewrite E1, E2, E. reflexivity.
  - right. eexists _, _. rewrite !runs_expected; try assumption; try (now apply room_any); try (split; assumption).
    split; [reflexivity|]. split; [reflexivity|]. unfold expected. cbn [machine_of blk_machine mc_start mc_ar mc_au]. rewrite E1, E2.
    apply (pairs_results _ _ _ _ _ (nul_of Amur128) (apart l2)); try assumption.
    + intros a b d. apply apart_update.
    + intros [[s1 n1] m1] [[s2 n2] m2] (X1 & X2 & Hl & P1 & P2 & HN). cbn [fst snd] in *. subst n2 m2. unfold mur128_ar. cbn [snd]. unfold apart. cbn [fst snd]. refine (conj eq_refl (conj eq_refl (conj _ (conj _ (conj _ _))))).
      * constructor.
      * apply (fold_P l2); try assumption; try lia. intros. apply Mur128_block_lt.
      * apply (fold_P l2); try assumption; try lia. intros. apply Mur128_block_lt.
      * intros X. apply HN. apply (fold_inj l2 Mur128_block 16 m1) in X; try assumption; try lia.
        -- intros. apply Mur128_block_lt.
        -- intros x y b P3 P4 Hb Y. apply Mur128_block_inj in Y; [|assumption|assumption]. destruct Y as [Y1 Y2]. unfold in128 in Y1. cbn [snd] in Y1.
           apply lxor_inj_r in Y1. specialize (Y2 Y1). now apply in128_state in Y2.
    + intros [[s1 n1] m1] [[s2 n2] m2] (X1 & X2 & Hl & P1 & P2 & HN). cbn [fst snd] in *. subst n2 m2. unfold mur128_ar. cbn [fst]. intros X.
      assert (Q : forall x y, RDigest x = RDigest y -> x = y) by (intros x y Y; now injection Y). apply Q in X. apply HN. apply mur128_states in X; try assumption.
      destruct HE as [[-> | ->] _]; (eapply N.lt_le_trans; [apply N.mod_lt; discriminate|]); now apply N.leb_le.
    + unfold apart. cbn [fst snd]. refine (conj eq_refl (conj eq_refl (conj _ (conj L1 (conj L2 E))))). constructor.
Qed.

(* ---------- siphash ---------- *)
(* the two objects, after the same calls, are different *)
Definition objects_differ (e : env) (a : alg) (f : flavor) (c1 c2 : ctor) (xs : list ustep) : Prop :=
  exists s1 s2, object e a f c1 xs = Ok s1 /\ object e a f c2 xs = Ok s2 /\ s1 <> s2.
Lemma apart_sip F x y : sip_fam F -> apart (sip_lt F) x y -> apart (sip_lt F) (snd (sip_ar F x)) (snd (sip_ar F y)).
Proof.
  destruct x as [[s1 n1] m1], y as [[s2 n2] m2]. intros HF (X1 & X2 & Hl & P1 & P2 & HN). cbn [fst snd] in *. subst n2 m2.
  unfold sip_ar, apart. cbn [fst snd]. refine (conj eq_refl (conj eq_refl (conj _ (conj _ (conj _ _))))).
  - constructor.
  - now apply SipFrom_lt.
  - now apply SipFrom_lt.
  - intros X. apply HN. now apply SipFrom_inj in X.
Qed.
Lemma sip64_start_lt c : valid_ctor c -> sip_lt F64 (fst (fst (sip64_start c))) /\ snd (sip64_start c) = [].
Proof.
  assert (HF : sip_fam F64) by now left. assert (H0 : sip_lt F64 (SipInit F64 0 0)) by now apply SipInit_lt.
  intros HC. destruct c as [|n|p n]; cbn [sip64_start valid_ctor] in *.
  - now split.
  - split; [|reflexivity]. cbn [fst]. now apply SipInit_lt.
  - destruct (valid_data _ _ _ HC) as [HB HL]. destruct (Nat.eqb_spec n 16).
    + split; [|reflexivity]. cbn [fst]. apply SipInit_lt; try assumption; apply sip_word_lt; try assumption; cbn [F64 swb].
      * now apply bytes_firstn.
      * rewrite firstn_length. lia.
      * now apply bytes_skipn.
      * rewrite skipn_length. lia.
    + destruct (Nat.eqb n 0); [now split|]. unfold sip_ar. cbn [fst snd]. split; [|reflexivity]. now apply SipFrom_lt.
Qed.
Lemma sip32_start_lt c : valid_ctor c -> sip_lt F32 (fst (fst (sip32_start c))) /\ snd (sip32_start c) = [].
Proof.
  assert (HF : sip_fam F32) by now right. assert (H0 : sip_lt F32 (SipInit F32 0 0)) by now apply SipInit_lt.
  intros HC. destruct c as [|n|p n]; cbn [sip32_start valid_ctor] in *.
  - now split.
  - split; [|reflexivity]. cbn [fst]. apply SipInit_lt; try assumption; cbn [F32 sw]; [apply N.mod_lt; discriminate|].
    apply N.div_lt_upper_bound; [discriminate|]. exact HC.
  - destruct (valid_data _ _ _ HC) as [HB HL]. destruct (Nat.eqb_spec n 8).
    + split; [|reflexivity]. cbn [fst]. apply SipInit_lt; try assumption; apply sip_word_lt; try assumption; cbn [F32 swb].
      * now apply bytes_firstn.
      * rewrite firstn_length. lia.
      * now apply bytes_skipn.
      * rewrite skipn_length. lia.
    + destruct (Nat.eqb n 0); [now split|]. unfold sip_ar. cbn [fst snd]. split; [|reflexivity]. now apply SipFrom_lt.
Qed.
Lemma sip64_count c1 c2 : valid_ctor c1 -> valid_ctor c2 -> same_form c1 c2 -> snd (fst (sip64_start c1)) = snd (fst (sip64_start c2)).
Proof.
  destruct c1 as [|n1|p1 n1], c2 as [|n2|p2 n2]; cbn [same_form sip64_start valid_ctor]; intros V1 V2 H; try contradiction; try reflexivity. subst n2.
  destruct (Nat.eqb n1 16); [reflexivity|]. destruct (Nat.eqb n1 0); [reflexivity|]. unfold sip_ar. cbn [snd fst].
  now rewrite (proj2 (valid_data _ _ _ V1)), (proj2 (valid_data _ _ _ V2)).
Qed.
Lemma sip32_count c1 c2 : valid_ctor c1 -> valid_ctor c2 -> same_form c1 c2 -> snd (fst (sip32_start c1)) = snd (fst (sip32_start c2)).
Proof.
  destruct c1 as [|n1|p1 n1], c2 as [|n2|p2 n2]; cbn [same_form sip32_start valid_ctor]; intros V1 V2 H; try contradiction; try reflexivity. subst n2.
  destruct (Nat.eqb n1 8); [reflexivity|]. destruct (Nat.eqb n1 0); [reflexivity|]. unfold sip_ar. cbn [snd fst].
  now rewrite (proj2 (valid_data _ _ _ V1)), (proj2 (valid_data _ _ _ V2)).
Qed.
(* the members v of the object *)
Lemma sip64_v e : tracks e Asip64 (fun x s => b_st s = fold_left (SipWord F64) (chunks 8 (snd x)) (fst (fst x))).
Proof.
  apply (tracks_intro e Asip64 _ _ _ Rel64 _ (sip64_refines (e_pf e)) (fits_true _ _ _ ok64_true)).
  - intros x. split; reflexivity.
  - intros c L V _. destruct (sip64_construct (e_pf e) c V) as (s & E1 & R1). exists s. split; [exact E1|split; [exact R1|exact I]].
  - intros [[st c] l] s (_ & _ & R1). exact (proj1 R1).
Qed.
Lemma sip32_v e : tracks e Asip32 (fun x s => b_st s = fold_left (SipWord F32) (chunks 4 (snd x)) (fst (fst x))).
Proof.
  apply (tracks_intro e Asip32 _ _ _ Rel32 _ (sip32_refines (e_pf e)) (fits_true _ _ _ ok32_true)).
  - intros x. split; reflexivity.
  - intros c L V _. destruct (sip32_construct (e_pf e) c V) as (s & E1 & R1). exists s. split; [exact E1|split; [exact R1|exact I]].
  - intros [[st c] l] s (_ & _ & R1). exact (proj1 R1).
Qed.
Lemma sip_state_dec (u v : Sip_state) : {u = v} + {u <> v}.
Proof. repeat decide equality. Qed.
Lemma ast_eta {St} (x y : ast St) : fst (fst x) = fst (fst y) -> snd (fst x) = snd (fst y) -> snd x = snd y -> x = y.
Proof. destruct x as [[? ?] ?], y as [[? ?] ?]. cbn [fst snd]. congruence. Qed.
Lemma sip64_apart e f c1 c2 xs : valid_env e -> valid_program e Asip64 c1 xs -> valid_ctor c2 -> same_form c1 c2 -> Forall (same_bytes (e_impl e) f) xs ->
  fst (fst (sip64_start c1)) <> fst (fst (sip64_start c2)) -> objects_differ e Asip64 f c1 c2 xs.
Proof.
  intros HE HV H2 HF HP HN.
  destruct (sip64_v e f c1 xs HV I) as (s1 & O1 & S1). destruct (sip64_v e f c2 xs (valid_other e Asip64 c1 c2 xs H2 HV) I) as (s2 & O2 & S2).
  exists s1, s2. split; [exact O1|]. split; [exact O2|]. destruct HV as [H1 HV].
  destruct (sip64_start_lt c1 H1) as [L1 N1]. destruct (sip64_start_lt c2 H2) as [L2 N2].
  assert (AP : apart (sip_lt F64) (state e Asip64 f c1 xs) (state e Asip64 f c2 xs)).
  { unfold state. apply (pairs_states _ _ _ _ _ (nul_of Asip64) (apart (sip_lt F64))); try assumption.
    - intros a b d. apply apart_update.
    - intros a b HA. apply apart_sip; [now left|exact HA].
    - unfold apart. cbn [machine_of blk_machine mc_start]. refine (conj (sip64_count c1 c2 H1 H2 HF) (conj _ (conj _ (conj L1 (conj L2 HN))))); [now rewrite N1, N2|]. rewrite N1. constructor. }
  destruct AP as (_ & A2 & A3 & A4 & A5 & A6). intros X. apply A6. rewrite X, S2, A2 in S1. symmetry.
  apply (SipWords_inj F64 _ _ (snd (state e Asip64 f c2 xs))); try assumption; [now left|]. now rewrite <- A2.
Qed.
Lemma sip32_apart e f c1 c2 xs : valid_env e -> valid_program e Asip32 c1 xs -> valid_ctor c2 -> same_form c1 c2 -> Forall (same_bytes (e_impl e) f) xs ->
  fst (fst (sip32_start c1)) <> fst (fst (sip32_start c2)) -> objects_differ e Asip32 f c1 c2 xs.
Proof.
  intros HE HV H2 HF HP HN.
  destruct (sip32_v e f c1 xs HV I) as (s1 & O1 & S1). destruct (sip32_v e f c2 xs (valid_other e Asip32 c1 c2 xs H2 HV) I) as (s2 & O2 & S2).
  exists s1, s2. split; [exact O1|]. split; [exact O2|]. destruct HV as [H1 HV].
  destruct (sip32_start_lt c1 H1) as [L1 N1]. destruct (sip32_start_lt c2 H2) as [L2 N2].
  assert (AP : apart (sip_lt F32) (state e Asip32 f c1 xs) (state e Asip32 f c2 xs)).
  { unfold state. apply (pairs_states _ _ _ _ _ (nul_of Asip32) (apart (sip_lt F32))); try assumption.
    - intros a b d. apply apart_update.
    - intros a b HA. apply apart_sip; [now right|exact HA].
    - unfold apart. cbn [machine_of blk_machine mc_start]. refine (conj (sip32_count c1 c2 H1 H2 HF) (conj _ (conj _ (conj L1 (conj L2 HN))))); [now rewrite N1, N2|]. rewrite N1. constructor. }
  destruct AP as (_ & A2 & A3 & A4 & A5 & A6). intros X. apply A6. rewrite X, S2, A2 in S1. symmetry.
  apply (SipWords_inj F32 _ _ (snd (state e Asip32 f c2 xs))); try assumption; [now right|]. now rewrite <- A2.
Qed.
Theorem C66_siphash64 e f c1 c2 xs : valid_env e -> valid_program e Asip64 c1 xs -> valid_ctor c2 -> same_form c1 c2 -> Forall (same_bytes (e_impl e) f) xs ->
  interchangeable e Asip64 f c1 c2 \/ objects_differ e Asip64 f c1 c2 xs.
Proof.
  intros HE HV H2 HF HP. destruct (sip_state_dec (fst (fst (sip64_start c1))) (fst (fst (sip64_start c2)))) as [E|E].
  - left. apply same_start; try assumption; [discriminate|]. cbn [machine_of blk_machine mc_start]. apply ast_eta; [exact E|now apply sip64_count; [apply HV| |]|].
    rewrite (proj2 (sip64_start_lt c1 (proj1 HV))), (proj2 (sip64_start_lt c2 H2)). reflexivity.
  - right. now apply sip64_apart.
Qed.
Theorem C66_siphash32 e f c1 c2 xs : valid_env e -> valid_program e Asip32 c1 xs -> valid_ctor c2 -> same_form c1 c2 -> Forall (same_bytes (e_impl e) f) xs ->
  interchangeable e Asip32 f c1 c2 \/ objects_differ e Asip32 f c1 c2 xs.
Proof.
  intros HE HV H2 HF HP. destruct (sip_state_dec (fst (fst (sip32_start c1))) (fst (fst (sip32_start c2)))) as [E|E].
  - left. apply same_start; try assumption; [discriminate|]. cbn [machine_of blk_machine mc_start]. apply ast_eta; [exact E|now apply sip32_count; [apply HV| |]|].
    rewrite (proj2 (sip32_start_lt c1 (proj1 HV))), (proj2 (sip32_start_lt c2 H2)). reflexivity.
  - right. now apply sip32_apart.
Qed.
(* different keys of 16 (8) bytes *)
Theorem C66_siphash64_keys e f p1 p2 xs : valid_env e -> valid_program e Asip64 (CBytes p1 16) xs -> valid_arg true p2 16 -> Forall (same_bytes (e_impl e) f) xs ->
  data p1 16 <> data p2 16 -> objects_differ e Asip64 f (CBytes p1 16) (CBytes p2 16) xs.
Proof.
  intros HE HV H2 HP HN. apply sip64_apart; try assumption; [reflexivity|]. cbn [sip64_start Nat.eqb fst]. intros X. apply HN.
  apply SipInit_inj in X. destruct X as [X0 X1]. destruct (valid_data _ _ _ (proj1 HV)) as [B1 L1]. destruct (valid_data _ _ _ H2) as [B2 L2].
  rewrite <- (firstn_skipn 8 (data p1 16)), <- (firstn_skipn 8 (data p2 16)). f_equal.
  - apply LE_inj; try assumption; try (now apply bytes_firstn). rewrite !firstn_length. lia.
  - apply LE_inj; try assumption; try (now apply bytes_skipn). rewrite !skipn_length. lia.
Qed.
Theorem C66_siphash32_keys e f p1 p2 xs : valid_env e -> valid_program e Asip32 (CBytes p1 8) xs -> valid_arg true p2 8 -> Forall (same_bytes (e_impl e) f) xs ->
  data p1 8 <> data p2 8 -> objects_differ e Asip32 f (CBytes p1 8) (CBytes p2 8) xs.
Proof.
  intros HE HV H2 HP HN. apply sip32_apart; try assumption; [reflexivity|]. cbn [sip32_start Nat.eqb fst]. intros X. apply HN.
  apply SipInit_inj in X. destruct X as [X0 X1]. destruct (valid_data _ _ _ (proj1 HV)) as [B1 L1]. destruct (valid_data _ _ _ H2) as [B2 L2].
  rewrite <- (firstn_skipn 4 (data p1 8)), <- (firstn_skipn 4 (data p2 8)). f_equal.
  - apply LE_inj; try assumption; try (now apply bytes_firstn). rewrite !firstn_length. lia.
  - apply LE_inj; try assumption; try (now apply bytes_skipn). rewrite !skipn_length. lia.
Qed.

(* ---------- spooky2 ---------- *)
Section FitPairs.
Context {A R : Type}.
Variables (au : A -> list N -> A) (ar : A -> R * A) (g : R -> N).
Variable i : impl.
Variable f : flavor.
Variable nul : bool.
Variable D : nat -> A -> A -> Prop.
Hypothesis Hu : forall L a b d, bytes d -> D (length d + L) a b -> D L (au a d) (au b d).
Hypothesis Hr : forall L a b, D (192 + L) a b -> D L (snd (ar a)) (snd (ar b)).
Hypothesis Hm : forall L L' a b, D L a b -> (L' <= L)%nat -> D L' a b.
Lemma fit_pairs xs : Forall (valid_step nul i) xs -> Forall (same_bytes i f) xs -> forall a b, D (weight xs) a b ->
  D 0 (asteps au ar g (call_message i f) a xs) (asteps au ar g (call_message i f) b xs).
Proof.
  intros HV HP. induction xs as [|x xs IH]; intros a b H; [exact H|].
  unfold weight in H. cbn [map lsum fold_right] in H. change (fold_right Nat.add 0%nat (map step_weight xs)) with (weight xs) in H.
  inversion HV as [|? ? V1 V2]; subst. inversion HP as [|? ? P1 P2]; subst. destruct x as [p n| |k]; cbn [asteps step_weight] in *.
  - apply IH; try assumption. destruct (valid_data nul _ _ V1) as [B1 L1]. apply Hu; [exact B1|]. now rewrite L1.
  - apply IH; try assumption. now apply Hr.
  - apply IH; try assumption. rewrite (P1 (aq au ar g a) (aq au ar g b)). apply Hu; [apply call_msg_bytes|].
    eapply Hm; [exact H|]. apply Nat.add_le_mono_r. apply call_blen_ok.
Qed.
End FitPairs.
(* the seeds hash1 and hash2 of the constructors: an integer, or up to 16 bytes *)
Definition spooky_seeds (c : ctor) : N * N :=
  match c with CDefault => (0, 0) | CSeed n => (n, 0) | CBytes p n => (LE (firstn 8 (data p n)), LE (skipn 8 (data p n))) end.
Definition up_to_16 (c : ctor) : Prop := match c with CBytes _ n => (n <= 16)%nat | _ => True end.
Lemma sp_seeded cw c : up_to_16 c -> sp_start cw c = (sp_of (Spooky_init (fst (spooky_seeds c)) (snd (spooky_seeds c))), 0, []).
Proof. destruct c as [|n|p n]; intros H; try reflexivity. cbn [up_to_16] in H. cbn [sp_start spooky_seeds fst snd]. now rewrite (proj2 (Nat.leb_le n 16) H). Qed.
Lemma spooky_seeds_lt c : valid_ctor c -> up_to_16 c -> fst (spooky_seeds c) < 2^64 /\ snd (spooky_seeds c) < 2^64.
Proof.
  destruct c as [|n|p n]; cbn [valid_ctor up_to_16 spooky_seeds fst snd]; intros HC HL; [now split|now split|].
  destruct (valid_data _ _ _ HC) as [HB HN]. split; (apply (sip_word_lt F64); [now left| |]); cbn [F64 swb].
  - now apply bytes_firstn. - rewrite firstn_length. lia. - now apply bytes_skipn. - rewrite skipn_length. lia.
Qed.
Definition sp_apart (cw : N) (L : nat) (x y : ast sp_st) : Prop :=
  snd (fst x) = snd (fst y) /\ snd x = snd y /\ bytes (snd x) /\ sp_good (fst (fst x)) /\ sp_good (fst (fst y)) /\ fst (fst x) <> fst (fst y) /\
  (snd (fst x) < 192 -> upper (fst (fst x)) <> upper (fst (fst y))) /\ snd (fst x) + N.of_nat (length (snd x)) + N.of_nat L < cw.
Lemma sp_init_good a b : a < 2^64 -> b < 2^64 -> sp_good (sp_of (Spooky_init a b)).
Proof. intros Ha Hb. unfold sp_good, sp_of, Spooky_init, sp_list. cbn [nth]. split; [reflexivity|]. repeat constructor; assumption. Qed.
Lemma spooky_apart e f c1 c2 xs : valid_env e -> valid_program e Aspooky c1 xs -> room e Aspooky c1 xs -> valid_ctor c2 -> room e Aspooky c2 xs ->
  Forall (same_bytes (e_impl e) f) xs -> sp_apart (e_cw e) (weight xs) (sp_start (e_cw e) c1) (sp_start (e_cw e) c2) -> objects_differ e Aspooky f c1 c2 xs.
Proof.
  intros HE HV HR H2 HR2 HP HX0. pose proof HE as [Hcw HJ]. pose proof (proj1 HV) as H1.
  assert (TR : tracks e Aspooky (fun x s => b_st s = fold_left sp_cm2 (chunks 192 (snd x)) (fst (fst x)))).
  { apply (tracks_intro e Aspooky _ _ _ _ _ (sp_refines (e_cw e) Hcw (e_le e) (e_junk e 192)) (sp_fits (e_cw e) Hcw)).
    - intros x. split; reflexivity.
    - intros c L HC HRo. cbn [roomy] in HRo.
      destruct (sp_construct (e_cw e) Hcw (e_le e) (e_junk e 192) c (HJ _) HC ltac:(lia)) as (s & E1 & R1).
      exists s. split; [exact E1|]. split; [exact R1|].
      pose proof (sp_start_weight (e_cw e) Hcw c HC) as HW.
      cbn [machine_of mc_start blk_machine]. destruct (sp_start (e_cw e) c) as [[st k] l]. lia.
    - intros [[st c] l] s (_ & _ & R1). exact (proj1 R1). }
  destruct (TR f c1 xs HV HR) as (s1 & O1 & S1).
  destruct (TR f c2 xs (valid_other e Aspooky c1 c2 xs H2 HV) HR2) as (s2 & O2 & S2).
  exists s1, s2. split; [exact O1|]. split; [exact O2|].
  assert (AP : sp_apart (e_cw e) 0 (state e Aspooky f c1 xs) (state e Aspooky f c2 xs)).
  { unfold state. apply (fit_pairs _ _ _ _ _ (nul_of Aspooky) (sp_apart (e_cw e))); try assumption; try exact (proj2 HV).
    - intros L [[sa ca] la] [[sb cb] lb] d Hd (X1 & X2 & Hl & P1 & P2 & N1 & N2 & HL). cbn [fst snd] in *. subst cb lb. cbn [machine_of blk_machine mc_au]. unfold sp_apart, ab_au. cbn [fst snd].
      refine (conj eq_refl (conj eq_refl (conj _ (conj P1 (conj P2 (conj N1 (conj N2 _))))))); [apply bytes_app; now split|]. rewrite app_length. lia.
    - intros L [[sa ca] la] [[sb cb] lb] (X1 & X2 & Hl & P1 & P2 & N1 & N2 & HL). cbn [fst snd] in *. subst cb lb. cbn [machine_of blk_machine mc_ar]. unfold sp_ar, sp_apart. cbn [fst snd].
      pose proof (Nat.mod_upper_bound (length la) 192 ltac:(discriminate)) as HM.
      assert (EN : sp_next (e_cw e) ca (length la) = ca + N.of_nat (length la + (192 - length la mod 192))).
      { unfold sp_next. rewrite (proj2 (N.leb_gt _ _)); [reflexivity|]. lia. }
      rewrite EN. refine (conj eq_refl (conj eq_refl (conj _ (conj _ (conj _ (conj _ (conj _ _))))))).
      + constructor.
      + now apply sp_fin_good.
      + now apply sp_fin_good.
      + destruct (N.lt_ge_cases (ca + N.of_nat (length la)) 192) as [HS|HS].
        * intros X. apply (N2 ltac:(lia)). apply (f_equal upper) in X. now rewrite !sp_fin_short in X by exact HS.
        * intros X. apply N1. now apply sp_fin_long in X.
      + intros X. exfalso. assert (192 <= length la + (192 - length la mod 192))%nat.
        { pose proof (Nat.mod_le (length la) 192 ltac:(discriminate)). lia. }
        lia.
      + cbn [length]. lia.
    - intros L L' a b (X1 & X2 & Hl & P1 & P2 & N1 & N2 & HL) HLe. unfold sp_apart. refine (conj X1 (conj X2 (conj Hl (conj P1 (conj P2 (conj N1 (conj N2 _))))))). lia. }
  destruct AP as (_ & A2 & A3 & A4 & A5 & A6 & _). intros X. apply A6. rewrite X, S2, A2 in S1. symmetry.
  apply (fold_inj sp_good sp_cm2 192 (snd (state e Aspooky f c2 xs))); try assumption; try lia.
  - now rewrite <- A2.
  - intros s b Hs Hb. now apply sp_cm2_good.
  - intros x y b Hx Hy Hb Z. now apply sp_cm2_inj in Z.
Qed.
Theorem C66_spooky e f c1 c2 xs : valid_env e -> valid_program e Aspooky c1 xs -> room e Aspooky c1 xs -> valid_ctor c2 -> room e Aspooky c2 xs -> up_to_16 c1 -> up_to_16 c2 ->
  Forall (same_bytes (e_impl e) f) xs -> spooky_seeds c1 <> spooky_seeds c2 -> objects_differ e Aspooky f c1 c2 xs.
Proof.
  intros HE HV HR H2 HR2 U1 U2 HP HN. pose proof (proj1 HV) as H1. apply spooky_apart; try assumption.
  destruct (spooky_seeds_lt c1 H1 U1) as [LA LB]. destruct (spooky_seeds_lt c2 H2 U2) as [LC LD].
  assert (HU : upper (sp_of (Spooky_init (fst (spooky_seeds c1)) (snd (spooky_seeds c1)))) <> upper (sp_of (Spooky_init (fst (spooky_seeds c2)) (snd (spooky_seeds c2))))).
  { destruct (spooky_seeds c1) as [a b], (spooky_seeds c2) as [a' b']. cbn [fst snd]. unfold upper, sp_of, Spooky_init, sp_list. cbn [nth skipn]. intros X. injection X as X1 X2. now subst. }
  rewrite !sp_seeded by assumption. unfold sp_apart. cbn [fst snd]. refine (conj eq_refl (conj eq_refl (conj _ (conj _ (conj _ (conj _ (conj _ _))))))).
  - constructor.
  - now apply sp_init_good.
  - now apply sp_init_good.
  - intros X. apply HU. now rewrite X.
  - intros _. exact HU.
  - unfold room in HR. cbn [roomy] in HR. cbn [length]. lia.
Qed.
Lemma upper_init a b a' b' : upper (sp_of (Spooky_init a b)) = upper (sp_of (Spooky_init a' b')) -> a = a' /\ b = b'.
Proof. unfold upper, sp_of, Spooky_init, sp_list. cbn [nth skipn]. intros X. injection X as X1 X2. now split. Qed.
(* seeds of more than 16 bytes, whose first 16 bytes differ: of fewer than 208 bytes each, or the same after the first 16 *)
Theorem C66_spooky_long e f p1 n1 p2 n2 xs : valid_env e -> valid_program e Aspooky (CBytes p1 n1) xs -> room e Aspooky (CBytes p1 n1) xs ->
  valid_arg true p2 n2 -> room e Aspooky (CBytes p2 n2) xs -> Forall (same_bytes (e_impl e) f) xs -> (16 < n1)%nat -> (16 < n2)%nat ->
  firstn 16 (data p1 n1) <> firstn 16 (data p2 n2) -> ((n1 < 208)%nat /\ (n2 < 208)%nat) \/ skipn 16 (data p1 n1) = skipn 16 (data p2 n2) ->
  objects_differ e Aspooky f (CBytes p1 n1) (CBytes p2 n2) xs.
Proof.
  intros HE HV HR H2 HR2 HP L1 L2 HN HS. apply spooky_apart; try assumption.
  pose proof (proj1 HV) as H1. cbn [valid_ctor] in H1.
  destruct (valid_data _ _ _ H1) as [B1 Q1]. destruct (valid_data _ _ _ H2) as [B2 Q2].
  set (d1 := data p1 n1) in *. set (d2 := data p2 n2) in *.
  assert (W : forall d, bytes d -> LE (firstn 8 d) < 2^64 /\ LE (firstn 8 (skipn 8 d)) < 2^64).
  { intros d Hd. split; (apply (sip_word_lt F64); [now left| |]); cbn [F64 swb]; try (rewrite firstn_length; lia).
    - now apply bytes_firstn. - apply bytes_firstn. now apply bytes_skipn. }
  destruct (W d1 B1) as [W1 W2]. destruct (W d2 B2) as [W3 W4].
  set (st1 := sp_of (Spooky_init (LE (firstn 8 d1)) (LE (firstn 8 (skipn 8 d1))))) in *.
  set (st2 := sp_of (Spooky_init (LE (firstn 8 d2)) (LE (firstn 8 (skipn 8 d2))))) in *.
  assert (HU : upper st1 <> upper st2).
  { intros X. apply upper_init in X. destruct X as [X1 X2]. apply HN.
    apply LE_inj in X1; try (now apply bytes_firstn); try (rewrite !firstn_length; lia).
    apply LE_inj in X2; try (apply bytes_firstn; now apply bytes_skipn); try (rewrite !firstn_length, !skipn_length; lia).
    assert (T : forall d : list N, firstn 16 d = firstn 8 d ++ firstn 8 (skipn 8 d)).
    { clear. intros d. do 16 (destruct d as [|? d]; [reflexivity|]). reflexivity. }
    rewrite !T. now rewrite X1, X2. }
  assert (G1 : sp_good st1) by now apply sp_init_good. assert (G2 : sp_good st2) by now apply sp_init_good.
  assert (ST : forall p n, (16 < n)%nat -> sp_start (e_cw e) (CBytes p n) =
    snd (sp_ar (e_cw e) (sp_of (Spooky_init (LE (firstn 8 (data p n))) (LE (firstn 8 (skipn 8 (data p n))))), 0, skipn 16 (data p n)))).
  { intros p n L. cbn [sp_start]. now rewrite (proj2 (Nat.leb_gt n 16)) by lia. }
  rewrite !ST by assumption. fold d1 d2 st1 st2.
  assert (LD1 : length (skipn 16 d1) = (n1 - 16)%nat) by (rewrite skipn_length; lia).
  assert (LD2 : length (skipn 16 d2) = (n2 - 16)%nat) by (rewrite skipn_length; lia).
  pose proof (sp_start_weight (e_cw e) (proj1 HE) (CBytes p1 n1) H1) as WT. rewrite (ST p1 n1 L1) in WT. fold d1 st1 in WT.
  unfold room in HR, HR2. cbn [roomy ctor_weight] in HR, HR2, WT.
  unfold sp_ar in *. cbn [fst snd length] in *.
  assert (EN : sp_next (e_cw e) 0 (length (skipn 16 d1)) = sp_next (e_cw e) 0 (length (skipn 16 d2))).
  { destruct HS as [[S1 S2]|S]; [|now rewrite S]. rewrite LD1, LD2. unfold sp_next. rewrite !Nat.mod_small by lia.
    replace (n1 - 16 + (192 - (n1 - 16)))%nat with 192%nat by lia. replace (n2 - 16 + (192 - (n2 - 16)))%nat with 192%nat by lia.
    rewrite (proj2 (N.leb_gt _ _)) by lia. reflexivity. }
  unfold sp_apart. cbn [fst snd length]. refine (conj EN (conj eq_refl (conj _ (conj _ (conj _ (conj _ (conj _ _))))))).
  - constructor.
  - apply sp_fin_good; [now apply bytes_skipn|exact G1].
  - apply sp_fin_good; [now apply bytes_skipn|exact G2].
  - assert (SH : N.of_nat (length (skipn 16 d1)) < 192 -> N.of_nat (length (skipn 16 d2)) < 192 -> sp_fin_st st1 0 (skipn 16 d1) <> sp_fin_st st2 0 (skipn 16 d2)).
    { intros S1 S2 X. apply HU. apply (f_equal upper) in X. rewrite !sp_fin_short in X by lia. exact X. }
    destruct HS as [[S1 S2]|S]; [apply SH; lia|]. destruct (N.lt_ge_cases (N.of_nat (length (skipn 16 d1))) 192) as [C|C]; [apply SH; [|rewrite <- S]; exact C|].
    rewrite <- S. intros X. apply HU. rewrite (sp_fin_long st1 st2 0 (skipn 16 d1)); [reflexivity|now apply bytes_skipn|exact G1|exact G2|rewrite N.add_0_l; exact C|exact X].
  - intros X. exfalso. pose proof (Nat.mod_upper_bound (length (skipn 16 d1)) 192 ltac:(discriminate)).
    assert (192 <= length (skipn 16 d1) + (192 - length (skipn 16 d1) mod 192))%nat by (pose proof (Nat.mod_le (length (skipn 16 d1)) 192 ltac:(discriminate)); lia).
    revert X. unfold sp_next. rewrite (proj2 (N.leb_gt _ _)) by lia. lia.
  - lia.
Qed.

(* seeds of different lengths: the 192-byte blocks that the object has counted after construction *)
Definition counted (c : ctor) : nat := match c with CBytes _ n => if Nat.leb n 16 then 0%nat else S ((n - 16) / 192) | _ => 0%nat end.
Definition sp_behind (cw : N) (L : nat) (x y : ast sp_st) : Prop :=
  snd x = snd y /\ bytes (snd x) /\ snd (fst x) < snd (fst y) /\ snd (fst y) + N.of_nat (length (snd y)) + N.of_nat L < cw.
Lemma spooky_behind e f c1 c2 xs : valid_env e -> valid_program e Aspooky c1 xs -> room e Aspooky c1 xs -> valid_ctor c2 -> room e Aspooky c2 xs ->
  Forall (same_bytes (e_impl e) f) xs -> sp_behind (e_cw e) (weight xs) (sp_start (e_cw e) c1) (sp_start (e_cw e) c2) -> objects_differ e Aspooky f c1 c2 xs.
Proof.
  intros HE HV HR H2 HR2 HP HX0. pose proof HE as [Hcw HJ]. pose proof (proj1 HV) as H1.
  assert (TR : tracks e Aspooky (fun x s => b_n s = (snd (fst x) + N.of_nat (length (snd x))) mod e_cw e)).
  { apply (tracks_intro e Aspooky _ _ _ _ _ (sp_refines (e_cw e) Hcw (e_le e) (e_junk e 192)) (sp_fits (e_cw e) Hcw)).
    - intros x. split; reflexivity.
    - intros c L HC HRo. cbn [roomy] in HRo.
      destruct (sp_construct (e_cw e) Hcw (e_le e) (e_junk e 192) c (HJ _) HC ltac:(lia)) as (s & E1 & R1).
      exists s. split; [exact E1|]. split; [exact R1|].
      pose proof (sp_start_weight (e_cw e) Hcw c HC) as HW.
      cbn [machine_of mc_start blk_machine]. destruct (sp_start (e_cw e) c) as [[st k] l]. lia.
    - intros [[st c] l] s (_ & _ & R1). exact (proj1 (proj2 (proj2 R1))). }
  destruct (TR f c1 xs HV HR) as (s1 & O1 & S1).
  destruct (TR f c2 xs (valid_other e Aspooky c1 c2 xs H2 HV) HR2) as (s2 & O2 & S2).
  exists s1, s2. split; [exact O1|]. split; [exact O2|].
  assert (AP : sp_behind (e_cw e) 0 (state e Aspooky f c1 xs) (state e Aspooky f c2 xs)).
  { unfold state. apply (fit_pairs _ _ _ _ _ (nul_of Aspooky) (sp_behind (e_cw e))); try assumption; try exact (proj2 HV).
    - intros L [[sa ca] la] [[sb cb] lb] d Hd (X2 & Hl & HC & HL). cbn [fst snd] in *. subst lb. cbn [machine_of blk_machine mc_au]. unfold sp_behind, ab_au. cbn [fst snd].
      refine (conj eq_refl (conj _ (conj HC _))); [apply bytes_app; now split|]. rewrite app_length. lia.
    - intros L [[sa ca] la] [[sb cb] lb] (X2 & Hl & HC & HL). cbn [fst snd] in *. subst lb. cbn [machine_of blk_machine mc_ar]. unfold sp_ar, sp_behind. cbn [fst snd].
      pose proof (Nat.mod_upper_bound (length la) 192 ltac:(discriminate)) as HM.
      assert (EN : forall c, c <= cb -> sp_next (e_cw e) c (length la) = c + N.of_nat (length la + (192 - length la mod 192))).
      { intros c Hc. unfold sp_next. rewrite (proj2 (N.leb_gt _ _)); [reflexivity|]. lia. }
      rewrite !EN by lia. cbn [length]. refine (conj eq_refl (conj (Forall_nil _) (conj _ _))); lia.
    - intros L L' a b (X2 & Hl & HC & HL) HLe. unfold sp_behind. refine (conj X2 (conj Hl (conj HC _))). lia. }
  destruct AP as (A2 & A3 & A4 & A5). intros X. rewrite X, S2, A2 in S1.
  rewrite !N.mod_small in S1 by lia. lia.
Qed.
Theorem C66_spooky_lengths e f c1 c2 xs : valid_env e -> valid_program e Aspooky c1 xs -> room e Aspooky c1 xs -> valid_ctor c2 -> room e Aspooky c2 xs ->
  Forall (same_bytes (e_impl e) f) xs -> counted c1 <> counted c2 -> objects_differ e Aspooky f c1 c2 xs.
Proof.
  intros HE HV HR H2 HR2 HP HN.
  assert (SY : forall c, valid_ctor c -> room e Aspooky c xs -> snd (sp_start (e_cw e) c) = [] /\ snd (fst (sp_start (e_cw e) c)) = N.of_nat (192 * counted c) /\ N.of_nat (192 * counted c) + N.of_nat (weight xs) < e_cw e).
  { intros c HC HRo. unfold room in HRo. cbn [roomy] in HRo. destruct c as [|n|p n]; cbn [sp_start counted fst snd ctor_weight valid_ctor] in *; try (split; [reflexivity|split; [reflexivity|lia]]).
    destruct (Nat.leb_spec n 16) as [L|L]; cbn [fst snd]; [split; [reflexivity|split; [reflexivity|lia]]|].
    unfold sp_ar. cbn [fst snd]. split; [reflexivity|]. destruct (valid_data _ _ _ HC) as [HB HL]. rewrite skipn_length, HL.
    pose proof (Nat.div_mod (n - 16) 192 ltac:(discriminate)) as DM. pose proof (Nat.mod_upper_bound (n - 16) 192 ltac:(discriminate)) as HM.
    unfold sp_next. rewrite (proj2 (N.leb_gt _ _)) by lia. split; lia. }
  destruct (SY c1 (proj1 HV) HR) as (N1 & C1 & R1). destruct (SY c2 H2 HR2) as (N2 & C2 & R2).
  assert (LT : forall a b, (counted a < counted b)%nat -> valid_program e Aspooky a xs -> room e Aspooky a xs -> valid_ctor b -> room e Aspooky b xs -> objects_differ e Aspooky f a b xs).
  { intros a b HL Va Ra Vb Rb. apply spooky_behind; try assumption. destruct (SY a (proj1 Va) Ra) as (Na & Ca & Qa). destruct (SY b Vb Rb) as (Nb & Cb & Qb).
    unfold sp_behind. rewrite Na, Nb, Ca, Cb. cbn [length]. refine (conj eq_refl (conj (Forall_nil _) (conj _ _))); lia. }
  destruct (Nat.lt_total (counted c1) (counted c2)) as [HL|[HL|HL]]; [now apply LT|contradiction|].
  destruct (LT c2 c1 HL (valid_other e Aspooky c1 c2 xs H2 HV) HR2 (proj1 HV) HR) as (s2 & s1 & O2 & O1 & D). exists s1, s2. split; [exact O1|]. split; [exact O2|]. now apply not_eq_sym.
Qed.

(* ---------- xxhash: seeds merge ---------- *)
Lemma sum_twice W H x c d : 0 < W -> W = 2 * H -> (((x + H + c) mod W) + ((x + H) mod W + d)) mod W = ((x + c) mod W + (x mod W + d)) mod W.
Proof.
  intros HW E. assert (W <> 0) by lia. rewrite !N.add_assoc. rewrite <- (N.add_mod_idemp_l _ d) by assumption. rewrite <- (N.add_mod_idemp_l ((x + c) mod W + x mod W) d) by assumption.
  f_equal. f_equal. rewrite <- !N.add_mod by assumption. replace (x + H + c + (x + H)) with (x + c + x + 1 * W) by lia. now rewrite N.mod_add.
Qed.
Lemma diff_same W x y : 0 < W -> x < W -> y < W -> forall c d, d < W -> c < W ->
  ((x + c) mod W + (W - (x + d) mod W)) mod W = ((y + c) mod W + (W - (y + d) mod W)) mod W.
Proof.
  intros HW. assert (G : forall x c d, x < W -> c < W -> d < W -> ((x + c) mod W + (W - (x + d) mod W)) mod W = (c + (W - d)) mod W).
  { intros z c d Hz Hc Hd.
    assert (M : forall a, a < 2 * W -> a mod W = if a <? W then a else a - W).
    { intros a Ha. destruct (N.ltb_spec a W); [now apply N.mod_small|]. symmetry. apply (N.mod_unique a W 1); lia. }
    rewrite (M (z + c)), (M (z + d)), (M (c + (W - d))) by lia.
    destruct (N.ltb_spec (z + c) W), (N.ltb_spec (z + d) W), (N.ltb_spec (c + (W - d)) W); rewrite M by lia;
      match goal with |- (if ?b then _ else _) = _ => destruct b eqn:EB; [apply N.ltb_lt in EB|apply N.ltb_ge in EB]; lia end. }
  intros Hx Hy c d Hd Hc. rewrite !G by assumption. reflexivity.
Qed.
Lemma merged W Hf n P1 P2 P5 K1 : 0 < W -> W = 2 * Hf -> n < Hf -> P1 < W -> P2 < W -> P5 < W -> 0 < P1 -> K1 = P1 + P2 ->
  let v m := (((m + P1 + P2) mod W, (m + P2) mod W, m mod W, (m + (W - P1)) mod W) : N * N * N * N) in
  let h m := (m mod W + P5) mod W in
  let out m := let '(v1, v2, v3, v4) := v m in ((v1 + h m) mod W, (v2 + h m) mod W, (v3 + (W - h m mod W)) mod W, (v4 + (W - h m mod W)) mod W) in
  out (n + Hf) = out n.
Proof.
  intros HW E Hn L1 L2 L5 LP _. cbv beta iota zeta. assert (W0 : W <> 0) by lia.
  assert (HM : forall m, (m mod W + P5) mod W = (m + P5) mod W) by (intros; now rewrite N.add_mod_idemp_l).
  assert (HMM : forall a, (a mod W) mod W = a mod W) by (intros; now apply N.mod_mod).
  assert (T : forall c, ((n + Hf + c) mod W + (n + Hf + P5) mod W) mod W = ((n + c) mod W + (n + P5) mod W) mod W).
  { intros c. pose proof (sum_twice W Hf n c P5 HW E) as S. rewrite !(N.add_assoc _ _ P5), <- !(N.add_assoc _ (_ mod W) P5) in S.
    rewrite <- (N.add_mod_idemp_r _ ((n + Hf) mod W + P5)), <- (N.add_mod_idemp_r _ (n mod W + P5)) in S by assumption. now rewrite !HM in S. }
  assert (D : forall c, c < W -> ((n + Hf + c) mod W + (W - (n + Hf + P5) mod W)) mod W = ((n + c) mod W + (W - (n + P5) mod W)) mod W).
  { intros c Hc. apply (diff_same W (n + Hf) n HW ltac:(lia) ltac:(lia) c P5 L5 Hc). }
  rewrite !HM, !HMM. apply pair_equal_spec. split; [apply pair_equal_spec; split; [apply pair_equal_spec; split|]|].
  - rewrite <- !(N.add_assoc _ P1 P2). apply T.
  - apply T.
  - pose proof (D 0 HW) as D0. now rewrite !N.add_0_r in D0.
  - apply D. lia.
Qed.
Lemma xx64_merged n : n < 2^63 -> snd (xx64_ar (2^64) (XXH64_init (n + 2^63), 0, [])) = snd (xx64_ar (2^64) (XXH64_init n, 0, [])).
Proof.
  intros Hn. pose proof (merged (2^64) (2^63) n PRIME64_1 PRIME64_2 PRIME64_5 _ eq_refl eq_refl Hn eq_refl eq_refl eq_refl eq_refl eq_refl) as M. cbv beta iota zeta in M.
  assert (X : forall m, snd (xx64_ar (2^64) (XXH64_init m, 0, [])) =
    (let '(v1, v2, v3, v4) := XXH64_init m in let h := (m mod 2^64 + PRIME64_5) mod 2^64 in
     ((v1 + h) mod 2^64, (v2 + h) mod 2^64, (v3 + (2^64 - h mod 2^64)) mod 2^64, (v4 + (2^64 - h mod 2^64)) mod 2^64), 32, [])).
  { intros m. unfold xx64_ar, XXH64_init. change (chunks 32 []) with (@nil (list N)). cbn [fold_left length].
    change (rest 32 []) with (@nil N). change ((0 + N.of_nat 0) mod 2^64) with 0. unfold xx64_acc. change (0 <? 32) with true. cbv iota.
    unfold XXH64_consume. change (chunks 8 []) with (@nil (list N)). change (rest 8 []) with (@nil N). change (chunks 4 []) with (@nil (list N)). change (rest 4 []) with (@nil N). cbn [fold_left].
    assert (A0 : ADD 64 (ADD 64 (m mod 2^64) PRIME64_5) 0 = (m mod 2^64 + PRIME64_5) mod 2^64).
    { unfold ADD. rewrite N.add_0_r. apply N.mod_mod. discriminate. }
    rewrite A0. cbn [snd]. unfold add64, sub64. change w64 with (2^64). reflexivity. }
  rewrite !X. unfold XXH64_init. rewrite M. reflexivity.
Qed.
Lemma xx32_merged cw n : cw_ok cw -> n < 2^31 -> snd (xx32_ar cw (XXH32_init (n + 2^31), 0, [])) = snd (xx32_ar cw (XXH32_init n, 0, [])).
Proof.
  intros Hcw Hn. pose proof (merged (2^32) (2^31) n PRIME32_1 PRIME32_2 PRIME32_5 _ eq_refl eq_refl Hn eq_refl eq_refl eq_refl eq_refl eq_refl) as M. cbv beta iota zeta in M.
  assert (X : forall m, snd (xx32_ar cw (XXH32_init m, 0, [])) =
    (let '(v1, v2, v3, v4) := XXH32_init m in let h := (m mod 2^32 + PRIME32_5) mod 2^32 in
     ((v1 + h) mod 2^32, (v2 + h) mod 2^32, (v3 + (2^32 - h mod 2^32)) mod 2^32, (v4 + (2^32 - h mod 2^32)) mod 2^32), 16, [])).
  { intros m. unfold xx32_ar, XXH32_init. change (chunks 16 []) with (@nil (list N)). cbn [fold_left length].
    change (rest 16 []) with (@nil N). assert (Z0 : (0 + N.of_nat 0) mod cw = 0) by (destruct Hcw as [-> | ->]; reflexivity). rewrite Z0. unfold xx32_acc. change (0 <? 16) with true. cbv iota.
    unfold XXH32_consume. change (chunks 4 []) with (@nil (list N)). change (rest 4 []) with (@nil N). cbn [fold_left].
    assert (A0 : ADD 32 (ADD 32 (m mod 2^32) PRIME32_5) 0 = (m mod 2^32 + PRIME32_5) mod 2^32).
    { unfold ADD. rewrite N.add_0_r. apply N.mod_mod. discriminate. }
    rewrite A0. cbn [snd]. unfold add32, sub32. change w32 with (2^32). reflexivity. }
  rewrite !X. unfold XXH32_init. rewrite M. reflexivity.
Qed.
(* two objects whose hash values of the empty message differ, and that have the same results ever after *)
Definition merge (e : env) (a : alg) (f : flavor) (c1 c2 : ctor) : Prop :=
  forall xs, Forall (valid_step (nul_of a) (e_impl e)) xs ->
    exists r1 r2 rs, r1 <> r2 /\ runs e a f c1 (SResult :: xs) = Ok (r1 :: rs) /\ runs e a f c2 (SResult :: xs) = Ok (r2 :: rs).
Theorem C66_xxhash64_refuted e f n : valid_env e -> n < 2^63 -> merge e Axx64 f (CSeed n) (CSeed (n + 2^63)).
Proof.
  intros HE Hn xs HV. assert (L1 : n < 2^64) by (eapply N.lt_trans; [exact Hn|reflexivity]).
  assert (L2 : n + 2^63 < 2^64) by (change (2^64) with (2^63 + 2^63); apply N.add_lt_mono_r; exact Hn).
  assert (S1 : forall m, m < 2^64 -> runs e Axx64 f (CSeed m) (SResult :: xs) =
    Ok (RInt I64 (fst (xx64_ar (2^64) (XXH64_init m, 0, []))) :: aprun (mc_au (machine_of (e_cw e) Axx64)) (mc_ar (machine_of (e_cw e) Axx64)) result64 (call_message (e_impl e) f) (snd (xx64_ar (2^64) (XXH64_init m, 0, []))) xs)).
  { intros m Hm. rewrite runs_expected; [reflexivity|exact HE|split; [exact Hm|constructor; [exact I|exact HV]]|now apply room_any]. }
  rewrite !S1, xx64_merged by assumption. eexists _, _, _. split; [|split; reflexivity].
  intros X. assert (Q : forall x y, RInt I64 x = RInt I64 y -> x = y) by (intros x y Y; now injection Y). apply Q in X.
  assert (N1 : n = n + 2^63 -> False) by (intros Y; apply (N.lt_irrefl n); rewrite Y at 2; apply N.lt_add_pos_r; reflexivity). apply N1.
  apply (C16_xxhash64_observable e f); try assumption.
  assert (S0 : forall m, m < 2^64 -> runs e Axx64 f (CSeed m) [SResult] = Ok [RInt I64 (fst (xx64_ar (2^64) (XXH64_init m, 0, [])))]).
  { intros m Hm. rewrite runs_expected; [reflexivity|exact HE|split; [exact Hm|repeat constructor]|now apply room_any]. }
  rewrite !S0 by assumption. now rewrite X.
Qed.
Theorem C66_xxhash32_refuted e f n : valid_env e -> n < 2^31 -> merge e Axx32 f (CSeed n) (CSeed (n + 2^31)).
Proof.
  intros HE Hn xs HV. assert (L1 : n < 2^32) by (eapply N.lt_trans; [exact Hn|reflexivity]).
  assert (L2 : n + 2^31 < 2^32) by (change (2^32) with (2^31 + 2^31); apply N.add_lt_mono_r; exact Hn).
  assert (ST : forall m, m < 2^32 -> mc_start (machine_of (e_cw e) Axx32) (CSeed m) = (XXH32_init m, 0, [])).
  { intros m Hm. cbn [machine_of blk_machine mc_start xx32_start]. rewrite (N.div_small m (2^32) Hm). reflexivity. }
  assert (S1 : forall m, m < 2^32 -> runs e Axx32 f (CSeed m) (SResult :: xs) =
    Ok (RInt I32 (fst (xx32_ar (e_cw e) (XXH32_init m, 0, []))) :: aprun (mc_au (machine_of (e_cw e) Axx32)) (mc_ar (machine_of (e_cw e) Axx32)) result64 (call_message (e_impl e) f) (snd (xx32_ar (e_cw e) (XXH32_init m, 0, []))) xs)).
  { intros m Hm. rewrite runs_expected; [unfold expected; rewrite ST by exact Hm; reflexivity|exact HE|split; [|constructor; [exact I|exact HV]]|now apply room_any].
    cbn [valid_ctor]. eapply N.lt_trans; [exact Hm|reflexivity]. }
  rewrite !S1, xx32_merged by (assumption || apply HE). eexists _, _, _. split; [|split; reflexivity].
  intros X. assert (Q : forall x y, RInt I32 x = RInt I32 y -> x = y) by (intros x y Y; now injection Y). apply Q in X.
  assert (N1 : n = n + 2^31 -> False) by (intros Y; apply (N.lt_irrefl n); rewrite Y at 2; apply N.lt_add_pos_r; reflexivity). apply N1.
  assert (F0 : forall m, fst (xx32_ar (e_cw e) (XXH32_init m, 0, [])) = XXH32_avalanche (ADD 32 (ADD 32 (m mod 2^32) PRIME32_5) 0)).
  { intros m. unfold xx32_ar, XXH32_init. change (chunks 16 []) with (@nil (list N)). cbn [fold_left length].
    change (rest 16 []) with (@nil N). assert (Z0 : (0 + N.of_nat 0) mod e_cw e = 0) by (destruct HE as [[-> | ->] _]; reflexivity). rewrite Z0. reflexivity. }
  rewrite !F0 in X. apply XXH32_avalanche_inj in X; [|apply ADD_lt'|apply ADD_lt']. apply add_inj_r in X; [|apply ADD_lt'|apply ADD_lt'].
  apply add_inj_r in X; [|apply N.mod_lt; discriminate|apply N.mod_lt; discriminate]. now rewrite !N.mod_small in X.
Qed.

(* ---------- the theorems apply ---------- *)
Definition ordered_sample : list ustep :=
  [SUpdate (Ptr [97; 98; 99]) 3; SResult; SUpdate (Ptr (repeat 7 300)) 300; SResult; sample_tuple; SResult].
Lemma ordered_steps : steps_ok ordered_sample.
Proof.
  assert (B : bytes (repeat 7 300)) by (apply Forall_forall; intros x Hx; apply repeat_spec in Hx; subst; reflexivity).
  unfold steps_ok, ordered_sample. constructor; [ok|]. constructor; [ok|]. constructor; [split; [rewrite repeat_length; lia|exact B]|].
  unfold sample_tuple. repeat (constructor; [ok|]). constructor.
Qed.
Lemma ordered_valid a c : valid_ctor c -> valid_program env_pc a c ordered_sample.
Proof. intros H. apply steps_valid; [reflexivity|exact H|exact ordered_steps]. Qed.
Lemma ordered_same : Forall (same_bytes (e_impl env_pc) le_flavor) ordered_sample.
Proof. repeat (constructor; [first [exact I|intros q1 q2; reflexivity]|]). constructor. Qed.
Example C66_fnv64_ex : all_different env_pc Afnv64 le_flavor (CSeed 7) (CSeed 8) ordered_sample.
Proof.
  destruct (C66_fnv64 env_pc le_flavor (CSeed 7) (CSeed 8) ordered_sample env_pc_valid (ordered_valid _ (CSeed 7) eq_refl) eq_refl ordered_same) as [H|H]; [|exact H].
  exfalso. specialize (H [SResult] (steps_valid env_pc _ (CSeed 7) [SResult] eq_refl eq_refl ltac:(repeat constructor))). vm_compute in H. discriminate.
Qed.
Example C66_murmur128_ex : all_different env_pc Amur128 le_flavor (CSeed 7) (CSeed 8) ordered_sample.
Proof.
  destruct (C66_murmur128 env_pc le_flavor (CSeed 7) (CSeed 8) ordered_sample env_pc_valid (ordered_valid _ (CSeed 7) eq_refl) eq_refl I ordered_same) as [H|H]; [|exact H].
  exfalso. specialize (H [SResult] (steps_valid env_pc _ (CSeed 7) [SResult] eq_refl eq_refl ltac:(repeat constructor))). vm_compute in H. discriminate.
Qed.
Example C66_siphash64_keys_ex : objects_differ env_pc Asip64 le_flavor (CBytes (Ptr (repeat 1 16)) 16) (CBytes (Ptr (repeat 2 16)) 16) ordered_sample.
Proof.
  apply C66_siphash64_keys; [exact env_pc_valid|apply ordered_valid| |exact ordered_same|discriminate]; split; try (cbn; lia); repeat constructor.
Qed.
Example C66_siphash32_ex : interchangeable env_pc Asip32 le_flavor (CSeed 7) (CSeed 8) \/ objects_differ env_pc Asip32 le_flavor (CSeed 7) (CSeed 8) ordered_sample.
Proof. apply C66_siphash32; [exact env_pc_valid|now apply ordered_valid|reflexivity|exact I|exact ordered_same]. Qed.
Example C66_spooky_ex : objects_differ env_pc Aspooky le_flavor (CSeed 7) (CBytes (Ptr (repeat 2 16)) 16) ordered_sample.
Proof.
  apply C66_spooky; [exact env_pc_valid|now apply ordered_valid|vm_compute; reflexivity| |vm_compute; reflexivity|exact I|cbn; lia|exact ordered_same|vm_compute; discriminate].
  split; [cbn; lia|repeat constructor].
Qed.
Example C66_spooky_long_ex : objects_differ env_pc Aspooky le_flavor (CBytes (Ptr (repeat 1 20)) 20) (CBytes (Ptr (repeat 2 200)) 200) ordered_sample.
Proof.
  apply C66_spooky_long; [exact env_pc_valid|apply ordered_valid|vm_compute; reflexivity| |vm_compute; reflexivity|exact ordered_same|lia|lia|vm_compute; discriminate|left; lia].
  - split; [cbn; lia|repeat constructor].
  - split; [apply Nat.leb_le; reflexivity|]. apply Forall_forall. intros x Hx. apply repeat_spec in Hx. now subst.
Qed.
Example C66_spooky_lengths_ex : objects_differ env_pc Aspooky le_flavor (CSeed 7) (CBytes (Ptr (repeat 2 200)) 200) ordered_sample.
Proof.
  apply C66_spooky_lengths; [exact env_pc_valid|now apply ordered_valid|vm_compute; reflexivity| |vm_compute; reflexivity|exact ordered_same|vm_compute; discriminate].
  split; [apply Nat.leb_le; reflexivity|]. apply Forall_forall. intros x Hx. apply repeat_spec in Hx. now subst.
Qed.
Example C66_xxhash64_refuted_ex : exists r1 r2 rs, r1 <> r2 /\
  runs env_pc Axx64 le_flavor (CSeed 7) (SResult :: sample) = Ok (r1 :: rs) /\ runs env_pc Axx64 le_flavor (CSeed (7 + 2^63)) (SResult :: sample) = Ok (r2 :: rs).
Proof. apply (C66_xxhash64_refuted env_pc le_flavor 7 env_pc_valid eq_refl). exact (proj2 (proj1 (sample_valid Axx64))). Qed.

(* Integer results are values of the result type: below 2^32 or 2^64. *)
From Verif Require Import Base BaseFacts SpecCommon Bits Gen Hasher GenBlk Types ModelResult ModelAppend SpecAppend
  ProofMsg ProofMsgExt ProofAppend Behaves Instances ProofRuns ProofMsgEq PropsPrims PropsIntegral.
From Verif Require Import SpecSip SpecXxh SpecFnv SpecMurmur ProofSip ProofXxh ProofFnv ProofMurmur ProofMurmurDistinct.
Open Scope N_scope.

Definition word_result (r : result) : Prop := match r with RInt s x => is_word s x | RDigest _ => True end.

(* an invariant of the abstract machine holds along every program *)
Section Inv.
Context {A R : Type}.
Variables (au : A -> list N -> A) (ar : A -> R * A) (g : R -> N) (i : impl) (f : flavor) (nul : bool).
Variables (Inv : A -> Prop) (P : R -> Prop).
Hypothesis Hau : forall a d, Inv a -> bytes d -> Inv (au a d).
Hypothesis Har : forall a, Inv a -> P (fst (ar a)) /\ Inv (snd (ar a)).
Lemma aprun_inv xs : Forall (valid_step nul i) xs -> forall a, Inv a -> Forall P (aprun au ar g (call_message i f) a xs).
Proof.
  induction 1 as [|x xs Hx HX IH]; intros a Ha; [constructor|]. destruct x as [p n| |k]; cbn [aprun].
  - apply IH. apply Hau; [exact Ha|]. apply (valid_data _ _ _ Hx).
  - destruct (Har a Ha) as [H1 H2]. constructor; [exact H1|]. now apply IH.
  - apply IH. apply Hau; [exact Ha|]. apply call_msg_bytes.
Qed.
End Inv.

(* ---------- siphash ---------- *)
Definition sip_words (F : Sip_family) (v : Sip_state) : Prop :=
  let '(v0, v1, v2, v3) := v in v0 < 2 ^ sw F /\ v1 < 2 ^ sw F /\ v2 < 2 ^ sw F /\ v3 < 2 ^ sw F.
Record sip_good (F : Sip_family) : Prop := {
  sg_rot : ra F < sw F /\ rb F < sw F /\ rc F < sw F /\ rd F < sw F /\ rh F < sw F;
  sg_init : sip_words F (sinit F);
  sg_bytes : 256 ^ N.of_nat (swb F) = 2 ^ sw F;
  sg_pos : (0 < swb F)%nat;
  sg_out : forall v, sip_words F v -> sout F v < 2 ^ sw F }.
Lemma F64_good : sip_good F64.
Proof.
  constructor; try (cbn; lia); try reflexivity.
  - intros [[[v0 v1] v2] v3] (H0 & H1 & H2 & H3). cbn [sout F64]. repeat apply lxor_lt; assumption.
Qed.
Lemma F32_good : sip_good F32.
Proof.
  constructor; try (cbn; lia); try reflexivity.
  - intros [[[v0 v1] v2] v3] (H0 & H1 & H2 & H3). cbn [sout F32]. repeat apply lxor_lt; assumption.
Qed.
Section Sip.
Variable F : Sip_family.
Hypothesis HF : sip_good F.
Lemma ADD_lt w a b : ADD w a b < 2^w.
Proof. apply N.mod_lt. now apply N.pow_nonzero. Qed.
Lemma sip_round v : sip_words F v -> sip_words F (SipRound F v).
Proof.
  destruct (sg_rot _ HF) as (R1 & R2 & R3 & R4 & R5).
  destruct v as [[[v0 v1] v2] v3]. intros (H0 & H1 & H2 & H3). unfold SipRound, sip_words.
  repeat split; repeat first [apply lxor_lt | apply ROTL_lt | apply ADD_lt | assumption].
Qed.
Lemma LE_word d : bytes d -> (length d <= swb F)%nat -> LE d < 2 ^ sw F.
Proof.
  intros Hd HL. rewrite <- (sg_bytes _ HF). eapply N.lt_le_trans; [apply (le_val_bound d Hd)|].
  apply N.pow_le_mono_r; lia.
Qed.
Lemma sip_word v d : sip_words F v -> bytes d -> (length d <= swb F)%nat -> sip_words F (SipWord F v d).
Proof.
  intros Hv Hd HL. pose proof (LE_word d Hd HL) as HM. destruct v as [[[v0 v1] v2] v3]. unfold SipWord.
  assert (HW : sip_words F (SipRound F (SipRound F (v0, v1, v2, N.lxor v3 (LE d))))).
  { do 2 apply sip_round. destruct Hv as (H0 & H1 & H2 & H3). repeat split; auto. now apply lxor_lt. }
  destruct (SipRound F _) as [[[u0 u1] u2] u3]. destruct HW as (H0 & H1 & H2 & H3). repeat split; auto. now apply lxor_lt.
Qed.
Lemma sip_final v : sip_words F v -> sip_words F (SipFinal F v).
Proof.
  destruct v as [[[v0 v1] v2] v3]. intros (H0 & H1 & H2 & H3). unfold SipFinal. do 4 apply sip_round.
  repeat split; auto. apply lxor_lt; [exact H2|]. eapply (N.lt_le_trans _ (256 ^ 1)); [reflexivity|].
  rewrite <- (sg_bytes _ HF). apply N.pow_le_mono_r; [discriminate|]. pose proof (sg_pos _ HF). lia.
Qed.
Lemma sip_init k0 k1 : k0 < 2 ^ sw F -> k1 < 2 ^ sw F -> sip_words F (SipInit F k0 k1).
Proof.
  intros H0 H1. unfold SipInit. pose proof (sg_init _ HF) as HI. destruct (sinit F) as [[[v0 v1] v2] v3].
  destruct HI as (I0 & I1 & I2 & I3). repeat split; now apply lxor_lt.
Qed.
Definition sip_inv (a : ast Sip_state) : Prop := let '(st, _, l) := a in sip_words F st /\ bytes l.
Lemma sip_au a d : sip_inv a -> bytes d -> sip_inv (ab_au a d).
Proof. destruct a as [[st c] l]. intros [H1 H2] Hd. split; [exact H1|]. apply bytes_app. now split. Qed.
Lemma sip_from st c l : sip_words F st -> bytes l -> sip_words F (SipFrom F st c l).
Proof.
  intros Hs Hl. pose proof (sg_pos _ HF) as HP. unfold SipFrom. apply sip_final. apply sip_word.
  - assert (HC : Forall (fun d => bytes d /\ (length d <= swb F)%nat) (chunks (swb F) l)).
    { apply Forall_forall. intros d Hd. split; [now apply (chunks_bytes _ _ _ Hl Hd)|]. rewrite (chunks_all_length (swb F) HP l d Hd). apply le_n. }
    revert st Hs. induction HC as [|d t [D1 D2] HC IH]; intros st Hs; [exact Hs|]. cbn [fold_left]. apply IH. now apply sip_word.
  - unfold SipLast. apply bytes_app. split; [now apply bytes_skipn|]. apply bytes_app. split; [apply bytes_zeros|].
    repeat constructor. now apply N.mod_lt.
  - unfold SipLast. rewrite !app_length, repeat_length. cbn [length].
    assert (HR : (length (rest (swb F) l) < swb F)%nat) by (rewrite rest_length by exact HP; apply Nat.mod_upper_bound; lia). lia.
Qed.
Lemma sip_ar_inv a : sip_inv a -> sout F (SipFrom F (fst (fst a)) (snd (fst a)) (snd a)) < 2 ^ sw F /\ fst (sip_ar F a) < 2 ^ sw F /\ sip_inv (snd (sip_ar F a)).
Proof.
  destruct a as [[st c] l]. intros [H1 H2]. cbn [fst snd]. pose proof (sip_from st c l H1 H2) as HW. unfold sip_ar. cbn [fst snd].
  repeat split; try now apply (sg_out _ HF). - exact HW. - constructor.
Qed.
End Sip.

(* ---------- all algorithms ---------- *)
Lemma machine_word cw a s : a <> Asip64 -> a <> Asip32 -> word_result (fst (mc_ar (machine_of cw a) s)).
Proof.
  intros N1 N2. destruct a as [m|m| | | | | | | | | ]; try easy; try exact I.
  - change (is_word I32 (fst (xx32_ar cw s))). destruct s as [[st c] l]. unfold xx32_ar, is_word.
    destruct (fold_left _ _ _) as [[[v1 v2] v3] v4]. cbn [fst]. change (2 ^ (8 * N.of_nat (ibytes I32))) with (2^32).
    unfold XXH32_avalanche. cbv zeta. apply lxor_lt; [|apply shiftr_lt]; apply MUL_lt'.
  - change (is_word I64 (fst (xx64_ar (2^64) s))). destruct s as [[st c] l]. unfold xx64_ar, is_word.
    destruct (fold_left _ _ _) as [[[v1 v2] v3] v4]. cbn [fst]. change (2 ^ (8 * N.of_nat (ibytes I64))) with (2^64).
    unfold XXH64_avalanche. cbv zeta. apply lxor_lt; [|apply shiftr_lt]; apply MUL_lt'.
  - change (is_word I32 (FNV1a FNV32 s)). unfold FNV1a, FNV1a_from, is_word. generalize (eq_refl : fnv_basis FNV32 <? 2^32 = true).
    generalize (fnv_basis FNV32). induction s as [|x s IH]; intros b Hb; cbn [fold_left]; [now apply N.ltb_lt|]. apply IH.
    apply N.ltb_lt. apply MUL_lt'.
  - change (is_word I64 (FNV1a FNV64 s)). unfold FNV1a, FNV1a_from, is_word. generalize (eq_refl : fnv_basis FNV64 <? 2^64 = true).
    generalize (fnv_basis FNV64). induction s as [|x s IH]; intros b Hb; cbn [fold_left]; [now apply N.ltb_lt|]. apply IH.
    apply N.ltb_lt. apply MUL_lt'.
  - change (is_word I32 (fst (mur32_ar cw s))). destruct s as [[st c] l]. unfold mur32_ar, is_word. cbn [fst].
    change (2 ^ (8 * N.of_nat (ibytes I32))) with (2^32). unfold Mur32_final, fmix32. cbv zeta.
    apply lxor_lt; [|apply shiftr_lt]; apply MUL_lt'.
Qed.
Lemma sip64_start_inv c : valid_ctor c -> sip_inv F64 (sip64_start c).
Proof.
  assert (HI : forall k0 k1, k0 < 2^64 -> k1 < 2^64 -> sip_inv F64 (SipInit F64 k0 k1, 0, [])).
  { intros k0 k1 H0 H1. split; [apply (sip_init F64 F64_good); assumption|constructor]. }
  intros HC. destruct c as [|n|p n]; cbn [sip64_start].
  - now apply HI.
  - now apply HI.
  - destruct (valid_data _ _ _ HC) as [Hb Hl]. destruct (Nat.eqb_spec n 16) as [E|E].
    + apply HI; apply (LE_word F64 F64_good).
      * now apply bytes_firstn. * rewrite firstn_length. apply Nat.le_min_l.
      * now apply bytes_skipn. * rewrite skipn_length, Hl, E. cbn. lia.
    + destruct (Nat.eqb n 0); [now apply HI|]. apply (sip_ar_inv F64 F64_good). split; [|exact Hb]. now apply (sip_init F64 F64_good).
Qed.
Lemma sip32_start_inv c : valid_ctor c -> sip_inv F32 (sip32_start c).
Proof.
  assert (HI : forall k0 k1, k0 < 2^32 -> k1 < 2^32 -> sip_inv F32 (SipInit F32 k0 k1, 0, [])).
  { intros k0 k1 H0 H1. split; [apply (sip_init F32 F32_good); assumption|constructor]. }
  intros HC. destruct c as [|n|p n]; cbn [sip32_start].
  - now apply HI.
  - apply HI; [now apply N.mod_lt|]. apply N.div_lt_upper_bound; [discriminate|]. exact HC.
  - destruct (valid_data _ _ _ HC) as [Hb Hl]. destruct (Nat.eqb_spec n 8) as [E|E].
    + apply HI; apply (LE_word F32 F32_good).
      * now apply bytes_firstn. * rewrite firstn_length. apply Nat.le_min_l.
      * now apply bytes_skipn. * rewrite skipn_length, Hl, E. cbn. lia.
    + destruct (Nat.eqb n 0); [now apply HI|]. apply (sip_ar_inv F32 F32_good). split; [|exact Hb]. now apply (sip_init F32 F32_good).
Qed.

(* every result of every program *)
Lemma results_words e a f c xs : valid_program e a c xs -> Forall word_result (expected e a f c xs).
Proof.
  intros [HC HX]. unfold expected.
  assert (HN : a <> Asip64 -> a <> Asip32 -> Forall word_result (aprun (mc_au (machine_of (e_cw e) a)) (mc_ar (machine_of (e_cw e) a)) result64
    (call_message (e_impl e) f) (mc_start (machine_of (e_cw e) a) c) xs)).
  { intros N1 N2. apply (aprun_inv _ _ _ _ _ (nul_of a) (fun _ => True)); trivial. intros s _. split; [now apply machine_word|exact I]. }
  destruct (match a with Asip64 | Asip32 => true | _ => false end) eqn:EA.
  - destruct a; try discriminate; clear HN; cbn [machine_of blk_machine mc_A mc_au mc_ar mc_start].
    + apply (aprun_inv _ _ _ _ _ true (sip_inv F64)); [apply sip_au| |exact HX|now apply sip64_start_inv].
      intros s Hs. destruct (sip_ar_inv F64 F64_good s Hs) as (_ & H1 & H2). split; [exact H1|exact H2].
    + apply (aprun_inv _ _ _ _ _ true (sip_inv F32)); [apply sip_au| |exact HX|now apply sip32_start_inv].
      intros s Hs. destruct (sip_ar_inv F32 F32_good s Hs) as (_ & H1 & H2). split; [exact H1|exact H2].
  - apply HN; intros ->; discriminate.
Qed.

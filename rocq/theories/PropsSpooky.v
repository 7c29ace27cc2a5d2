(* spooky2_128 up to and beyond the range of its size_t counter: the exact limit of C12 and C18. *)
From Verif Require Import Base BaseFacts SpecCommon Gen Hasher GenBlk Types ModelResult ModelAppend SpecAppend
  Behaves Instances ProofRuns PropsHistory PropsAlg ProofObj PropsResults.
From Verif Require Import SpecSpooky ModelMurmur ModelSpooky ProofSpookyMix ProofSpooky.
Open Scope N_scope.

(* The object's own invariant check: BOOST_ASSERT( m_ == n_ % N ) *)
Definition consistent (s : bst sp_st) : bool := N.of_nat (b_m s) =? b_n s mod 192.
Lemma inconsistent_update cw le s p n : consistent s = false -> sp_update cw le s p n = AssertFail.
Proof. intros H. unfold sp_update. unfold consistent in H. rewrite H. reflexivity. Qed.
Lemma inconsistent_result cw le s : consistent s = false -> sp_result cw le s = AssertFail.
Proof. intros H. unfold sp_result. unfold consistent in H. rewrite H. reflexivity. Qed.

(* The width of the counter matters only for the count *)
Lemma tail_width le s p n s' k : sp_update_tail le s p n = Ok s' ->
  sp_update_tail le (mkB (b_st s) (b_buf s) (b_m s) k) p n = AssertFail \/
  exists s2, sp_update_tail le (mkB (b_st s) (b_buf s) (b_m s) k) p n = Ok s2 /\ b_m s2 = b_m s' /\ b_n s2 = k.
Proof.
  unfold sp_update_tail. cbn [b_st b_buf b_m b_n].
  destruct (Nat.eqb (b_m s) 0); cbn [assert_ bind]; [|discriminate].
  destruct (sp_update_ le (b_st s) p (n / 192 * 2)) as [st| | | ]; cbn [bind]; try discriminate.
  destruct (padd p (n / 192 * 192)) as [q| | | ]; cbn [bind]; try discriminate.
  destruct (Nat.ltb (n - n / 192 * 192) 192); cbn [assert_ bind]; [|discriminate].
  destruct (if Nat.ltb 0 (n - n / 192 * 192) then _ else _) as [[buf m]| | | ]; cbn [bind]; try discriminate.
  intros H. destruct (N.of_nat m =? k mod 192); cbn [assert_ bind]; [right|left; reflexivity].
  eexists. split; [reflexivity|]. cbn [b_m b_n]. split; [|reflexivity].
  destruct (N.of_nat m =? b_n s mod 192); cbn [assert_ bind] in H; [|discriminate]. injection H as <-. reflexivity.
Qed.
Lemma update_width cw1 cw2 le s p n s' : (0 < n)%nat -> sp_update cw1 le s p n = Ok s' ->
  sp_update cw2 le s p n = AssertFail \/
  exists s2, sp_update cw2 le s p n = Ok s2 /\ b_m s2 = b_m s' /\ b_n s2 = (b_n s + N.of_nat n) mod cw2.
Proof.
  intros Hn. unfold sp_update.
  destruct (N.of_nat (b_m s) =? b_n s mod 192); cbn [assert_ bind]; [|discriminate].
  replace (Nat.eqb n 0) with false by (symmetry; apply Nat.eqb_neq; lia). cbv zeta.
  destruct (Nat.ltb 0 (b_m s)).
  - set (k := if Nat.ltb n (192 - b_m s) then n else (192 - b_m s)%nat).
    destruct (std_memcpy (b_buf s) (b_m s) p k) as [buf| | | ]; cbn [bind]; try discriminate.
    destruct (padd p k) as [q| | | ]; cbn [bind]; try discriminate.
    destruct (Nat.ltb (b_m s + k) 192).
    + intros H. right. injection H as <-. eexists. split; [reflexivity|]. split; reflexivity.
    + destruct (Nat.eqb (b_m s + k) 192); cbn [assert_ bind]; [|discriminate].
      destruct (sp_update_ le (b_st s) (Ptr buf) 2) as [st| | | ]; cbn [bind]; try discriminate.
      intros H. exact (tail_width le (mkB st buf 0 ((b_n s + N.of_nat n) mod cw1)) q (n - k) s' ((b_n s + N.of_nat n) mod cw2) H).
  - intros H. exact (tail_width le (mkB (b_st s) (b_buf s) (b_m s) ((b_n s + N.of_nat n) mod cw1)) p n s' ((b_n s + N.of_nat n) mod cw2) H).
Qed.

Section C.
Variable cw : N.
Hypothesis Hcw : cw = 2^32 \/ cw = 2^64.
Notation Rel := (RelB sp_st 192 false cw sp_cm2).
Notation Rel' := (RelB sp_st 192 false (192 * cw) sp_cm2).

Lemma widen st l s : N.of_nat (length l) < cw -> Rel (st, 0, l) s -> Rel' (st, 0, l) s.
Proof.
  intros HL (H1 & H2 & H3 & H4 & H5 & H6). split; [exact H1|]. split; [exact H2|].
  split; [exact H3|]. split; [exact H4|]. split; [|exact H6].
  rewrite H5. rewrite !N.mod_small; [reflexivity|lia..].
Qed.
Lemma wrap_bad t : cw <= t < 2 * cw -> t mod 192 <> (t - cw) mod 192.
Proof.
  intros H E.
  assert (HE : cw mod 192 = 64) by (destruct Hcw as [-> | ->]; reflexivity).
  assert (E2 : t = t - cw + cw) by lia. rewrite E2 in E at 1.
  rewrite N.add_mod, HE in E by discriminate.
  pose proof (N.mod_lt (t - cw) 192 ltac:(discriminate)) as L.
  set (x := (t - cw) mod 192) in *. clearbody x.
  assert (C : x + 64 < 192 \/ 192 <= x + 64) by lia. destruct C as [C|C].
  - rewrite N.mod_small in E by exact C. lia.
  - assert (EM : (x + 64) mod 192 = x + 64 - 192) by (symmetry; apply N.mod_unique with (q := 1); lia). lia.
Qed.

(* the update that takes the count past the range of size_t *)
Lemma cross le st l s p n : N.of_nat (length l) < cw -> Rel (st, 0, l) s -> valid_arg true p n ->
  N.of_nat n < cw -> cw <= N.of_nat (length l + n) ->
  sp_update cw le s p n = AssertFail \/ exists s', sp_update cw le s p n = Ok s' /\ consistent s' = false.
Proof.
  intros HL HR HV Hn HW. pose proof (scw_big cw Hcw) as BIG. assert (NZ : 192 * cw <> 0) by lia. assert (POS : (0 < n)%nat) by lia. pose proof (widen _ _ _ HL HR) as HR'.
  pose proof (valid_data _ _ _ HV) as [Hdb Hdl].
  destruct (RelB_update sp_st 192 true false (192 * cw) (rt le) (sp_tr le) (sp_bl le) sp_cm2 ltac:(lia) NZ
    ltac:(intros; now apply sp_tr_ok) ltac:(intros; now apply sp_bl_ok) (st, 0, l) s p n eq_refl HR') as (s' & E & R').
  - unfold okB. right. lia.
  - unfold okB, ab_au. right. rewrite app_length, Hdl. lia.
  - exact HV.
  - change (gen_update sp_st 192 true false (192 * cw) (rt le) (sp_tr le) (sp_bl le) s p n) with (sp_update (192 * cw) le s p n) in E.
    destruct (update_width _ cw _ _ _ _ _ POS E) as [F|(s2 & E2 & Hm & Hc)]; [left; exact F|right].
    exists s2. split; [exact E2|]. unfold consistent. apply N.eqb_neq. rewrite Hm, Hc.
    destruct R' as (_ & _ & (_ & Hm' & _)). destruct HR as (_ & _ & (_ & _ & Hn' & _)).
    rewrite Hm', Hn', app_length, Hdl, N.add_0_l, (N.mod_small (N.of_nat (length l))) by exact HL.
    rewrite <- Nat2N.inj_add. rewrite Nat2N.inj_mod. change (N.of_nat 192) with 192.
    replace (N.of_nat (length l + n) mod cw) with (N.of_nat (length l + n) - cw).
    + apply wrap_bad. lia.
    + apply N.mod_unique with (q := 1); lia.
Qed.

(* feeding pieces, then asking for the result *)
Lemma pieces_limit (gir : list N -> res N) i f le junk cs : forall st l s,
  N.of_nat (length l) < cw -> Rel (st, 0, l) s ->
  Forall (fun x => valid_arg true (fst x) (snd x)) cs -> Forall (fun x => N.of_nat (snd x) < cw) cs ->
  prun (sp_class cw le junk) gir i f s (hash_pieces cs) =
  if N.of_nat (length l + length (fed cs)) <? cw then Ok [fst (sp_ar cw (st, 0, l ++ fed cs))] else AssertFail.
Proof.
  induction cs as [|[p n] cs IH]; intros st l s HL HR HV HN.
  - unfold hash_pieces, fed. cbn [updates map concat app length prun sp_class h_result]. rewrite Nat.add_0_r, app_nil_r.
    replace (N.of_nat (length l) <? cw) with true by (symmetry; now apply N.ltb_lt).
    destruct (sp_result_ok cw Hcw le (st, 0, l) s HR) as (s' & E & _).
    { now apply sp_ok_iff. }
    rewrite E. reflexivity.
  - inversion HV as [|? ? V1 V2]; subst. inversion HN as [|? ? N1 N2]; subst. cbn [fst snd] in *.
    pose proof (valid_data _ _ _ V1) as [Hdb Hdl].
    change (hash_pieces ((p, n) :: cs)) with (SUpdate p n :: hash_pieces cs). cbn [prun].
    change (h_update (sp_class cw le junk) s p n) with (sp_update cw le s p n).
    assert (EF : fed ((p, n) :: cs) = data p n ++ fed cs) by reflexivity. rewrite EF.
    destruct (N.ltb_spec (N.of_nat (length l + n)) cw) as [H|H].
    + destruct (rf_update _ _ _ _ _ _ _ (sp_refines cw Hcw le junk) (st, 0, l) s p n HR) as (s' & E & R').
      * now apply sp_ok_iff.
      * exact V1.
      * unfold ab_au. apply sp_ok_iff; [exact Hcw|]. rewrite app_length, Hdl. lia.
      * change (h_update (sp_class cw le junk) s p n) with (sp_update cw le s p n) in E. rewrite E. cbn [bind].
        unfold ab_au in R'. rewrite (IH st (l ++ data p n) s'); [|rewrite app_length, Hdl; lia|exact R'|assumption..].
        rewrite <- app_assoc, !app_length. replace (length l + length (data p n) + length (fed cs))%nat with (length l + (length (data p n) + length (fed cs)))%nat by lia.
        reflexivity.
    + replace (N.of_nat (length l + length (data p n ++ fed cs)) <? cw) with false.
      2:{ symmetry. apply N.ltb_ge. rewrite app_length, Hdl. lia. }
      destruct (cross le st l s p n HL HR V1 N1 H) as [F|(s' & E & B)].
      * rewrite F. reflexivity.
      * rewrite E. cbn [bind].
        destruct cs as [|[p2 n2] cs].
        -- unfold hash_pieces. cbn [updates map app prun sp_class h_result]. now rewrite inconsistent_result.
        -- change (hash_pieces ((p2, n2) :: cs)) with (SUpdate p2 n2 :: hash_pieces cs).
           cbn [prun sp_class h_update]. now rewrite inconsistent_update.
Qed.
End C.

(* For every message: below 2^w bytes (w the width of size_t) the digest of SpookyHash V2; from
   2^w bytes on, fed by updates of less than 2^w bytes each, an assertion failure. *)
Theorem C12_spooky_exact e f s cs : valid_env e -> valid_pieces Aspooky cs -> s < 2^64 ->
  Forall (fun x => N.of_nat (snd x) < e_cw e) cs ->
  runs e Aspooky f (CSeed s) (hash_pieces cs) =
  if N.of_nat (length (fed cs)) <? e_cw e then Ok [RDigest (SpookyV2_128 s 0 (fed cs))] else AssertFail.
Proof.
  intros [Hcw HJ] HV HS HN. unfold runs, program.
  cbn [pack pack_digest pk_h pk_out construct sp_class h_seed bind].
  pose proof (pieces_limit (e_cw e) Hcw (pk_gir (pack e Aspooky)) (e_impl e) f (e_le e) (e_junk e 192) cs
    (sp_init s 0) [] (sp_seed (e_junk e 192) s)) as P.
  unfold sp_class in P at 1. cbn [pack pack_digest pk_h pk_gir] in P.
  etransitivity; [apply (f_equal (fun r => bind r _)); apply P|].
  - pose proof (scw_big (e_cw e) Hcw). cbn [length]. lia.
  - apply sp_fresh; [exact Hcw|apply HJ].
  - exact HV.
  - exact HN.
  - cbn [length Nat.add app]. destruct (N.of_nat (length (fed cs)) <? e_cw e); [|reflexivity].
    cbn [bind map]. do 3 f_equal. exact (sp_first (e_cw e) Hcw s 0 (fed cs)).
Qed.
Theorem C18_spooky_overflow_refuted e f s cs : valid_env e -> valid_pieces Aspooky cs -> s < 2^64 ->
  Forall (fun x => N.of_nat (snd x) < e_cw e) cs -> e_cw e <= N.of_nat (length (fed cs)) ->
  runs e Aspooky f (CSeed s) (hash_pieces cs) = AssertFail.
Proof.
  intros HE HV HS HN HL. rewrite C12_spooky_exact by assumption.
  replace (N.of_nat (length (fed cs)) <? e_cw e) with false by (symmetry; now apply N.ltb_ge). reflexivity.
Qed.
(* such messages exist: two updates of half the range *)
Example C18_spooky_overflow_ex e : valid_env e ->
  let h := N.to_nat (e_cw e / 2) in let cs := [(Ptr (zeros h), h); (Ptr (zeros h), h)] in
  valid_pieces Aspooky cs /\ Forall (fun x => N.of_nat (snd x) < e_cw e) cs /\ e_cw e <= N.of_nat (length (fed cs)).
Proof.
  intros [Hcw _] h cs. assert (Hh : N.of_nat h = e_cw e / 2) by apply N2Nat.id.
  assert (H2 : 2 * (e_cw e / 2) = e_cw e) by (destruct Hcw as [-> | ->]; reflexivity).
  assert (H3 : 0 < e_cw e) by (destruct Hcw as [-> | ->]; reflexivity).
  assert (VA : valid_arg true (Ptr (zeros h)) h) by (split; [now rewrite zeros_length|apply bytes_zeros]).
  split; [|split].
  - repeat constructor; cbn [fst snd nul_of]; apply VA.
  - repeat constructor; cbn [snd]; lia.
  - unfold cs, fed. cbn [map concat fst snd]. rewrite app_nil_r, app_length.
    rewrite !(proj2 (valid_data _ _ _ VA)). lia.
Qed.

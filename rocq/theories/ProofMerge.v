(* Block functions that are injective in the state: SipHash rounds, SpookyHash mixing. *)
From Verif Require Import Base BaseFacts SpecCommon Gen Bits GenMD Hasher GenBlk PropsSeeds PropsPrims ProofLocal.
From Verif Require Import ModelSpooky SpecSpooky ProofSpookyMix ProofSpooky SpecSip.
Open Scope N_scope.

(* ---------- folding an injective function ---------- *)
Lemma fold_inj_len {St} (P : St -> Prop) (cmp : St -> list N -> St) B l : (0 < B)%nat -> bytes l ->
  (forall s b, P s -> bytes b -> length b = B -> P (cmp s b)) -> (forall s1 s2 b, P s1 -> P s2 -> bytes b -> length b = B -> cmp s1 b = cmp s2 b -> s1 = s2) ->
  forall s1 s2, P s1 -> P s2 -> fold_left cmp (chunks B l) s1 = fold_left cmp (chunks B l) s2 -> s1 = s2.
Proof.
  intros H0 Hl HP HI. assert (HB : Forall (fun b => bytes b /\ length b = B) (chunks B l)).
  { apply Forall_forall; intros b Hb. split; [now apply (chunks_bytes B l)|now apply (chunks_all_length B H0 l)]. }
  induction HB as [|b bs [Hb Hn] HB IH]; intros s1 s2 P1 P2 E; [exact E|]. cbn [fold_left] in E. apply IH in E; [|now apply HP|now apply HP]. now apply HI in E.
Qed.
Lemma fold_P_len {St} (P : St -> Prop) (cmp : St -> list N -> St) B l : (0 < B)%nat -> bytes l -> (forall s b, P s -> bytes b -> length b = B -> P (cmp s b)) ->
  forall s, P s -> P (fold_left cmp (chunks B l) s).
Proof.
  intros H0 Hl HP. assert (HB : Forall (fun b => bytes b /\ length b = B) (chunks B l)).
  { apply Forall_forall; intros b Hb. split; [now apply (chunks_bytes B l)|now apply (chunks_all_length B H0 l)]. }
  induction HB as [|b bs [Hb Hn] HB IH]; intros s P1; [exact P1|]. cbn [fold_left]. apply IH. now apply HP.
Qed.
Lemma fold_inj {St} (P : St -> Prop) (cmp : St -> list N -> St) B l : (0 < B)%nat -> bytes l ->
  (forall s b, P s -> bytes b -> P (cmp s b)) -> (forall s1 s2 b, P s1 -> P s2 -> bytes b -> cmp s1 b = cmp s2 b -> s1 = s2) ->
  forall s1 s2, P s1 -> P s2 -> fold_left cmp (chunks B l) s1 = fold_left cmp (chunks B l) s2 -> s1 = s2.
Proof. intros H0 Hl HP HI. apply fold_inj_len; try assumption; [intros; now apply HP|intros s1 s2 b P1 P2 Hb _; now apply HI]. Qed.
Lemma fold_P {St} (P : St -> Prop) (cmp : St -> list N -> St) B l : (0 < B)%nat -> bytes l -> (forall s b, P s -> bytes b -> P (cmp s b)) ->
  forall s, P s -> P (fold_left cmp (chunks B l) s).
Proof. intros H0 Hl HP. apply fold_P_len; try assumption. intros; now apply HP. Qed.

(* ---------- SipHash ---------- *)
Definition sip_lt (F : Sip_family) (v : Sip_state) : Prop :=
  let '(v0, v1, v2, v3) := v in v0 < 2^sw F /\ v1 < 2^sw F /\ v2 < 2^sw F /\ v3 < 2^sw F.
Definition sip_fam (F : Sip_family) : Prop := F = F64 \/ F = F32.
Lemma sip_rots F : sip_fam F -> ra F < sw F /\ rb F < sw F /\ rc F < sw F /\ rd F < sw F /\ rh F < sw F.
Proof. intros [-> | ->]; repeat split; reflexivity. Qed.
Lemma SipRound_lt F v : sip_fam F -> sip_lt F v -> sip_lt F (SipRound F v).
Proof.
  intros HF. destruct v as [[[v0 v1] v2] v3]. intros (H0 & H1 & H2 & H3). destruct (sip_rots F HF) as (A & B & C & D & E).
  unfold SipRound, sip_lt. repeat split; repeat first [apply lxor_lt | apply ADD_lt' | (apply ROTL_lt; [assumption|]) | assumption].
Qed.
Lemma SipRound_inj F u v : sip_fam F -> sip_lt F u -> sip_lt F v -> SipRound F u = SipRound F v -> u = v.
Proof.
  intros HF. destruct u as [[[u0 u1] u2] u3], v as [[[v0 v1] v2] v3]. intros (G0 & G1 & G2 & G3) (H0 & H1 & H2 & H3). destruct (sip_rots F HF) as (A & B & C & D & E).
  unfold SipRound.
  set (a0 := ADD (sw F) u0 u1). set (b0 := ADD (sw F) v0 v1). set (a2 := ADD (sw F) u2 u3). set (b2 := ADD (sw F) v2 v3).
  set (a1 := N.lxor (ROTL (sw F) (ra F) u1) a0). set (b1 := N.lxor (ROTL (sw F) (ra F) v1) b0).
  set (a3 := N.lxor (ROTL (sw F) (rb F) u3) a2). set (b3 := N.lxor (ROTL (sw F) (rb F) v3) b2).
  assert (LA1 : a1 < 2^sw F) by (apply lxor_lt; [apply ROTL_lt; assumption|apply ADD_lt']).
  assert (LB1 : b1 < 2^sw F) by (apply lxor_lt; [apply ROTL_lt; assumption|apply ADD_lt']).
  assert (LA3 : a3 < 2^sw F) by (apply lxor_lt; [apply ROTL_lt; assumption|apply ADD_lt']).
  assert (LB3 : b3 < 2^sw F) by (apply lxor_lt; [apply ROTL_lt; assumption|apply ADD_lt']).
  intros X. injection X as X0 X1 X2 X3.
  (* second half round *)
  apply rotl_inj in X2; [|assumption|apply ADD_lt'|apply ADD_lt'].
  rewrite X2 in X1. apply lxor_inj_r in X1. apply rotl_inj in X1; [|assumption|assumption|assumption].
  rewrite X0 in X3. apply lxor_inj_r in X3. apply rotl_inj in X3; [|assumption|assumption|assumption].
  rewrite X1 in X2. apply add_inj_r in X2; [|apply ADD_lt'|apply ADD_lt'].
  rewrite X3 in X0. apply add_inj_r in X0; [|apply ROTL_lt; [assumption|apply ADD_lt']|apply ROTL_lt; [assumption|apply ADD_lt']].
  apply rotl_inj in X0; [|assumption|apply ADD_lt'|apply ADD_lt'].
  (* first half round *)
  unfold a1, b1 in X1. rewrite X0 in X1. apply lxor_inj_r in X1. apply rotl_inj in X1; [|assumption|assumption|assumption].
  unfold a3, b3 in X3. rewrite X2 in X3. apply lxor_inj_r in X3. apply rotl_inj in X3; [|assumption|assumption|assumption].
  subst u1 u3. unfold a0, b0 in X0. unfold a2, b2 in X2. apply add_inj_r in X0; [|assumption|assumption]. apply add_inj_r in X2; [|assumption|assumption].
  now subst.
Qed.
Lemma sip_word_lt F b : sip_fam F -> bytes b -> (length b <= swb F)%nat -> LE b < 2^sw F.
Proof.
  intros HF Hb HL. change LE with le_val. eapply N.lt_le_trans; [now apply le_val_bound|].
  destruct HF as [-> | ->]; cbn [sw swb F64 F32] in *.
  - change (2^64) with (256^8). apply N.pow_le_mono_r; lia.
  - change (2^32) with (256^4). apply N.pow_le_mono_r; lia.
Qed.

Lemma SipWord_lt F v b : sip_fam F -> sip_lt F v -> bytes b -> (length b <= swb F)%nat -> sip_lt F (SipWord F v b).
Proof.
  intros HF. destruct v as [[[v0 v1] v2] v3]. intros (H0 & H1 & H2 & H3) Hb HL. pose proof (sip_word_lt F b HF Hb HL) as HM. unfold SipWord.
  assert (L : sip_lt F (SipRound F (SipRound F (v0, v1, v2, N.lxor v3 (LE b))))).
  { apply SipRound_lt, SipRound_lt; try assumption. repeat split; try assumption. now apply lxor_lt. }
  destruct (SipRound F (SipRound F (v0, v1, v2, N.lxor v3 (LE b)))) as [[[u0 u1] u2] u3]. destruct L as (L0 & L1 & L2 & L3).
  repeat split; try assumption. now apply lxor_lt.
Qed.
Lemma SipWord_inj F u v b : sip_fam F -> sip_lt F u -> sip_lt F v -> bytes b -> (length b <= swb F)%nat -> SipWord F u b = SipWord F v b -> u = v.
Proof.
  intros HF. destruct u as [[[u0 u1] u2] u3], v as [[[v0 v1] v2] v3]. intros (G0 & G1 & G2 & G3) (H0 & H1 & H2 & H3) Hb HL. pose proof (sip_word_lt F b HF Hb HL) as HM. unfold SipWord.
  assert (LU : sip_lt F (u0, u1, u2, N.lxor u3 (LE b))) by (repeat split; try assumption; now apply lxor_lt).
  assert (LV : sip_lt F (v0, v1, v2, N.lxor v3 (LE b))) by (repeat split; try assumption; now apply lxor_lt).
  pose proof (fun X => SipRound_inj F _ _ HF LU LV (SipRound_inj F _ _ HF (SipRound_lt F _ HF LU) (SipRound_lt F _ HF LV) X)) as K.
  destruct (SipRound F (SipRound F (u0, u1, u2, N.lxor u3 (LE b)))) as [[[a0 a1] a2] a3].
  destruct (SipRound F (SipRound F (v0, v1, v2, N.lxor v3 (LE b)))) as [[[b0 b1] b2] b3].
  intros X. injection X as X0 X1 X2 X3. apply lxor_inj_r in X0. subst. specialize (K eq_refl). injection K as -> -> -> K. apply lxor_inj_r in K. now subst.
Qed.
Lemma SipFinal_pre F v : sip_fam F -> sip_lt F v -> sip_lt F (let '(v0, v1, v2, v3) := v in (v0, v1, N.lxor v2 0xff, v3)).
Proof.
  intros HF. destruct v as [[[v0 v1] v2] v3]. intros (H0 & H1 & H2 & H3). repeat split; try assumption. apply lxor_lt; [assumption|]. destruct HF as [-> | ->]; reflexivity.
Qed.
Lemma SipFinal_lt F v : sip_fam F -> sip_lt F v -> sip_lt F (SipFinal F v).
Proof.
  intros HF HV. pose proof (SipFinal_pre F v HF HV) as H. destruct v as [[[v0 v1] v2] v3]. unfold SipFinal. now repeat apply SipRound_lt.
Qed.
Lemma SipFinal_inj F u v : sip_fam F -> sip_lt F u -> sip_lt F v -> SipFinal F u = SipFinal F v -> u = v.
Proof.
  intros HF LU LV. pose proof (SipFinal_pre F u HF LU) as H. pose proof (SipFinal_pre F v HF LV) as H'. destruct u as [[[u0 u1] u2] u3], v as [[[v0 v1] v2] v3]. unfold SipFinal.
  intros X. repeat (apply SipRound_inj in X; [|assumption|now repeat apply SipRound_lt|now repeat apply SipRound_lt]).
  injection X as -> -> X ->. apply lxor_inj_r in X. now subst.
Qed.
Lemma swb_pos F : sip_fam F -> (0 < swb F)%nat.
Proof. intros [-> | ->]; cbn; lia. Qed.
Lemma SipLast_ok F len t : sip_fam F -> bytes t -> (length t < swb F)%nat -> bytes (SipLast F len t) /\ (length (SipLast F len t) <= swb F)%nat.
Proof.
  intros HF Ht HL. unfold SipLast. split.
  - apply bytes_app. split; [exact Ht|]. apply bytes_app. split.
    + apply Forall_forall. intros x Hx. apply repeat_spec in Hx. now subst.
    + constructor; [|constructor]. apply N.mod_lt. discriminate.
  - rewrite !app_length, repeat_length. cbn [length]. lia.
Qed.
Lemma SipFrom_lt F v c l : sip_fam F -> sip_lt F v -> bytes l -> sip_lt F (SipFrom F v c l).
Proof.
  intros HF HV Hl. unfold SipFrom. apply SipFinal_lt; [exact HF|].
  destruct (SipLast_ok F (c + N.of_nat (length l)) (rest (swb F) l) HF) as [B1 B2]; [now apply rest_bytes|apply rest_lt, swb_pos; exact HF|].
  apply SipWord_lt; try assumption. apply (fold_P_len (sip_lt F)); try assumption; [now apply swb_pos|]. intros s b Hs Hb HL. apply SipWord_lt; try assumption. lia.
Qed.
Lemma SipWords_inj F u v l : sip_fam F -> sip_lt F u -> sip_lt F v -> bytes l ->
  fold_left (SipWord F) (chunks (swb F) l) u = fold_left (SipWord F) (chunks (swb F) l) v -> u = v.
Proof.
  intros HF HU HV Hl. apply (fold_inj_len (sip_lt F)); try assumption; [now apply swb_pos| |].
  - intros s b Hs Hb HL. apply SipWord_lt; try assumption. lia.
  - intros s1 s2 b H1 H2 Hb HL. apply SipWord_inj; try assumption. lia.
Qed.
Lemma SipFrom_inj F u v c l : sip_fam F -> sip_lt F u -> sip_lt F v -> bytes l -> SipFrom F u c l = SipFrom F v c l -> u = v.
Proof.
  intros HF HU HV Hl. unfold SipFrom.
  destruct (SipLast_ok F (c + N.of_nat (length l)) (rest (swb F) l) HF) as [B1 B2]; [now apply rest_bytes|apply rest_lt, swb_pos; exact HF|].
  assert (FL : forall s, sip_lt F s -> sip_lt F (fold_left (SipWord F) (chunks (swb F) l) s)).
  { apply fold_P_len; try assumption; [now apply swb_pos|]. intros s b Hs Hb HL. apply SipWord_lt; try assumption. lia. }
  intros X. apply SipFinal_inj in X; [|exact HF|apply SipWord_lt; auto|apply SipWord_lt; auto]. apply SipWord_inj in X; auto. now apply SipWords_inj in X.
Qed.
Lemma SipInit_lt F k0 k1 : sip_fam F -> k0 < 2^sw F -> k1 < 2^sw F -> sip_lt F (SipInit F k0 k1).
Proof. intros HF H0 H1. destruct HF as [-> | ->]; cbn [sw] in *; unfold SipInit, sip_lt; cbn [sinit F64 F32 sw]; repeat split; apply lxor_lt; try assumption; reflexivity. Qed.
Lemma SipInit_inj F k0 k1 j0 j1 : SipInit F k0 k1 = SipInit F j0 j1 -> k0 = j0 /\ k1 = j1.
Proof.
  unfold SipInit. destruct (sinit F) as [[[v0 v1] v2] v3]. intros X. injection X as X0 X1 _ _. apply lxor_inj_l in X0. apply lxor_inj_l in X1. now split.
Qed.

(* ---------- SpookyHash ---------- *)
Definition sp_ok (h : list N) : Prop := length h = 12%nat /\ Forall (fun x => x < 2^64) h.
Lemma set_nth_length i v h : length (set_nth i v h) = length h.
Proof. revert i; induction h as [|x h IH]; intros [|i]; cbn [set_nth length]; try reflexivity. now rewrite IH. Qed.
Lemma set_nth_all (P : N -> Prop) i v h : P v -> Forall P h -> Forall P (set_nth i v h).
Proof. intros Hv H. revert i. induction H as [|x h Hx H IH]; intros [|i]; cbn [set_nth]; constructor; auto. Qed.
Lemma set_nth_inv i v1 v2 : forall h1 h2, (i < length h1)%nat -> (i < length h2)%nat -> set_nth i v1 h1 = set_nth i v2 h2 ->
  v1 = v2 /\ forall m, m <> i -> nth m h1 0 = nth m h2 0.
Proof.
  induction i as [|i IH]; intros [|x h1] [|y h2] H1 H2 E; cbn [length] in *; try lia; cbn [set_nth] in E; injection E as E1 E2.
  - split; [exact E1|]. intros [|m] Hm; [easy|]. cbn [nth]. now rewrite E2.
  - apply IH in E2; [|lia|lia]. destruct E2 as [E2 E3]. split; [exact E2|]. intros [|m] Hm; cbn [nth]; [exact E1|]. apply E3. lia.
Qed.
Lemma nth_ok h i : sp_ok h -> nth i h 0 < 2^64.
Proof.
  intros [_ H]. revert i. induction H as [|x h Hx H IH]; intros [|i]; cbn [nth]; try reflexivity; auto.
Qed.
Lemma var_ok h i : sp_ok h -> var 12 i h < 2^64.
Proof. intros H. now apply nth_ok. Qed.
Lemma assign_ok i v h : v < 2^64 -> sp_ok h -> sp_ok (assign 12 i v h).
Proof. intros Hv [H1 H2]. split; [unfold assign; now rewrite set_nth_length|]. now apply set_nth_all. Qed.
Lemma assign_inj i j (F : N -> N -> N) h1 h2 : (i mod 12 <> j mod 12)%nat -> sp_ok h1 -> sp_ok h2 ->
  (forall x y z, x < 2^64 -> y < 2^64 -> z < 2^64 -> F x z = F y z -> x = y) ->
  assign 12 i (F (var 12 i h1) (var 12 j h1)) h1 = assign 12 i (F (var 12 i h2) (var 12 j h2)) h2 -> h1 = h2.
Proof.
  intros HN O1 O2 HI E. pose proof (Nat.mod_upper_bound i 12 ltac:(discriminate)) as HB.
  apply set_nth_inv in E; [|rewrite (proj1 O1); exact HB|rewrite (proj1 O2); exact HB]. destruct E as [E1 E2].
  assert (EJ : var 12 j h1 = var 12 j h2) by (unfold var; apply E2; congruence).
  rewrite EJ in E1. apply HI in E1; [|now apply var_ok|now apply var_ok|now apply var_ok].
  apply (nth_ext _ _ 0 0); [now rewrite (proj1 O1), (proj1 O2)|]. intros m Hm.
  destruct (Nat.eq_dec m (i mod 12)%nat) as [->|HM]; [exact E1|now apply E2].
Qed.
Lemma assign_inj1 i (F : N -> N) h1 h2 : sp_ok h1 -> sp_ok h2 -> (forall x y, x < 2^64 -> y < 2^64 -> F x = F y -> x = y) ->
  assign 12 i (F (var 12 i h1)) h1 = assign 12 i (F (var 12 i h2)) h2 -> h1 = h2.
Proof.
  intros O1 O2 HI. apply (assign_inj i (i + 1) (fun x _ => F x)); try assumption.
  - intros X. pose proof (Nat.mod_upper_bound i 12 ltac:(discriminate)).
    rewrite Nat.add_mod in X by discriminate. change (1 mod 12)%nat with 1%nat in X.
    destruct (Nat.eq_dec (i mod 12)%nat 11%nat) as [Y|Y]; [rewrite Y in X; discriminate|]. rewrite (Nat.mod_small (i mod 12 + 1)%nat) in X by lia. lia.
  - intros x y z H1 H2 _. now apply HI.
Qed.
Lemma word64_lt d i : bytes d -> word64 d i < 2^64.
Proof.
  intros Hd. unfold word64. change LE with le_val. eapply N.lt_le_trans; [apply le_val_bound|].
  - now apply bytes_firstn, bytes_skipn.
  - change (2^64) with (256^8). apply N.pow_le_mono_r; [discriminate|]. rewrite firstn_length. lia.
Qed.
Lemma Mix_rot_lt i : nth i Mix_rot 0 < 64.
Proof. do 12 (destruct i as [|i]; [reflexivity|]). cbn [Mix_rot nth]. destruct i; reflexivity. Qed.
Lemma End_rot_lt i : nth i End_rot 0 < 64.
Proof. do 12 (destruct i as [|i]; [reflexivity|]). cbn [End_rot nth]. destruct i; reflexivity. Qed.
Lemma Mix_line_ok d s i : bytes d -> sp_ok s -> sp_ok (Mix_line d s i).
Proof.
  intros Hd H. unfold Mix_line.
  set (s1 := assign 12 i _ s). assert (H1 : sp_ok s1) by (apply assign_ok; [apply ADD_lt'|exact H]).
  set (s2 := assign 12 (i + 2) _ s1). assert (H2 : sp_ok s2) by (apply assign_ok; [apply lxor_lt; now apply var_ok|exact H1]).
  set (s3 := assign 12 (i + 11) _ s2). assert (H3 : sp_ok s3) by (apply assign_ok; [apply lxor_lt; now apply var_ok|exact H2]).
  set (s4 := assign 12 i _ s3). assert (H4 : sp_ok s4) by (apply assign_ok; [apply ROTL_lt; [apply Mix_rot_lt|now apply var_ok]|exact H3]).
  apply assign_ok; [apply ADD_lt'|exact H4].
Qed.
Lemma apart_mod i a b : (i < 12)%nat -> (a < 12)%nat -> (b < 12)%nat -> a <> b -> ((i + a) mod 12 <> (i + b) mod 12)%nat.
Proof.
  intros Hi Ha Hb HN X. apply HN.
  assert (Y : forall x, (x < 12)%nat -> (((i + x) mod 12 + (12 - i)) mod 12 = x)%nat).
  { intros x Hx. rewrite Nat.add_mod_idemp_l by discriminate. replace (i + x + (12 - i))%nat with (x + 1 * 12)%nat by lia.
    rewrite Nat.mod_add by discriminate. now apply Nat.mod_small. }
  rewrite <- (Y a Ha), <- (Y b Hb), X. reflexivity.
Qed.
Lemma Mix_line_inj d s t i : (i < 12)%nat -> bytes d -> sp_ok s -> sp_ok t -> Mix_line d s i = Mix_line d t i -> s = t.
Proof.
  intros Hi Hd HS HT. unfold Mix_line.
  set (s1 := assign 12 i _ s). assert (S1 : sp_ok s1) by (apply assign_ok; [apply ADD_lt'|exact HS]).
  set (s2 := assign 12 (i + 2) _ s1). assert (S2 : sp_ok s2) by (apply assign_ok; [apply lxor_lt; now apply var_ok|exact S1]).
  set (s3 := assign 12 (i + 11) _ s2). assert (S3 : sp_ok s3) by (apply assign_ok; [apply lxor_lt; now apply var_ok|exact S2]).
  set (s4 := assign 12 i _ s3). assert (S4 : sp_ok s4) by (apply assign_ok; [apply ROTL_lt; [apply Mix_rot_lt|now apply var_ok]|exact S3]).
  set (t1 := assign 12 i _ t). assert (T1 : sp_ok t1) by (apply assign_ok; [apply ADD_lt'|exact HT]).
  set (t2 := assign 12 (i + 2) _ t1). assert (T2 : sp_ok t2) by (apply assign_ok; [apply lxor_lt; now apply var_ok|exact T1]).
  set (t3 := assign 12 (i + 11) _ t2). assert (T3 : sp_ok t3) by (apply assign_ok; [apply lxor_lt; now apply var_ok|exact T2]).
  set (t4 := assign 12 i _ t3). assert (T4 : sp_ok t4) by (apply assign_ok; [apply ROTL_lt; [apply Mix_rot_lt|now apply var_ok]|exact T3]).
  assert (A1 : ((i + 2) mod 12 <> (i + 10) mod 12)%nat) by (apply apart_mod; lia).
  assert (A2 : ((i + 11) mod 12 <> i mod 12)%nat) by (rewrite <- (Nat.add_0_r i) at 2; apply apart_mod; lia).
  assert (A3 : ((i + 11) mod 12 <> (i + 1) mod 12)%nat) by (apply apart_mod; lia).
  intros E. apply (assign_inj (i + 11) (i + 1) (ADD 64)) in E; try assumption; [|intros x y z Hx Hy _ X; now apply add_inj_r in X].
  apply (assign_inj1 i (ROTL 64 (nth i Mix_rot 0))) in E; try assumption; [|intros x y Hx Hy X; apply rotl_inj in X; try assumption; apply Mix_rot_lt].
  apply (assign_inj (i + 11) i N.lxor) in E; try assumption; [|intros x y z _ _ _ X; now apply lxor_inj_r in X].
  apply (assign_inj (i + 2) (i + 10) N.lxor) in E; try assumption; [|intros x y z _ _ _ X; now apply lxor_inj_r in X].
  apply (assign_inj1 i (fun x => ADD 64 x (word64 d i))) in E; try assumption. intros x y Hx Hy X; now apply add_inj_r in X.
Qed.
Lemma EndPartial_line_ok s i : sp_ok s -> sp_ok (EndPartial_line s i).
Proof.
  intros H. unfold EndPartial_line.
  set (s1 := assign 12 (i + 11) _ s). assert (H1 : sp_ok s1) by (apply assign_ok; [apply ADD_lt'|exact H]).
  set (s2 := assign 12 (i + 2) _ s1). assert (H2 : sp_ok s2) by (apply assign_ok; [apply lxor_lt; now apply var_ok|exact H1]).
  apply assign_ok; [apply ROTL_lt; [apply End_rot_lt|now apply var_ok]|exact H2].
Qed.
Lemma EndPartial_line_inj s t i : (i < 12)%nat -> sp_ok s -> sp_ok t -> EndPartial_line s i = EndPartial_line t i -> s = t.
Proof.
  intros Hi HS HT. unfold EndPartial_line.
  set (s1 := assign 12 (i + 11) _ s). assert (S1 : sp_ok s1) by (apply assign_ok; [apply ADD_lt'|exact HS]).
  set (s2 := assign 12 (i + 2) _ s1). assert (S2 : sp_ok s2) by (apply assign_ok; [apply lxor_lt; now apply var_ok|exact S1]).
  set (t1 := assign 12 (i + 11) _ t). assert (T1 : sp_ok t1) by (apply assign_ok; [apply ADD_lt'|exact HT]).
  set (t2 := assign 12 (i + 2) _ t1). assert (T2 : sp_ok t2) by (apply assign_ok; [apply lxor_lt; now apply var_ok|exact T1]).
  assert (A1 : ((i + 11) mod 12 <> (i + 1) mod 12)%nat) by (apply apart_mod; lia).
  assert (A2 : ((i + 2) mod 12 <> (i + 11) mod 12)%nat) by (apply apart_mod; lia).
  intros E. apply (assign_inj1 (i + 1) (ROTL 64 (nth i End_rot 0))) in E; try assumption; [|intros x y Hx Hy X; apply rotl_inj in X; try assumption; apply End_rot_lt].
  apply (assign_inj (i + 2) (i + 11) N.lxor) in E; try assumption; [|intros x y z _ _ _ X; now apply lxor_inj_r in X].
  apply (assign_inj (i + 11) (i + 1) (ADD 64)) in E; try assumption. intros x y z Hx Hy _ X; now apply add_inj_r in X.
Qed.
(* a sequence of lines *)
Lemma lines_ok (f : list N -> nat -> list N) is : (forall s i, sp_ok s -> sp_ok (f s i)) -> forall s, sp_ok s -> sp_ok (fold_left f is s).
Proof. intros H. induction is as [|i is IH]; intros s Hs; cbn [fold_left]; auto. Qed.
Lemma lines_inj (f : list N -> nat -> list N) is : (forall s i, sp_ok s -> sp_ok (f s i)) ->
  Forall (fun i => forall s t, sp_ok s -> sp_ok t -> f s i = f t i -> s = t) is -> forall s t, sp_ok s -> sp_ok t -> fold_left f is s = fold_left f is t -> s = t.
Proof.
  intros H HI. induction HI as [|i is Hi HI IH]; intros s t HS HT E; [exact E|]. cbn [fold_left] in E. apply IH in E; [|now apply H|now apply H]. now apply Hi.
Qed.
Lemma seq12 (P : nat -> Prop) : (forall i, (i < 12)%nat -> P i) -> Forall P (seq 0 12).
Proof. intros H. apply Forall_forall. intros i Hi. apply in_seq in Hi. apply H. lia. Qed.
Lemma Spooky_Mix_ok s d : bytes d -> sp_ok s -> sp_ok (Spooky_Mix s d).
Proof. intros Hd. apply lines_ok. intros. now apply Mix_line_ok. Qed.
Lemma Spooky_Mix_inj s t d : bytes d -> sp_ok s -> sp_ok t -> Spooky_Mix s d = Spooky_Mix t d -> s = t.
Proof.
  intros Hd. apply lines_inj; [intros; now apply Mix_line_ok|]. apply seq12. intros i Hi u v HU HV. now apply Mix_line_inj.
Qed.
Lemma Spooky_EndPartial_ok s : sp_ok s -> sp_ok (Spooky_EndPartial s).
Proof. apply lines_ok. intros. now apply EndPartial_line_ok. Qed.
Lemma Spooky_EndPartial_inj s t : sp_ok s -> sp_ok t -> Spooky_EndPartial s = Spooky_EndPartial t -> s = t.
Proof. apply lines_inj; [intros; now apply EndPartial_line_ok|]. apply seq12. intros i Hi u v HU HV. now apply EndPartial_line_inj. Qed.
Definition End_add (d h : list N) : list N := fold_left (fun h i => assign 12 i (ADD 64 (var 12 i h) (word64 d i)) h) (seq 0 12) h.
Lemma End_add_ok d h : sp_ok h -> sp_ok (End_add d h).
Proof. apply lines_ok. intros. apply assign_ok; [apply ADD_lt'|assumption]. Qed.
Lemma End_add_inj d s t : sp_ok s -> sp_ok t -> End_add d s = End_add d t -> s = t.
Proof.
  apply lines_inj; [intros; apply assign_ok; [apply ADD_lt'|assumption]|]. apply seq12. intros i Hi u v HU HV.
  apply (assign_inj1 i (fun x => ADD 64 x (word64 d i))); try assumption. intros x y Hx Hy X; now apply add_inj_r in X.
Qed.
Lemma Spooky_End_eq s d : Spooky_End s d = Spooky_EndPartial (Spooky_EndPartial (Spooky_EndPartial (End_add d s))).
Proof. reflexivity. Qed.
Lemma End3_ok h : sp_ok h -> sp_ok (Spooky_EndPartial (Spooky_EndPartial (Spooky_EndPartial h))).
Proof. intros H. do 3 apply Spooky_EndPartial_ok. exact H. Qed.
Lemma End3_inj g h : sp_ok g -> sp_ok h ->
  Spooky_EndPartial (Spooky_EndPartial (Spooky_EndPartial g)) = Spooky_EndPartial (Spooky_EndPartial (Spooky_EndPartial h)) -> g = h.
Proof.
  intros G0 H0 X. pose proof (Spooky_EndPartial_ok _ G0) as G1. pose proof (Spooky_EndPartial_ok _ H0) as H1.
  pose proof (Spooky_EndPartial_ok _ G1) as G2. pose proof (Spooky_EndPartial_ok _ H1) as H2.
  apply (Spooky_EndPartial_inj _ _ G0 H0). apply (Spooky_EndPartial_inj _ _ G1 H1). exact (Spooky_EndPartial_inj _ _ G2 H2 X).
Qed.
Lemma Spooky_End_ok s d : sp_ok s -> sp_ok (Spooky_End s d).
Proof. intros H. rewrite Spooky_End_eq. apply End3_ok. now apply End_add_ok. Qed.
Lemma Spooky_End_inj s t d : sp_ok s -> sp_ok t -> Spooky_End s d = Spooky_End t d -> s = t.
Proof.
  intros HS HT X. rewrite !Spooky_End_eq in X. apply End3_inj in X; [|now apply End_add_ok|now apply End_add_ok]. now apply End_add_inj in X.
Qed.
(* the results of the short form are words *)
Definition ok4 (h : list N) : Prop := Forall (fun x => x < 2^64) h.
Lemma var4_lt h j : ok4 h -> var 4 j h < 2^64.
Proof. intros H. unfold var. generalize (j mod 4)%nat. induction H as [|x h Hx H IH]; intros [|k]; cbn [nth]; try reflexivity; auto. Qed.
Lemma assign4_ok i v h : v < 2^64 -> ok4 h -> ok4 (assign 4 i v h).
Proof. intros Hv H. now apply set_nth_all. Qed.
Lemma lines4_ok (f : list N -> nat -> list N) is : (forall s i, ok4 s -> ok4 (f s i)) -> forall s, ok4 s -> ok4 (fold_left f is s).
Proof. intros H. induction is as [|i is IH]; intros s Hs; cbn [fold_left]; auto. Qed.
Lemma blocks4_ok (f : list N -> list N -> list N) : (forall s b, ok4 s -> ok4 (f s b)) -> forall bs s, ok4 s -> ok4 (fold_left f bs s).
Proof. intros H. induction bs as [|b bs IH]; intros s Hs; cbn [fold_left]; auto. Qed.
Lemma ShortEnd_ok h : ok4 h -> ok4 (Spooky_ShortEnd h).
Proof.
  apply lines4_ok. clear. intros h i H. unfold ShortEnd_line.
  assert (RL : nth i ShortEnd_rot 0 < 64) by (do 11 (destruct i as [|i]; [reflexivity|]); destruct i; reflexivity).
  set (h1 := assign 4 (i + 3) _ h). assert (H1 : ok4 h1) by (apply assign4_ok; [apply lxor_lt; now apply var4_lt|exact H]).
  set (h2 := assign 4 (i + 2) _ h1). assert (H2 : ok4 h2) by (apply assign4_ok; [apply ROTL_lt; [exact RL|now apply var4_lt]|exact H1]).
  apply assign4_ok; [apply ADD_lt'|exact H2].
Qed.
Lemma ShortMix_ok h : ok4 h -> ok4 (Spooky_ShortMix h).
Proof.
  apply lines4_ok. clear. intros h i H. unfold ShortMix_line.
  assert (RL : nth i ShortMix_rot 0 < 64) by (do 12 (destruct i as [|i]; [reflexivity|]); destruct i; reflexivity).
  set (h1 := assign 4 (i + 2) _ h). assert (H1 : ok4 h1) by (apply assign4_ok; [apply ROTL_lt; [exact RL|now apply var4_lt]|exact H]).
  set (h2 := assign 4 (i + 2) _ h1). assert (H2 : ok4 h2) by (apply assign4_ok; [apply ADD_lt'|exact H1]).
  apply assign4_ok; [apply lxor_lt; now apply var4_lt|exact H2].
Qed.
Lemma Short_cd_ok h x y : ok4 h -> ok4 (Short_cd h x y).
Proof. intros H. unfold Short_cd. apply assign4_ok; [apply ADD_lt'|]. apply assign4_ok; [apply ADD_lt'|exact H]. Qed.
Lemma Short_32_ok h b : ok4 h -> ok4 (Short_32 h b).
Proof.
  intros H. unfold Short_32. pose proof (ShortMix_ok _ (Short_cd_ok h (word64 b 0) (word64 b 1) H)) as H1.
  apply assign4_ok; [apply ADD_lt'|]. apply assign4_ok; [apply ADD_lt'|exact H1].
Qed.
Lemma spec_fin_lt h r n : ok4 h -> fst (spec_fin h r n) < 2^64 /\ snd (spec_fin h r n) < 2^64.
Proof.
  intros H. unfold spec_fin. generalize ((N.of_nat n * 2^56) mod 2^64). intros z.
  assert (H2 : ok4 (assign 4 3 (ADD 64 (var 4 3 h) z) h)) by (apply assign4_ok; [apply ADD_lt'|exact H]).
  revert H2. generalize (assign 4 3 (ADD 64 (var 4 3 h) z) h). intros g HG.
  assert (H3 : ok4 (match r with [] => Short_cd g sc_const sc_const | _ => Short_cd g (LE (firstn 8 r)) (LE (skipn 8 r)) end)) by (destruct r; now apply Short_cd_ok).
  revert H3. generalize (match r with [] => Short_cd g sc_const sc_const | _ => Short_cd g (LE (firstn 8 r)) (LE (skipn 8 r)) end). intros k HK.
  apply ShortEnd_ok in HK. revert HK. generalize (Spooky_ShortEnd k). intros k' HK. cbn [fst snd]. split; now apply var4_lt.
Qed.
Definition short_mid (h r : list N) : list N * list N :=
  if Nat.leb 16 (length r) then (Spooky_ShortMix (Short_cd h (word64 r 0) (word64 r 1)), skipn 16 r) else (h, r).
Lemma short_mid_ok h r : ok4 h -> ok4 (fst (short_mid h r)).
Proof. intros H. unfold short_mid. destruct (Nat.leb 16 (length r)); [|exact H]. cbn [fst]. apply ShortMix_ok. now apply Short_cd_ok. Qed.
Lemma Spooky_Short_eq a b l :
  Spooky_Short a b l = let '(h, r) := short_mid (fold_left Short_32 (chunks 32 l) [a; b; sc_const; sc_const]) (rest 32 l) in spec_fin h r (length l).
Proof. cbv delta [Spooky_Short short_mid spec_fin]. cbv beta zeta. reflexivity. Qed.
Lemma short_blocks_ok bs : forall h, ok4 h -> ok4 (fold_left Short_32 bs h).
Proof. intros h. apply (blocks4_ok Short_32 Short_32_ok bs h). Qed.
Lemma Spooky_Short_lt a b l : a < 2^64 -> b < 2^64 -> fst (Spooky_Short a b l) < 2^64 /\ snd (Spooky_Short a b l) < 2^64.
Proof.
  intros Ha Hb. rewrite Spooky_Short_eq.
  assert (HS : ok4 [a; b; sc_const; sc_const]) by (repeat constructor; assumption).
  pose proof (short_mid_ok _ (rest 32 l) (short_blocks_ok (chunks 32 l) _ HS)) as H. revert H.
  generalize (short_mid (fold_left Short_32 (chunks 32 l) [a; b; sc_const; sc_const]) (rest 32 l)). intros [h r] H. now apply spec_fin_lt.
Qed.
Lemma sp_list_inj s t : sp_list s = sp_list t -> s = t.
Proof. intros H. rewrite <- (sp_of_list s), <- (sp_of_list t). now rewrite H. Qed.
Lemma sp_list_of h : length h = 12%nat -> sp_list (sp_of h) = h.
Proof. intros H. do 12 (destruct h as [|? h]; [discriminate|]). destruct h; [reflexivity|discriminate]. Qed.
Definition sp_good (st : sp_st) : Prop := sp_ok (sp_list st).
Lemma sp_cm2_good st d : bytes d -> sp_good st -> sp_good (sp_cm2 st d).
Proof.
  intros Hd H. unfold sp_good, sp_cm2 in *. rewrite !sp_cm_list. apply Spooky_Mix_ok; [now apply bytes_skipn|]. apply Spooky_Mix_ok; [now apply bytes_firstn|exact H].
Qed.
Lemma sp_cm2_inj s t d : bytes d -> sp_good s -> sp_good t -> sp_cm2 s d = sp_cm2 t d -> s = t.
Proof.
  intros Hd HS HT E. apply (f_equal sp_list) in E. unfold sp_cm2 in E. rewrite !sp_cm_list in E. apply sp_list_inj.
  apply Spooky_Mix_inj in E; [|now apply bytes_skipn|apply Spooky_Mix_ok; [now apply bytes_firstn|exact HS]|apply Spooky_Mix_ok; [now apply bytes_firstn|exact HT]].
  apply Spooky_Mix_inj in E; try assumption. now apply bytes_firstn.
Qed.
Lemma Spooky_last_bytes r : bytes r -> (length r < 96)%nat -> bytes (Spooky_last r).
Proof.
  intros Hr HL. unfold Spooky_last. apply bytes_app. split; [exact Hr|]. apply bytes_app. split.
  - apply Forall_forall. intros x Hx. apply repeat_spec in Hx. now subst.
  - constructor; [|constructor]. lia.
Qed.
(* everything but the first two variables *)
Definition upper (st : sp_st) : list N := skipn 2 (sp_list st).
Lemma sp_fin_good st c l : bytes l -> sp_good st -> sp_good (sp_fin_st st c l).
Proof.
  intros Hl H. unfold sp_fin_st. destruct (c + N.of_nat (length l) <? 192).
  - destruct st as [h0 h1 h2 h3 h4 h5 h6 h7 h8 h9 h10 h11]. unfold sp_good, sp_list in *. destruct H as [_ H].
    inversion H as [|? ? X0 H1]; subst. inversion H1 as [|? ? X1 H2]; subst.
    pose proof (Spooky_Short_lt h0 h1 l X0 X1) as HS. destruct (Spooky_Short h0 h1 l) as [a b]. cbn [fst snd] in HS. destruct HS as [Ha Hb]. split; [reflexivity|]. constructor; [exact Ha|]. constructor; [exact Hb|exact H2].
  - unfold sp_good. rewrite sp_list_of; [|apply Spooky_End_ok]; try apply Spooky_End_ok; apply (fold_P sp_ok); try assumption; try lia; intros; now apply Spooky_Mix_ok.
Qed.
Lemma sp_fin_long s t c l : bytes l -> sp_good s -> sp_good t -> 192 <= c + N.of_nat (length l) -> sp_fin_st s c l = sp_fin_st t c l -> s = t.
Proof.
  intros Hl HS HT HC. unfold sp_fin_st. rewrite (proj2 (N.ltb_ge _ _) HC). intros E. apply (f_equal sp_list) in E. apply sp_list_inj.
  assert (FO : forall u, sp_ok u -> sp_ok (fold_left Spooky_Mix (chunks 96 l) u)) by (apply fold_P; try assumption; try lia; intros; now apply Spooky_Mix_ok).
  rewrite !sp_list_of in E by (apply Spooky_End_ok; now apply FO). apply Spooky_End_inj in E; [|now apply FO|now apply FO].
  apply (fold_inj sp_ok Spooky_Mix 96 l) in E; try assumption; try lia; [intros; now apply Spooky_Mix_ok|]. intros u v b HU HV Hb X. now apply Spooky_Mix_inj in X.
Qed.
Lemma sp_fin_short st c l : c + N.of_nat (length l) < 192 -> upper (sp_fin_st st c l) = upper st.
Proof.
  intros HC. unfold sp_fin_st. rewrite (proj2 (N.ltb_lt _ _) HC). destruct st as [h0 h1 h2 h3 h4 h5 h6 h7 h8 h9 h10 h11]. destruct (Spooky_Short h0 h1 l). reflexivity.
Qed.

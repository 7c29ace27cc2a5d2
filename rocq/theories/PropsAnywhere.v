(* C54 and C57, continued: the colliding messages of murmur3 and xxHash have the same effect after any history that ends on a
   block boundary, and for ever: no continuation (updates, values, further results) tells them apart. *)
From Verif Require Import Base BaseFacts SpecCommon Gen Bits GenMD Hasher GenBlk Types ModelResult ModelAppend SpecAppend ProofMsg ProofMsgEq
  Behaves Instances ProofRuns Samples PropsHistory PropsAlg PropsAppend PropsSeeds PropsPrims PropsLocal PropsLocal64 ProofMurmurDistinct PropsLong PropsFlood PropsCrowd.
From Verif Require Import SpecMurmur ProofMurmur SpecXxh ProofXxh.
From Verif Require PropsReveal.
Open Scope N_scope.

(* the program ends on a boundary of blocks of B bytes: since the last result() (or the construction, if there was none) a multiple
   of B bytes was fed *)
Definition at_block (B : nat) (xs : list ustep) : Prop :=
  exists cs, (length (fed cs) mod B = 0)%nat /\ (xs = updates cs \/ exists xs0, xs = xs0 ++ [SResult] ++ updates cs).

Section Blocks.
Context {St R : Type} (ar : ast St -> R * ast St) (out : R -> result) (start : ctor -> ast St) (step : St -> list N -> St) (B : nat) (P : St -> Prop).
Hypothesis HB : (0 < B)%nat.
Hypothesis Hnil : forall a, P (fst (fst a)) -> exists st k, snd (ar a) = (st, k, []) /\ P st.
Hypothesis Hdep : forall st k l1 l2, length l1 = length l2 -> fold_left step (chunks B l1) st = fold_left step (chunks B l2) st ->
  rest B l1 = rest B l2 -> ar (st, k, l1) = ar (st, k, l2).
Notation AR := (fun a => (out (fst (ar a)), snd (ar a))).
Notation ASTEPS i f := (asteps ab_au AR result64 (call_message i f)).
Notation APRUN i f := (aprun ab_au AR result64 (call_message i f)).
Lemma updates_pending i f cs : forall a, ASTEPS i f a (updates cs) = ab_au a (fed cs).
Proof using Type.
  induction cs as [|[p n] cs IH]; intros [[st k] l]; cbn [updates map asteps]; [unfold ab_au; cbn; now rewrite app_nil_r|].
  change (map (fun x => SUpdate (fst x) (snd x)) cs) with (updates cs). rewrite IH. unfold ab_au. cbn [fst snd]. unfold fed. cbn [map concat fst snd]. now rewrite app_assoc.
Qed.
Lemma inv_kept i f xs : forall a, P (fst (fst a)) -> P (fst (fst (ASTEPS i f a xs))).
Proof using Hnil.
  induction xs as [|[p n| |k] xs IH]; intros a HP; cbn [asteps]; [exact HP| | |]; apply IH.
  - destruct a as [[st k] l]. exact HP.
  - cbn [snd]. destruct (Hnil a HP) as (st & k & -> & HS). exact HS.
  - destruct a as [[st k'] l]. exact HP.
Qed.
Lemma block_state i f c xs : (exists st k, start c = (st, k, []) /\ P st) -> at_block B xs ->
  exists st k n l, ASTEPS i f (start c) xs = (st, k, l) /\ P st /\ length l = (n * B)%nat.
Proof using HB Hnil.
  intros (st & k & E & HS) (cs & HL & HX). assert (L : exists n, length (fed cs) = (n * B)%nat).
  { exists (length (fed cs) / B)%nat. rewrite (Nat.div_mod (length (fed cs)) B) at 1 by (clear - HB; lia). rewrite HL, Nat.add_0_r. apply Nat.mul_comm. }
  destruct L as (n & L). rewrite E. destruct HX as [-> | (xs0 & ->)].
  - rewrite updates_pending. exists st, k, n, (fed cs). split; [reflexivity|]. split; assumption.
  - rewrite !asteps_app. cbn [asteps]. rewrite updates_pending.
    destruct (Hnil (ASTEPS i f (st, k, []) xs0)) as (st' & k' & -> & HS'); [now apply inv_kept|].
    exists st', k', n, (fed cs). split; [reflexivity|]. split; assumption.
Qed.
(* states that differ in pending bytes of the same length and effect *)
Definition pending_alike (a b : ast St) : Prop :=
  exists st k l1 l2, a = (st, k, l1) /\ b = (st, k, l2) /\ length l1 = length l2 /\
  forall t, fold_left step (chunks B (l1 ++ t)) st = fold_left step (chunks B (l2 ++ t)) st /\ rest B (l1 ++ t) = rest B (l2 ++ t).
Lemma alike_runs i f xs a b : pending_alike a b -> APRUN i f a xs = APRUN i f b xs.
Proof using Hdep.
  apply PropsReveal.aprun_sim with (Rel := pending_alike).
  - intros x y d (st & k & l1 & l2 & -> & -> & HL & H). exists st, k, (l1 ++ d), (l2 ++ d). split; [reflexivity|]. split; [reflexivity|].
    split; [rewrite !app_length; now rewrite HL|]. intros t. rewrite <- !app_assoc. apply H.
  - intros x y (st & k & l1 & l2 & -> & -> & HL & H). specialize (H []). rewrite !app_nil_r in H.
    rewrite (Hdep st k l1 l2 HL (proj1 H) (proj2 H)). split; [reflexivity|]. cbn [snd].
    destruct (snd (ar (st, k, l2))) as [[s' k'] l']. exists s', k', l', l'. repeat split.
Qed.
Lemma fold_blocks n l t st : length l = (n * B)%nat -> fold_left step (chunks B (l ++ t)) st = fold_left step (chunks B t) (fold_left step (chunks B l) st).
Proof using HB. intros HL. now rewrite (chunks_app_mult B HB n l t HL), fold_left_app. Qed.
Lemma blocks_alike st k l m1 m2 n q : length l = (n * B)%nat -> length m1 = (q * B)%nat -> length m2 = (q * B)%nat ->
  fold_left step (chunks B m1) (fold_left step (chunks B l) st) = fold_left step (chunks B m2) (fold_left step (chunks B l) st) ->
  pending_alike (st, k, l ++ m1) (st, k, l ++ m2).
Proof using HB.
  intros HL H1 H2 E. exists st, k, (l ++ m1), (l ++ m2). split; [reflexivity|]. split; [reflexivity|].
  split; [rewrite !app_length; congruence|]. intros t. rewrite <- !app_assoc. split.
  - rewrite !(fold_blocks n l) by exact HL. rewrite (fold_blocks q m1), (fold_blocks q m2) by assumption. now rewrite E.
  - rewrite !(rest_mult_app B HB n l) by exact HL. now rewrite (rest_mult_app B HB q m1), (rest_mult_app B HB q m2) by assumption.
Qed.
Lemma blocks_same i f c xs m1 m2 ys st k l n q : ASTEPS i f (start c) xs = (st, k, l) -> length l = (n * B)%nat ->
  length m1 = (q * B)%nat -> length m2 = (q * B)%nat ->
  fold_left step (chunks B m1) (fold_left step (chunks B l) st) = fold_left step (chunks B m2) (fold_left step (chunks B l) st) ->
  APRUN i f (start c) (xs ++ [feed m1] ++ ys) = APRUN i f (start c) (xs ++ [feed m2] ++ ys).
Proof using HB Hdep.
  intros ES HL H1 H2 E. rewrite !aprun_app, !ES. apply f_equal. unfold feed. cbn [app aprun]. apply alike_runs. cbn [asteps]. unfold data. rewrite !firstn_all. cbn [ab_au].
  now apply (blocks_alike st k l m1 m2 n q).
Qed.
End Blocks.

(* ---------- the four algorithms ---------- *)
Lemma steps_around e a c xs m ys : valid_program e a c (xs ++ ys) -> bytes m -> valid_program e a c (xs ++ [feed m] ++ ys).
Proof.
  intros [HC HV] HM. split; [exact HC|]. apply Forall_app in HV. destruct HV as [H1 H2]. apply Forall_app. split; [exact H1|].
  constructor; [|exact H2]. cbn. split; [apply le_n|exact HM].
Qed.
Lemma runs_alike e a f c xs m1 m2 ys : valid_env e -> a <> Aspooky -> valid_program e a c (xs ++ ys) -> bytes m1 -> bytes m2 ->
  expected e a f c (xs ++ [feed m1] ++ ys) = expected e a f c (xs ++ [feed m2] ++ ys) ->
  exists rs, runs e a f c (xs ++ [feed m1] ++ ys) = Ok rs /\ runs e a f c (xs ++ [feed m2] ++ ys) = Ok rs.
Proof.
  intros HE HA HV B1 B2 E. exists (expected e a f c (xs ++ [feed m1] ++ ys)). split.
  - apply runs_expected; [exact HE|now apply steps_around|now apply room_any].
  - rewrite E. apply runs_expected; [exact HE|now apply steps_around|now apply room_any].
Qed.
Lemma mur32_nil cw a : fst (fst a) < 2^32 -> exists st k, snd (mur32_ar cw a) = (st, k, []) /\ st < 2^32.
Proof.
  destruct a as [[st k] l]. cbn [fst]. intros H. unfold mur32_ar. cbv zeta. cbn [snd]. do 2 eexists. split; [reflexivity|].
  revert st H. induction (chunks 4 l) as [|d ds IH]; intros st H; [exact H|]. cbn [fold_left]. apply IH, ADD_lt'.
Qed.
Lemma mur128_nil cw a : l2 (fst (fst a)) -> exists st k, snd (mur128_ar cw a) = (st, k, []) /\ l2 st.
Proof.
  destruct a as [[st k] l]. cbn [fst]. intros H. unfold mur128_ar. cbv zeta. cbn [snd]. do 2 eexists. split; [reflexivity|].
  revert st H. induction (chunks 16 l) as [|d ds IH]; intros st H; [exact H|]. cbn [fold_left]. apply IH, Mur128_block_lt.
Qed.
Lemma mur32_dep cw st k l1 l2 : length l1 = length l2 -> fold_left Mur32_block (chunks 4 l1) st = fold_left Mur32_block (chunks 4 l2) st ->
  rest 4 l1 = rest 4 l2 -> mur32_ar cw (st, k, l1) = mur32_ar cw (st, k, l2).
Proof. intros HL HF HR. unfold mur32_ar. cbv zeta. now rewrite HL, HF, HR. Qed.
Lemma mur128_dep cw st k l1 l2 : length l1 = length l2 -> fold_left Mur128_block (chunks 16 l1) st = fold_left Mur128_block (chunks 16 l2) st ->
  rest 16 l1 = rest 16 l2 -> mur128_ar cw (st, k, l1) = mur128_ar cw (st, k, l2).
Proof. intros HL HF HR. unfold mur128_ar. cbv zeta. now rewrite HL, HF, HR. Qed.
Lemma flood_bytes blk bs : (forall b, bytes (blk b)) -> bytes (flood blk bs).
Proof. intros H. unfold flood. induction bs as [|b bs IH]; [constructor|]. cbn [map concat]. apply bytes_app. now split. Qed.

(* murmur3: after any history on a block boundary, the 2^n messages (the same for all seeds and histories) have the same effect *)
Theorem C54_murmur32_anywhere e f c xs bs1 bs2 ys : valid_env e -> valid_program e Amur32 c (xs ++ ys) -> at_block 4 xs -> length bs1 = length bs2 ->
  exists rs, runs e Amur32 f c (xs ++ [feed (flood flood32 bs1)] ++ ys) = Ok rs /\ runs e Amur32 f c (xs ++ [feed (flood flood32 bs2)] ++ ys) = Ok rs.
Proof.
  intros HE HV HX HL. assert (FB : forall b, bytes (flood32 b)) by (intros []; repeat constructor).
  apply runs_alike; try assumption; try discriminate; try (now apply flood_bytes).
  destruct (mur32_start_lt (e_cw e) c (proj1 HV)) as (st0 & k0 & E0 & L0).
  destruct (block_state (mur32_ar (e_cw e)) (RInt I32) (mur32_start (e_cw e)) 4 (fun s => s < 2^32) ltac:(lia) (mur32_nil (e_cw e)) (e_impl e) f c xs)
    as (st & k & n & l & ES & HS & HN); [now exists st0, k0|exact HX|].
  apply (blocks_same (mur32_ar (e_cw e)) (RInt I32) (mur32_start (e_cw e)) Mur32_block 4 ltac:(lia) (mur32_dep (e_cw e)) (e_impl e) f c xs _ _ ys st k l n (length bs1 * 2)%nat).
  - exact ES.
  - exact HN.
  - rewrite (flood_length flood32 _ flood32_len). lia.
  - rewrite (flood_length flood32 _ flood32_len). lia.
  - pose proof (flood_state (fun s => s < 2^32) Mur32_block flood32 4 2 ltac:(lia) flood32_len ltac:(intros; apply ADD_lt') flood32_block [] bs1 bs2 (fold_left Mur32_block (chunks 4 l) st) HL) as X.
    rewrite !app_nil_r in X. apply X. clear - HS. revert st HS. induction (chunks 4 l) as [|d ds IH]; intros st H; [exact H|]. cbn [fold_left]. apply IH, ADD_lt'.
Qed.
Theorem C54_murmur128_anywhere e f c xs bs1 bs2 ys : valid_env e -> valid_program e Amur128 c (xs ++ ys) -> at_block 16 xs -> length bs1 = length bs2 ->
  exists rs, runs e Amur128 f c (xs ++ [feed (flood flood128 bs1)] ++ ys) = Ok rs /\ runs e Amur128 f c (xs ++ [feed (flood flood128 bs2)] ++ ys) = Ok rs.
Proof.
  intros HE HV HX HL. assert (FB : forall b, bytes (flood128 b)) by (intros []; repeat constructor).
  apply runs_alike; try assumption; try discriminate; try (now apply flood_bytes).
  destruct (mur128_start_lt (e_cw e) c (proj1 HV)) as (st0 & k0 & E0 & L0).
  destruct (block_state (mur128_ar (e_cw e)) RDigest (mur128_start (e_cw e)) 16 l2 ltac:(lia) (mur128_nil (e_cw e)) (e_impl e) f c xs)
    as (st & k & n & l & ES & HS & HN); [now exists st0, k0|exact HX|].
  apply (blocks_same (mur128_ar (e_cw e)) RDigest (mur128_start (e_cw e)) Mur128_block 16 ltac:(lia) (mur128_dep (e_cw e)) (e_impl e) f c xs _ _ ys st k l n (length bs1 * 2)%nat).
  - exact ES.
  - exact HN.
  - rewrite (flood_length flood128 _ flood128_len). lia.
  - rewrite (flood_length flood128 _ flood128_len). lia.
  - pose proof (flood_state l2 Mur128_block flood128 16 2 ltac:(lia) flood128_len ltac:(intros; apply Mur128_block_lt) flood128_block [] bs1 bs2 (fold_left Mur128_block (chunks 16 l) st) HL) as X.
    rewrite !app_nil_r in X. apply X. clear - HS. revert st HS. induction (chunks 16 l) as [|d ds IH]; intros st H; [exact H|]. cbn [fold_left]. apply IH, Mur128_block_lt.
Qed.

(* xxHash: for any history on a stripe boundary, 2^n of the 3^n messages have the same effect *)
Lemma xx64_nil cw a : True -> exists st k, snd (xx64_ar cw a) = (st, k, []) /\ True.
Proof. destruct a as [[st k] l]. intros _. unfold xx64_ar. cbv zeta. destruct (fold_left _ _ _) as [[[v1 v2] v3] v4]. cbn [snd]. do 2 eexists. split; reflexivity || exact I. Qed.
Lemma xx32_nil cw a : True -> exists st k, snd (xx32_ar cw a) = (st, k, []) /\ True.
Proof. destruct a as [[st k] l]. intros _. unfold xx32_ar. cbv zeta. destruct (fold_left _ _ _) as [[[v1 v2] v3] v4]. cbn [snd]. do 2 eexists. split; reflexivity || exact I. Qed.
Lemma xx64_dep cw st k l1 l2 : length l1 = length l2 -> fold_left XXH64_stripe (chunks 32 l1) st = fold_left XXH64_stripe (chunks 32 l2) st ->
  rest 32 l1 = rest 32 l2 -> xx64_ar cw (st, k, l1) = xx64_ar cw (st, k, l2).
Proof. intros HL HF HR. unfold xx64_ar. cbv zeta. now rewrite HL, HF, HR. Qed.
Lemma xx32_dep cw st k l1 l2 : length l1 = length l2 -> fold_left XXH32_stripe (chunks 16 l1) st = fold_left XXH32_stripe (chunks 16 l2) st ->
  rest 16 l1 = rest 16 l2 -> xx32_ar cw (st, k, l1) = xx32_ar cw (st, k, l2).
Proof. intros HL HF HR. unfold xx32_ar. cbv zeta. now rewrite HL, HF, HR. Qed.
Theorem C57_xxh64_anywhere e f c xs n : valid_env e -> valid_program e Axx64 c xs -> at_block 32 xs ->
  exists s, length s = n /\ Forall (fun x => x <> A) s /\ forall bs1 bs2 ys, length bs1 = n -> length bs2 = n -> valid_program e Axx64 c (xs ++ ys) ->
  exists rs, runs e Axx64 f c (xs ++ [feed (crowd crowd64 (pick s bs1))] ++ ys) = Ok rs /\ runs e Axx64 f c (xs ++ [feed (crowd crowd64 (pick s bs2))] ++ ys) = Ok rs.
Proof.
  intros HE HV HX. destruct (xx64_start_nil (2^64) c) as (st0 & k0 & E0).
  destruct (block_state (xx64_ar (2^64)) (RInt I64) (xx64_start (2^64)) 32 (fun _ => True) ltac:(lia) (xx64_nil (2^64)) (e_impl e) f c xs)
    as (st & k & q & l & ES & _ & HN); [now exists st0, k0|exact HX|].
  destruct (chosen block64 block64_cross n (fold_left XXH64_stripe (chunks 32 l) st)) as (s & LS & FS & HS).
  exists s. split; [exact LS|]. split; [exact FS|]. intros bs1 bs2 ys L1 L2 HV'.
  apply runs_alike; try assumption; try discriminate; try apply crowd64_bytes.
  apply (blocks_same (xx64_ar (2^64)) (RInt I64) (xx64_start (2^64)) XXH64_stripe 32 ltac:(lia) (xx64_dep (2^64)) (e_impl e) f c xs _ _ ys st k l q (n * 2)%nat).
  - exact ES.
  - exact HN.
  - rewrite (crowd_length crowd64 _ crowd64_len), pick_length; lia.
  - rewrite (crowd_length crowd64 _ crowd64_len), pick_length; lia.
  - pose proof (fun bs => crowd_fold XXH64_stripe crowd64 32 2 ltac:(lia) crowd64_len [] (pick s bs) (fold_left XXH64_stripe (chunks 32 l) st)) as X.
    change (fun v x => fold_left XXH64_stripe (chunks 32 (crowd64 x)) v) with block64 in X.
    pose proof (X bs1) as X1. pose proof (X bs2) as X2. rewrite app_nil_r in X1, X2. rewrite X1, X2. rewrite (HS bs1 L1), (HS bs2 L2). reflexivity.
Qed.
Theorem C57_xxh32_anywhere e f c xs n : valid_env e -> valid_program e Axx32 c xs -> at_block 16 xs ->
  exists s, length s = n /\ Forall (fun x => x <> A) s /\ forall bs1 bs2 ys, length bs1 = n -> length bs2 = n -> valid_program e Axx32 c (xs ++ ys) ->
  exists rs, runs e Axx32 f c (xs ++ [feed (crowd crowd32 (pick s bs1))] ++ ys) = Ok rs /\ runs e Axx32 f c (xs ++ [feed (crowd crowd32 (pick s bs2))] ++ ys) = Ok rs.
Proof.
  intros HE HV HX. destruct (xx32_start_lt (e_cw e) c (proj1 HV)) as (st0 & k0 & E0 & _).
  destruct (block_state (xx32_ar (e_cw e)) (RInt I32) (xx32_start (e_cw e)) 16 (fun _ => True) ltac:(lia) (xx32_nil (e_cw e)) (e_impl e) f c xs)
    as (st & k & q & l & ES & _ & HN); [now exists st0, (N.of_nat k0)|exact HX|].
  destruct (chosen block32 block32_cross n (fold_left XXH32_stripe (chunks 16 l) st)) as (s & LS & FS & HS).
  exists s. split; [exact LS|]. split; [exact FS|]. intros bs1 bs2 ys L1 L2 HV'.
  apply runs_alike; try assumption; try discriminate; try apply crowd32_bytes.
  apply (blocks_same (xx32_ar (e_cw e)) (RInt I32) (xx32_start (e_cw e)) XXH32_stripe 16 ltac:(lia) (xx32_dep (e_cw e)) (e_impl e) f c xs _ _ ys st k l q (n * 2)%nat).
  - exact ES.
  - exact HN.
  - rewrite (crowd_length crowd32 _ crowd32_len), pick_length; lia.
  - rewrite (crowd_length crowd32 _ crowd32_len), pick_length; lia.
  - pose proof (fun bs => crowd_fold XXH32_stripe crowd32 16 2 ltac:(lia) crowd32_len [] (pick s bs) (fold_left XXH32_stripe (chunks 16 l) st)) as X.
    change (fun v x => fold_left XXH32_stripe (chunks 16 (crowd32 x)) v) with block32 in X.
    pose proof (X bs1) as X1. pose proof (X bs2) as X2. rewrite app_nil_r in X1, X2. rewrite X1, X2. rewrite (HS bs1 L1), (HS bs2 L2). reflexivity.
Qed.
(* a history of values, updates and results, then 4 * 32 bytes; 2^3 messages *)
Definition history : list ustep := sample ++ [SResult] ++ updates [(Ptr (repeat 7 100), 100%nat); (Ptr (repeat 9 28), 28%nat)].
Lemma history_block B : In B [4%nat; 16%nat; 32%nat] -> at_block B history.
Proof.
  intros HB. exists [(Ptr (repeat 7 100), 100%nat); (Ptr (repeat 9 28), 28%nat)]. split; [|right; now exists sample].
  destruct HB as [<- | [<- | [<- | []]]]; reflexivity.
Qed.
Lemma history_valid a ys : steps_ok ys -> valid_program env_pc a (CSeed 7) (history ++ ys).
Proof.
  intros HY. unfold history. rewrite <- app_assoc. apply (steps_valid env_pc); [reflexivity|reflexivity|]. apply Forall_app. split; [exact sample_ok|]. cbn [app updates map fst snd].
  constructor; [exact I|]. constructor; [split; [cbn; lia|repeat constructor]|]. constructor; [split; [cbn; lia|repeat constructor]|]. exact HY.
Qed.
Definition future : list ustep := [SResult; SAppend (TVec (TInt I16 true)) (VList [VInt (-2); VInt 3]); SResult; SResult].
Lemma future_ok : steps_ok future.
Proof. unfold future, steps_ok. ok. Qed.
Example C54_murmur32_anywhere_ex : exists rs,
  runs env_pc Amur32 le_flavor (CSeed 7) (history ++ [feed (flood flood32 [true; false; true])] ++ future) = Ok rs /\
  runs env_pc Amur32 le_flavor (CSeed 7) (history ++ [feed (flood flood32 [false; true; true])] ++ future) = Ok rs.
Proof. apply C54_murmur32_anywhere; [exact env_pc_valid|apply history_valid, future_ok|apply history_block; cbn; tauto|reflexivity]. Qed.
Example C54_murmur128_anywhere_ex : exists rs,
  runs env_pc Amur128 le_flavor (CSeed 7) (history ++ [feed (flood flood128 [true; false; true])] ++ future) = Ok rs /\
  runs env_pc Amur128 le_flavor (CSeed 7) (history ++ [feed (flood flood128 [false; true; true])] ++ future) = Ok rs.
Proof. apply C54_murmur128_anywhere; [exact env_pc_valid|apply history_valid, future_ok|apply history_block; cbn; tauto|reflexivity]. Qed.
Example C57_xxh64_anywhere_ex : exists s, length s = 2%nat /\ Forall (fun x => x <> A) s /\ exists rs,
  runs env_pc Axx64 le_flavor (CSeed 7) (history ++ [feed (crowd crowd64 (pick s [true; false]))] ++ future) = Ok rs /\
  runs env_pc Axx64 le_flavor (CSeed 7) (history ++ [feed (crowd crowd64 (pick s [false; true]))] ++ future) = Ok rs.
Proof.
  destruct (C57_xxh64_anywhere env_pc le_flavor (CSeed 7) history 2 env_pc_valid) as (s & L & F & H).
  - rewrite <- (app_nil_r history). apply history_valid. constructor.
  - apply history_block. cbn. tauto.
  - exists s. split; [exact L|]. split; [exact F|]. apply H; [reflexivity|reflexivity|apply history_valid, future_ok].
Qed.
Example C57_xxh32_anywhere_ex : exists s, length s = 2%nat /\ Forall (fun x => x <> A) s /\ exists rs,
  runs env_pc Axx32 le_flavor (CSeed 7) (history ++ [feed (crowd crowd32 (pick s [true; false]))] ++ future) = Ok rs /\
  runs env_pc Axx32 le_flavor (CSeed 7) (history ++ [feed (crowd crowd32 (pick s [false; true]))] ++ future) = Ok rs.
Proof.
  destruct (C57_xxh32_anywhere env_pc le_flavor (CSeed 7) history 2 env_pc_valid) as (s & L & F & H).
  - rewrite <- (app_nil_r history). apply history_valid. constructor.
  - apply history_block. cbn. tauto.
  - exists s. split; [exact L|]. split; [exact F|]. apply H; [reflexivity|reflexivity|apply history_valid, future_ok].
Qed.

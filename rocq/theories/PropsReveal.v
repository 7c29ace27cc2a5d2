(* C60: for the fast hashes one hash value determines what the seed contributes: seeds that agree on one message agree on
   all of them. *)
From Verif Require Import Base BaseFacts SpecCommon Gen Bits GenMD Hasher GenBlk Types ModelResult ModelAppend SpecAppend ProofMsg ProofMsgEq
  Behaves Instances ProofRuns Samples PropsHistory PropsAlg PropsAppend PropsSeeds PropsPrims PropsResults ProofLocal PropsLocal PropsLocal64 ProofMurmurDistinct.
From Verif Require Import PropsLong ProofSpooky SpecFnv ProofFnv SpecMurmur ProofMurmur SpecXxh ProofXxh.
Open Scope N_scope.

(* the seeds c1 and c2 have the same hash of every message, with any history and any values *)
Definition interchangeable (e : env) (a : alg) (f : flavor) (c1 c2 : ctor) : Prop :=
  forall xs, valid_program e a c1 xs -> runs e a f c1 xs = runs e a f c2 xs.
(* an integer, or the default *)
Definition integer (c : ctor) : Prop := match c with CBytes _ _ => False | _ => True end.
(* both integers, or byte sequences of the same length *)
Definition same_form (c1 c2 : ctor) : Prop :=
  match c1, c2 with
  | CBytes _ n1, CBytes _ n2 => n1 = n2
  | CBytes _ _, _ | _, CBytes _ _ => False
  | _, _ => True
  end.

(* ---------- machines in related states ---------- *)
Lemma call_message_ext i f k q1 q2 : qeq q1 q2 -> call_message i f k q1 = call_message i f k q2.
Proof. intros H. unfold call_message. now apply call_msg_ext. Qed.
Lemma aprun_sim {A R} (au : A -> list N -> A) (ar : A -> R * A) g i f (Rel : A -> A -> Prop) :
  (forall a b d, Rel a b -> Rel (au a d) (au b d)) -> (forall a b, Rel a b -> fst (ar a) = fst (ar b) /\ Rel (snd (ar a)) (snd (ar b))) ->
  forall xs a b, Rel a b -> aprun au ar g (call_message i f) a xs = aprun au ar g (call_message i f) b xs.
Proof.
  intros HU HR. induction xs as [|[p n| |k] xs IH]; intros a b HL; cbn [aprun]; [reflexivity| | |].
  - now apply IH, HU.
  - destruct (HR _ _ HL) as [E1 E2]. rewrite E1. f_equal. now apply IH.
  - rewrite (call_message_ext i f k (aq au ar g a) (aq au ar g b)).
    + now apply IH, HU.
    + intros m. unfold aq. now rewrite (proj1 (HR _ _ (HU _ _ m HL))).
Qed.
Lemma valid_other e a c1 c2 xs : valid_ctor c2 -> valid_program e a c1 xs -> valid_program e a c2 xs.
Proof. intros H [_ HX]. split; assumption. Qed.
Lemma same_start e a f c1 c2 : valid_env e -> valid_ctor c2 -> a <> Aspooky -> mc_start (machine_of (e_cw e) a) c1 = mc_start (machine_of (e_cw e) a) c2 ->
  interchangeable e a f c1 c2.
Proof.
  intros HE H2 HA HS xs HV. rewrite !runs_expected; try assumption; try (now apply room_any); [|now apply (valid_other e a c1)].
  unfold expected. now rewrite HS.
Qed.

(* ---------- fnv1a ---------- *)
Lemma fnv_states F inv : (fnv_prime F * inv) mod 2 ^ fnv_w F = 1 mod 2 ^ fnv_w F -> 8 <= fnv_w F ->
  forall l s1 s2, bytes l -> s1 < 2 ^ fnv_w F -> s2 < 2 ^ fnv_w F -> FNV1a_from F s1 l = FNV1a_from F s2 l -> s1 = s2.
Proof.
  intros HI HW. induction l as [|b l IH]; intros s1 s2 Hl L1 L2 E; [exact E|]. inversion Hl as [|? ? Hb Hl']; subst. cbn [FNV1a_from fold_left] in E.
  apply IH in E; [|exact Hl'|apply MUL_lt'|apply MUL_lt'].
  unfold FNV1a_octet in E. pose proof (byte_lt _ _ HW Hb). apply (mul_inj _ _ inv) in E; [|exact HI|apply lxor_lt; assumption|apply lxor_lt; assumption].
  now apply lxor_inj_r in E.
Qed.
Lemma FNV1a_lt F l : fnv_basis F < 2 ^ fnv_w F -> FNV1a F l < 2 ^ fnv_w F.
Proof.
  unfold FNV1a, FNV1a_from. generalize (fnv_basis F). induction l as [|b l IH]; intros s Hs; [exact Hs|]. cbn [fold_left]. apply IH, MUL_lt'.
Qed.
Lemma fnv_reveal F s i f l1 l2 xs : FNV1a F l1 = FNV1a F l2 ->
  aprun (mc_au (fnv_machine F s)) (mc_ar (fnv_machine F s)) result64 (call_message i f) l1 xs =
  aprun (mc_au (fnv_machine F s)) (mc_ar (fnv_machine F s)) result64 (call_message i f) l2 xs.
Proof.
  intros H. apply (aprun_sim _ _ _ i f (fun a b : list N => FNV1a F a = FNV1a F b)); [| |exact H].
  - intros a b d E. cbn [fnv_machine mc_au]. rewrite <- !fnv_app. now rewrite E.
  - intros a b E. cbn [fnv_machine mc_ar fst snd]. split; [now rewrite E|]. unfold fnv_pad. rewrite <- !fnv_app. now rewrite E.
Qed.
Lemma fnv_reveals e a F s inv f c1 c2 cs : machine_of (e_cw e) a = fnv_machine F s -> a <> Aspooky ->
  (fnv_prime F * inv) mod 2 ^ fnv_w F = 1 mod 2 ^ fnv_w F -> 8 <= fnv_w F -> fnv_basis F < 2 ^ fnv_w F ->
  valid_env e -> valid_ctor c1 -> valid_ctor c2 -> valid_pieces a cs ->
  runs e a f c1 (hash_pieces cs) = runs e a f c2 (hash_pieces cs) -> interchangeable e a f c1 c2.
Proof.
  intros HM HA HI HW HB HE H1 H2 HV E. rewrite !first_result', HM in E by assumption. cbn [fnv_machine mc_au mc_ar mc_start fst] in E.
  assert (Q : forall x y, Ok [RInt s x] = Ok [RInt s y] -> x = y) by (intros x y X; now injection X). apply Q in E. clear Q.
  rewrite <- !fnv_app in E. apply (fnv_states F inv HI HW) in E; [|now apply (pieces_bytes a)|now apply FNV1a_lt|now apply FNV1a_lt].
  intros xs HX. rewrite !runs_expected; try assumption; try (now apply room_any); [|now apply (valid_other e a c1)].
  apply (f_equal Ok). unfold expected. rewrite HM. now apply fnv_reveal.
Qed.
Theorem C60_fnv32 e f c1 c2 cs : valid_env e -> valid_ctor c1 -> valid_ctor c2 -> valid_pieces Afnv32 cs ->
  runs e Afnv32 f c1 (hash_pieces cs) = runs e Afnv32 f c2 (hash_pieces cs) -> interchangeable e Afnv32 f c1 c2.
Proof. now apply (fnv_reveals e Afnv32 FNV32 I32 0x359c449b). Qed.
Theorem C60_fnv64 e f c1 c2 cs : valid_env e -> valid_ctor c1 -> valid_ctor c2 -> valid_pieces Afnv64 cs ->
  runs e Afnv64 f c1 (hash_pieces cs) = runs e Afnv64 f c2 (hash_pieces cs) -> interchangeable e Afnv64 f c1 c2.
Proof. now apply (fnv_reveals e Afnv64 FNV64 I64 0xce965057aff6957b). Qed.

(* ---------- murmur3 ---------- *)
Lemma mur32_count cw c1 c2 : valid_ctor c1 -> valid_ctor c2 -> same_form c1 c2 -> snd (fst (mur32_start cw c1)) = snd (fst (mur32_start cw c2)).
Proof.
  destruct c1 as [|n1|p1 n1], c2 as [|n2|p2 n2]; cbn [same_form mur32_start valid_ctor]; intros V1 V2 H; try contradiction; try reflexivity. subst n2.
  destruct (Nat.leb n1 4); [reflexivity|]. unfold mur32_ar. cbn [snd fst]. rewrite !skipn_length. rewrite (proj2 (valid_data _ _ _ V1)), (proj2 (valid_data _ _ _ V2)). reflexivity.
Qed.
Lemma mur128_count cw c1 c2 : valid_ctor c1 -> valid_ctor c2 -> same_form c1 c2 -> snd (fst (mur128_start cw c1)) = snd (fst (mur128_start cw c2)).
Proof.
  destruct c1 as [|n1|p1 n1], c2 as [|n2|p2 n2]; cbn [same_form mur128_start valid_ctor]; intros V1 V2 H; try contradiction; try reflexivity. subst n2.
  destruct (Nat.leb n1 8); [reflexivity|]. destruct (Nat.leb n1 16); [reflexivity|].
  unfold mur128_ar. cbn [snd fst]. rewrite !skipn_length. rewrite (proj2 (valid_data _ _ _ V1)), (proj2 (valid_data _ _ _ V2)). reflexivity.
Qed.
Lemma mur32_states n m s1 s2 : s1 < 2^32 -> s2 < 2^32 -> bytes m ->
  Mur32_final (fold_left Mur32_block (chunks 4 m) s1) n (rest 4 m) = Mur32_final (fold_left Mur32_block (chunks 4 m) s2) n (rest 4 m) -> s1 = s2.
Proof.
  intros L1 L2 Hm E. destruct (N.eq_dec s1 s2) as [|HN]; [assumption|]. exfalso. revert E.
  apply (detect_states 4 0 0 ltac:(lia) ltac:(lia) True (fun s => s < 2^32) (fun s1 s2 => s1 <> s2) Mur32_block (fun s t => Mur32_final s n t)) with (n := length m); try assumption; try lia;
    try (intros; match goal with H : differ_at 0 0 _ _ |- _ => destruct H as (_ & HD & _ & ED); exfalso; exact (HD ED) end).
  - intros x b _ _. apply ADD_lt'.
  - intros x y b P1 P2 HX Hb Hl E. apply Mur32_block_inj in E; [|assumption|assumption]. now apply lxor_inj_r in E.
  - intros x y b P1 P2 HX Hb Hl E. apply Mur32_final_inj in E; [|assumption|assumption]. now apply lxor_inj_r in E.
Qed.
Lemma mur128_states n m s1 s2 : l2 s1 -> l2 s2 -> n < 2^64 -> bytes m ->
  Mur128_final (fold_left Mur128_block (chunks 16 m) s1) n (rest 16 m) = Mur128_final (fold_left Mur128_block (chunks 16 m) s2) n (rest 16 m) -> s1 = s2.
Proof.
  intros L1 L2 Hn Hm E. assert (D : {s1 = s2} + {s1 <> s2}) by (decide equality; apply N.eq_dec). destruct D as [|HN]; [assumption|]. exfalso. revert E.
  apply (detect_states 16 0 0 ltac:(lia) ltac:(lia) True l2 (fun s1 s2 => s1 <> s2) Mur128_block (fun s t => Mur128_final s n t)) with (n := length m); try assumption; try lia;
    try (intros; match goal with H : differ_at 0 0 _ _ |- _ => destruct H as (_ & HD & _ & ED); exfalso; exact (HD ED) end).
  - intros x b _ _. apply Mur128_block_lt.
  - intros x y b P1 P2 HX Hb Hl E. apply Mur128_block_inj in E; [|assumption|assumption]. destruct E as [E1 E2]. unfold in128 in E1. cbn [snd] in E1.
    apply lxor_inj_r in E1. specialize (E2 E1). now apply in128_state in E2.
  - intros x y b P1 P2 HX Hb Hl E. apply Mur128_final_inj in E; [|assumption|assumption|assumption]. now apply in128_state in E.
Qed.
Theorem C60_murmur32 e f c1 c2 cs : valid_env e -> valid_ctor c1 -> valid_ctor c2 -> same_form c1 c2 -> valid_pieces Amur32 cs ->
  runs e Amur32 f c1 (hash_pieces cs) = runs e Amur32 f c2 (hash_pieces cs) -> interchangeable e Amur32 f c1 c2.
Proof.
  intros HE H1 H2 HF HV E. rewrite !first_result' in E by (assumption || discriminate). cbn [machine_of blk_machine mc_start mc_ar mc_au] in E.
  apply same_start; try assumption; [discriminate|]. cbn [machine_of blk_machine mc_start].
  pose proof (mur32_count (e_cw e) c1 c2 H1 H2 HF) as HC.
  destruct (mur32_start_lt (e_cw e) c1 H1) as (st1 & k1 & E1 & L1). destruct (mur32_start_lt (e_cw e) c2 H2) as (st2 & k2 & E2 & L2). rewrite E1, E2 in *. cbn [fst snd] in HC. subst k2.
  unfold ab_au, mur32_ar in E. cbn [fst app] in E. assert (Q : forall x y, Ok [RInt I32 x] = Ok [RInt I32 y] -> x = y) by (intros x y X; now injection X). apply Q in E. clear Q.
  apply mur32_states in E; [now rewrite E|assumption|assumption|now apply (pieces_bytes Amur32)].
Qed.
Theorem C60_murmur128 e f c1 c2 cs : valid_env e -> valid_ctor c1 -> valid_ctor c2 -> same_form c1 c2 -> valid_pieces Amur128 cs ->
  runs e Amur128 f c1 (hash_pieces cs) = runs e Amur128 f c2 (hash_pieces cs) -> interchangeable e Amur128 f c1 c2.
Proof.
  intros HE H1 H2 HF HV E. rewrite !first_result' in E by (assumption || discriminate). cbn [machine_of blk_machine mc_start mc_ar mc_au] in E.
  apply same_start; try assumption; [discriminate|]. cbn [machine_of blk_machine mc_start].
  pose proof (mur128_count (e_cw e) c1 c2 H1 H2 HF) as HC.
  destruct (mur128_start_lt (e_cw e) c1 H1) as (st1 & k1 & E1 & L1). destruct (mur128_start_lt (e_cw e) c2 H2) as (st2 & k2 & E2 & L2). rewrite E1, E2 in *. cbn [fst snd] in HC. subst k2.
  unfold ab_au, mur128_ar in E. cbn [fst app] in E. assert (Q : forall x y, Ok [RDigest x] = Ok [RDigest y] -> x = y) by (intros x y X; now injection X). apply Q in E. clear Q.
  apply mur128_states in E; [now rewrite E|assumption|assumption| |now apply (pieces_bytes Amur128)].
  destruct HE as [[-> | ->] _]; (eapply N.lt_le_trans; [apply N.mod_lt; discriminate|]); now apply N.leb_le.
Qed.

(* ---------- xxhash ---------- *)
Lemma XXH64_consume_states s1 s2 t : s1 < 2^64 -> s2 < 2^64 -> XXH64_consume s1 t = XXH64_consume s2 t -> s1 = s2.
Proof.
  intros L1 L2 E. apply (tail7_states _ _ (rest 8 t)) in E; [|now apply XXH64_dwords_lt|now apply XXH64_dwords_lt].
  revert s1 s2 L1 L2 E. induction (chunks 8 t) as [|d ds IH]; intros s1 s2 L1 L2 E; [exact E|]. cbn [fold_left] in E. apply IH in E; [|apply ADD_lt'|apply ADD_lt'].
  apply XXH64_dword_inj in E; [|assumption|assumption]. now apply lxor_inj_r in E.
Qed.
Definition seed_value (c : ctor) : N := match c with CSeed n => n | _ => 0 end.
Lemma xx64_integer cw c : integer c -> xx64_start cw c = (XXH64_init (seed_value c), 0, []).
Proof. destruct c; intros H; try contradiction; reflexivity. Qed.
(* the hash of any message of less than 32 bytes determines an integer seed *)
Theorem C60_xxh64 e f c1 c2 cs : valid_env e -> valid_ctor c1 -> valid_ctor c2 -> integer c1 -> integer c2 -> valid_pieces Axx64 cs ->
  (length (fed cs) < 32)%nat -> runs e Axx64 f c1 (hash_pieces cs) = runs e Axx64 f c2 (hash_pieces cs) -> seed_value c1 = seed_value c2.
Proof.
  intros HE H1 H2 I1 I2 HV HL E. rewrite !first_result' in E by (assumption || discriminate). cbn [machine_of blk_machine mc_start mc_ar mc_au] in E.
  rewrite !xx64_integer in E by assumption.
  assert (S1 : seed_value c1 < 2^64) by (destruct c1; [reflexivity|exact H1|contradiction]).
  assert (S2 : seed_value c2 < 2^64) by (destruct c2; [reflexivity|exact H2|contradiction]).
  unfold ab_au, xx64_ar in E. cbn [app] in E. rewrite !(chunks_short 32), !(rest_short 32) in E by (lia || exact HL). cbn [fold_left XXH64_init] in E. cbn [fst] in E.
  assert (Q : forall x y, Ok [RInt I64 x] = Ok [RInt I64 y] -> x = y) by (intros x y X; now injection X). apply Q in E. clear Q.
  apply XXH64_avalanche_inj in E; [|apply XXH64_consume_lt, ADD_lt'|apply XXH64_consume_lt, ADD_lt']. unfold xx64_acc, XXH64_init in E.
  rewrite N.add_0_l, N.mod_small in E by (change (2^64) with 18446744073709551616; lia).
  rewrite (proj2 (N.ltb_lt _ _)) in E by lia. apply XXH64_consume_states in E; [|apply ADD_lt'|apply ADD_lt'].
  apply add_inj_r in E; [|apply ADD_lt'|apply ADD_lt']. apply add_inj_r in E; [|apply N.mod_lt; discriminate|apply N.mod_lt; discriminate].
  now rewrite !N.mod_small in E.
Qed.
(* hash values of messages of less than 16 bytes determine each other *)
Theorem C60_xxh32 e f c1 c2 cs cs' : valid_env e -> valid_ctor c1 -> valid_ctor c2 -> integer c1 -> integer c2 -> valid_pieces Axx32 cs -> valid_pieces Axx32 cs' ->
  (length (fed cs) < 16)%nat -> (length (fed cs') < 16)%nat ->
  runs e Axx32 f c1 (hash_pieces cs) = runs e Axx32 f c2 (hash_pieces cs) -> runs e Axx32 f c1 (hash_pieces cs') = runs e Axx32 f c2 (hash_pieces cs').
Proof.
  intros HE H1 H2 I1 I2 HV HV' HL HL' E. rewrite !first_result' in * by (assumption || discriminate). cbn [machine_of blk_machine mc_start mc_ar mc_au] in *.
  assert (X : forall c, integer c -> exists v, xx32_start (e_cw e) c = (v, 0, [])).
  { intros [|n|] H; try contradiction; cbn [xx32_start]; eexists; reflexivity. }
  destruct (xx32_start_lt (e_cw e) c1 H1) as (v & k & E1 & L1 & _). destruct (X c1 I1) as (v' & E1'). rewrite E1 in E1'. injection E1' as <- K1.
  destruct (xx32_start_lt (e_cw e) c2 H2) as (w & k' & E2 & L2 & _). destruct (X c2 I2) as (w' & E2'). rewrite E2 in E2'. injection E2' as <- K2.
  rewrite E1, E2 in *. rewrite K1, K2 in *. clear E1 E2 K1 K2 X. destruct v as [[[v1 v2] v3] v4], w as [[[w1 w2] w3] w4].
  destruct L1 as (_ & _ & L1 & _), L2 as (_ & _ & L2 & _).
  unfold ab_au, xx32_ar in *. cbn [app] in *. rewrite !(chunks_short 16), !(rest_short 16) in * by (lia || assumption). cbn [fold_left] in *. cbn [fst] in *.
  assert (Q : forall x y, Ok [RInt I32 x] = Ok [RInt I32 y] -> x = y) by (intros x y X; now injection X). apply Q in E. clear Q. apply (f_equal (fun r => Ok [RInt I32 r])).
  assert (SM : forall n : nat, (n < 16)%nat -> (0 + N.of_nat n) mod e_cw e = N.of_nat n).
  { intros n Hn. rewrite N.add_0_l. apply N.mod_small. destruct HE as [[-> | ->] _]; [change (2^32) with 4294967296; lia|change (2^64) with 18446744073709551616; lia]. }
  rewrite !SM in * by assumption. unfold xx32_acc in *. rewrite !(proj2 (N.ltb_lt _ _)) in * by lia.
  apply XXH32_avalanche_inj in E; [|apply XXH32_consume_lt, ADD_lt'|apply XXH32_consume_lt, ADD_lt'].
  apply XXH32_consume_states in E; [|apply ADD_lt'|apply ADD_lt'].
  apply add_inj_r in E; [|apply ADD_lt'|apply ADD_lt']. apply add_inj_r in E; [|assumption|assumption]. now rewrite E.
Qed.
(* ... and among seeds below 2^32, or among seeds from 2^32 on, the hash of one short message determines all results *)
Lemma XXH32_round_acc a b k j : XXH32_round a k = XXH32_round b j -> (a + k * PRIME32_2) mod 2^32 = (b + j * PRIME32_2) mod 2^32.
Proof.
  intros E. unfold XXH32_round in E.
  apply (mul_inj 32 _ 0xe8b2f51) in E; [|reflexivity|apply ROTL_lt; [reflexivity|apply ADD_lt']|apply ROTL_lt; [reflexivity|apply ADD_lt']].
  apply PropsLong.ROTL_inj in E; [|reflexivity|reflexivity|apply ADD_lt'|apply ADD_lt'].
  unfold ADD, MUL in E. now rewrite !N.add_mod_idemp_r in E by discriminate.
Qed.
Lemma xx32_third e f n1 n2 cs : valid_env e -> n1 < 2^64 -> n2 < 2^64 -> valid_pieces Axx32 cs -> (length (fed cs) < 16)%nat ->
  runs e Axx32 f (CSeed n1) (hash_pieces cs) = runs e Axx32 f (CSeed n2) (hash_pieces cs) ->
  snd (fst (fst (fst (xx32_start (e_cw e) (CSeed n1))))) = snd (fst (fst (fst (xx32_start (e_cw e) (CSeed n2))))).
Proof.
  intros HE H1 H2 HV HL E. rewrite !first_result' in E by (assumption || discriminate). cbn [machine_of blk_machine mc_start mc_ar mc_au] in E.
  assert (X : forall n, exists v, xx32_start (e_cw e) (CSeed n) = (v, 0, [])) by (intros n; cbn [xx32_start]; eexists; reflexivity).
  destruct (xx32_start_lt (e_cw e) (CSeed n1) H1) as (v & k & E1 & L1 & _). destruct (X n1) as (v' & E1'). rewrite E1 in E1'. injection E1' as <- K1.
  destruct (xx32_start_lt (e_cw e) (CSeed n2) H2) as (w & k' & E2 & L2 & _). destruct (X n2) as (w' & E2'). rewrite E2 in E2'. injection E2' as <- K2.
  rewrite E1, E2 in *. rewrite K1, K2 in *. clear E1 E2 K1 K2 X. destruct v as [[[v1 v2] v3] v4], w as [[[w1 w2] w3] w4]. cbn [fst snd].
  destruct L1 as (_ & _ & L1 & _), L2 as (_ & _ & L2 & _).
  unfold ab_au, xx32_ar in *. cbn [app] in *. rewrite !(chunks_short 16), !(rest_short 16) in * by (lia || assumption). cbn [fold_left] in *. cbn [fst] in *.
  assert (Q : forall x y, Ok [RInt I32 x] = Ok [RInt I32 y] -> x = y) by (intros x y X; now injection X). apply Q in E. clear Q.
  assert (SM : forall n : nat, (n < 16)%nat -> (0 + N.of_nat n) mod e_cw e = N.of_nat n).
  { intros n Hn. rewrite N.add_0_l. apply N.mod_small. destruct HE as [[-> | ->] _]; [change (2^32) with 4294967296; lia|change (2^64) with 18446744073709551616; lia]. }
  rewrite !SM in * by assumption. unfold xx32_acc in *. rewrite !(proj2 (N.ltb_lt _ _)) in * by lia.
  apply XXH32_avalanche_inj in E; [|apply XXH32_consume_lt, ADD_lt'|apply XXH32_consume_lt, ADD_lt'].
  apply XXH32_consume_states in E; [|apply ADD_lt'|apply ADD_lt'].
  apply add_inj_r in E; [|apply ADD_lt'|apply ADD_lt']. now apply add_inj_r in E.
Qed.
Theorem C60_xxh32_seeds e f n1 n2 cs : valid_env e -> n1 < 2^64 -> n2 < 2^64 -> valid_pieces Axx32 cs -> (length (fed cs) < 16)%nat ->
  runs e Axx32 f (CSeed n1) (hash_pieces cs) = runs e Axx32 f (CSeed n2) (hash_pieces cs) ->
  (n1 < 2^32 -> n2 < 2^32 -> n1 = n2) /\
  (2^32 <= n1 -> 2^32 <= n2 -> interchangeable e Axx32 f (CSeed n1) (CSeed n2)).
Proof.
  intros HE H1 H2 HV HL E. pose proof (xx32_third e f n1 n2 cs HE H1 H2 HV HL E) as T. clear E. cbn [xx32_start fst] in T. split.
  - intros L1 L2. rewrite !N.div_small in T by assumption. cbn [N.eqb] in T. unfold XXH32_init in T. cbn [fst snd] in T.
    now rewrite !N.mod_small in T by assumption.
  - intros L1 L2. assert (D : forall n, n < 2^64 -> 2^32 <= n -> 0 < n / 2^32 < 2^32).
    { intros n A B. split; [apply N.div_str_pos; split; [reflexivity|exact B]|]. apply N.div_lt_upper_bound; [discriminate|exact A]. }
    pose proof (D n1 H1 L1) as D1. pose proof (D n2 H2 L2) as D2.
    replace (n1 / 2^32 =? 0) with false in T by (symmetry; apply N.eqb_neq; lia).
    replace (n2 / 2^32 =? 0) with false in T by (symmetry; apply N.eqb_neq; lia).
    unfold XXH32_init in T. cbn [fst snd] in T. apply XXH32_round_acc in T. rewrite !N.mod_mod in T by discriminate.
    assert (SH : same_hasher e Axx32 (CSeed n1) (CSeed n2)).
    { rewrite (N.div_mod n1 (2^32)), (N.div_mod n2 (2^32)), !(N.mul_comm (2^32)) by discriminate.
      apply C16_xxhash32_collisions; try assumption; apply N.mod_lt; discriminate. }
    intros xs V. assert (V2 : valid_program e Axx32 (CSeed n2) xs) by (destruct V as [_ V]; split; [exact H2|exact V]).
    destruct (SH f xs V V2) as (rs & -> & ->); [exact I|exact I|reflexivity].
Qed.
(* hence the first results of objects with different 32-bit integer seeds differ *)
Theorem C16_xxhash32_observable e f n1 n2 : valid_env e -> n1 < 2^32 -> n2 < 2^32 ->
  runs e Axx32 f (CSeed n1) [SResult] = runs e Axx32 f (CSeed n2) [SResult] -> n1 = n2.
Proof.
  intros HE H1 H2 E. assert (L : 2^32 < 2^64) by reflexivity.
  assert (V : valid_pieces Axx32 []) by constructor. assert (S : (length (fed []) < 16)%nat) by (cbn; lia).
  exact (proj1 (C60_xxh32_seeds e f n1 n2 [] HE (N.lt_trans _ _ _ H1 L) (N.lt_trans _ _ _ H2 L) V S E) H1 H2).
Qed.
(* two seeds that agree on "abc", and so always *)
Example C60_xxh32_seeds_ex : runs env_pc Axx32 le_flavor (CSeed (3 * 2^32 + 2246822519)) (hash_pieces abc) = runs env_pc Axx32 le_flavor (CSeed (4 * 2^32)) (hash_pieces abc) /\
  interchangeable env_pc Axx32 le_flavor (CSeed (3 * 2^32 + 2246822519)) (CSeed (4 * 2^32)).
Proof.
  assert (E : runs env_pc Axx32 le_flavor (CSeed (3 * 2^32 + 2246822519)) (hash_pieces abc) = runs env_pc Axx32 le_flavor (CSeed (4 * 2^32)) (hash_pieces abc)) by (vm_compute; reflexivity).
  split; [exact E|].
  assert (L : (length (fed abc) < 16)%nat) by (cbn; lia).
  exact (proj2 (C60_xxh32_seeds env_pc le_flavor (3 * 2^32 + 2246822519) (4 * 2^32) abc env_pc_valid eq_refl eq_refl (abc_valid _) L E)
    ltac:(discriminate) ltac:(discriminate)).
Qed.
(* Two seeds that agree on the message "abc", and so are interchangeable: for murmur3_32, the 64-bit seed 2^32 and the 32-bit
   seed that is the state it leads to.  (The other theorems: a seed and itself; C16 and C17 tell which seeds are equivalent.) *)
Example C60_murmur32_ex : exists n, n < 2^32 /\
  runs env_pc Amur32 le_flavor (CSeed (2^32)) (hash_pieces abc) = runs env_pc Amur32 le_flavor (CSeed n) (hash_pieces abc) /\
  interchangeable env_pc Amur32 le_flavor (CSeed (2^32)) (CSeed n).
Proof.
  assert (E : exists n, n < 2^32 /\ runs env_pc Amur32 le_flavor (CSeed (2^32)) (hash_pieces abc) = runs env_pc Amur32 le_flavor (CSeed n) (hash_pieces abc)).
  { exists (Mur32_block 0 [1; 0; 0; 0]). split; [reflexivity|]. vm_compute. reflexivity. }
  destruct E as (n & Hn & E). exists n. split; [exact Hn|]. split; [exact E|].
  apply (C60_murmur32 env_pc le_flavor (CSeed (2^32)) (CSeed n) abc env_pc_valid eq_refl); [|exact I|exact (abc_valid _)|exact E].
  cbn [valid_ctor]. eapply N.lt_trans; [exact Hn|reflexivity].
Qed.
(* for xxhash_64, the hash of "abc" tells the seeds 7 and 8 apart *)
Example C60_xxh64_ex : runs env_pc Axx64 le_flavor (CSeed 7) (hash_pieces abc) <> runs env_pc Axx64 le_flavor (CSeed 8) (hash_pieces abc).
Proof.
  intros E. apply (C60_xxh64 env_pc le_flavor (CSeed 7) (CSeed 8) abc) in E; [discriminate|exact env_pc_valid|reflexivity|reflexivity|exact I|exact I|apply abc_valid|cbn; lia].
Qed.

(* C53, continued: a change confined to one unit of the message changes the result also when the hash object has a history: the units
   count from the last call of result(). *)
From Verif Require Import Base BaseFacts SpecCommon Gen Bits GenMD Hasher GenBlk Types ModelResult ModelAppend SpecAppend ProofMsg ProofMsgEq
  Behaves Instances ProofRuns Samples PropsHistory PropsAlg PropsAppend PropsSeeds PropsPrims ProofLocal ProofMurmurDistinct PropsLong
  PropsLocal PropsLocal64 PropsLocalKeys PropsAnywhere.
From Verif Require Import SpecFnv SpecMurmur SpecXxh ProofXxh ProofFnv ProofMurmur ProofSpooky.
Open Scope N_scope.

(* after the steps xs, the steps ys1 and ys2 give, apart from the results of xs, one result each, and a different one *)
Definition told_apart (e : env) (a : alg) (f : flavor) (c : ctor) (xs ys1 ys2 : list ustep) : Prop :=
  exists rs r1 r2, length rs = results_in xs /\ runs e a f c (xs ++ ys1) = Ok (rs ++ [r1]) /\ runs e a f c (xs ++ ys2) = Ok (rs ++ [r2]) /\ r1 <> r2.
(* the program ends in a call of result(), or is empty *)
Definition at_result (xs : list ustep) : Prop := xs = [] \/ exists xs0, xs = xs0 ++ [SResult].

Lemma pieces_after e a c xs cs : valid_program e a c xs -> valid_pieces a cs -> valid_program e a c (xs ++ hash_pieces cs).
Proof.
  intros [HC HX] HV. split; [exact HC|]. apply Forall_app. split; [exact HX|]. exact (proj2 (pieces_valid e a c cs HC HV)).
Qed.
Lemma after_expected e a f c xs cs : expected e a f c (xs ++ hash_pieces cs) =
  expected e a f c xs ++ [fst (mc_ar (machine_of (e_cw e) a) (mc_au (machine_of (e_cw e) a) (state e a f c xs) (fed cs)))].
Proof.
  unfold expected, state, hash_pieces. rewrite !aprun_app, asteps_updates. cbn [aprun].
  assert (E : forall s, aprun (mc_au (machine_of (e_cw e) a)) (mc_ar (machine_of (e_cw e) a)) result64 (call_message (e_impl e) f) s (updates cs) = []).
  { induction cs as [|[p n] cs IH]; intros s; [reflexivity|apply IH]. }
  now rewrite E.
Qed.
Lemma told_by e a f c xs cs1 cs2 : valid_env e -> a <> Aspooky -> valid_program e a c xs -> valid_pieces a cs1 -> valid_pieces a cs2 ->
  fst (mc_ar (machine_of (e_cw e) a) (mc_au (machine_of (e_cw e) a) (state e a f c xs) (fed cs1))) <>
  fst (mc_ar (machine_of (e_cw e) a) (mc_au (machine_of (e_cw e) a) (state e a f c xs) (fed cs2))) ->
  told_apart e a f c xs (hash_pieces cs1) (hash_pieces cs2).
Proof.
  intros HE HA HV V1 V2 HN. exists (expected e a f c xs). do 2 eexists. split; [unfold expected; apply aprun_length|].
  rewrite !(runs_expected e a f c _ HE) by (try apply pieces_after; try apply room_any; assumption). rewrite !after_expected. split; [reflexivity|]. split; [reflexivity|exact HN].
Qed.

(* ---------- fnv1a: any history ---------- *)
Lemma fnv_state_bytes e F s f c M xs : valid_ctor c -> Forall (valid_step true (e_impl e)) xs -> (forall k q, bytes (M k q)) ->
  bytes (asteps (mc_au (fnv_machine F s)) (mc_ar (fnv_machine F s)) f M (fnv_start c) xs).
Proof.
  intros HC HX HM. assert (B0 := fnv_start_bytes c HC). revert B0. generalize (fnv_start c). induction HX as [|x xs Hx HX IH]; intros b Hb; [exact Hb|].
  destruct x as [p n| |k]; cbn [asteps]; apply IH; cbn [fnv_machine mc_au mc_ar snd].
  - apply bytes_app. split; [exact Hb|]. now apply (valid_data _ _ _ Hx).
  - unfold fnv_pad. apply bytes_app. split; [exact Hb|]. constructor; [reflexivity|constructor].
  - apply bytes_app. split; [exact Hb|apply HM].
Qed.
Theorem C53_fnv32_history e f c xs cs1 cs2 p : valid_env e -> valid_program e Afnv32 c xs -> valid_pieces Afnv32 cs1 -> valid_pieces Afnv32 cs2 ->
  differ_at p 1 (fed cs1) (fed cs2) -> told_apart e Afnv32 f c xs (hash_pieces cs1) (hash_pieces cs2).
Proof.
  intros HE HV V1 V2 HD. apply told_by; try assumption; [discriminate|].
  assert (HB : bytes (state e Afnv32 f c xs)).
  { destruct HV as [HC HX]. apply (fnv_state_bytes e FNV32 I32 result64 c); try assumption. intros k q. apply call_msg_bytes. }
  revert HB. generalize (state e Afnv32 f c xs). cbn [machine_of fnv_machine mc_start mc_ar mc_au mc_A fst]. intros pre HB.
  intros E. injection E as E. revert E. apply (fnv_local FNV32 0x359c449b) with (p := p); try (reflexivity || discriminate || assumption).
  - now apply (pieces_bytes Afnv32). - now apply (pieces_bytes Afnv32).
Qed.
Theorem C53_fnv64_history e f c xs cs1 cs2 p : valid_env e -> valid_program e Afnv64 c xs -> valid_pieces Afnv64 cs1 -> valid_pieces Afnv64 cs2 ->
  differ_at p 1 (fed cs1) (fed cs2) -> told_apart e Afnv64 f c xs (hash_pieces cs1) (hash_pieces cs2).
Proof.
  intros HE HV V1 V2 HD. apply told_by; try assumption; [discriminate|].
  assert (HB : bytes (state e Afnv64 f c xs)).
  { destruct HV as [HC HX]. apply (fnv_state_bytes e FNV64 I64 result64 c); try assumption. intros k q. apply call_msg_bytes. }
  revert HB. generalize (state e Afnv64 f c xs). cbn [machine_of fnv_machine mc_start mc_ar mc_au mc_A fst]. intros pre HB.
  intros E. injection E as E. revert E. apply (fnv_local FNV64 0xce965057aff6957b) with (p := p); try (reflexivity || discriminate || assumption).
  - now apply (pieces_bytes Afnv64). - now apply (pieces_bytes Afnv64).
Qed.

(* ---------- the state after result() ---------- *)
Lemma at_result_state {St R} (ar : ast St -> R * ast St) (out : R -> result) (start : ctor -> ast St) (P : St -> Prop) i f c xs :
  (forall a, P (fst (fst a)) -> exists st k, snd (ar a) = (st, k, []) /\ P st) -> (exists st k, start c = (st, k, []) /\ P st) -> at_result xs ->
  exists st k, asteps ab_au (fun a => (out (fst (ar a)), snd (ar a))) result64 (call_message i f) (start c) xs = (st, k, []) /\ P st.
Proof.
  intros Hnil HS [-> | (xs0 & ->)]; [exact HS|]. rewrite asteps_app. cbn [asteps snd]. apply Hnil.
  apply (inv_kept ar out P Hnil). destruct HS as (st & k & -> & HP). exact HP.
Qed.
Theorem C53_murmur32_history e f c xs cs1 cs2 p : valid_env e -> valid_program e Amur32 c xs -> at_result xs -> valid_pieces Amur32 cs1 -> valid_pieces Amur32 cs2 ->
  (p mod 4 = 0)%nat -> differ_at p 4 (fed cs1) (fed cs2) -> told_apart e Amur32 f c xs (hash_pieces cs1) (hash_pieces cs2).
Proof.
  intros HE HV HX V1 V2 Hp HD. apply told_by; try assumption; [discriminate|].
  destruct (mur32_start_lt (e_cw e) c (proj1 HV)) as (st0 & k0 & E0 & L0).
  destruct (at_result_state (mur32_ar (e_cw e)) (RInt I32) (mur32_start (e_cw e)) (fun s => s < 2^32) (e_impl e) f c xs (mur32_nil (e_cw e)))
    as (st & k & ES & Hst); [now exists st0, k0|exact HX|].
  change (state e Amur32 f c xs) with (asteps ab_au (fun a => (RInt I32 (fst (mur32_ar (e_cw e) a)), snd (mur32_ar (e_cw e) a))) result64 (call_message (e_impl e) f) (mur32_start (e_cw e) c) xs).
  rewrite ES. cbn [machine_of blk_machine mc_ar mc_au]. unfold ab_au, mur32_ar. cbn [fst app].
  intros E. injection E as E. rewrite (proj1 (differ_neq _ _ _ _ HD)) in E. revert E. apply mur32_local with (p := p); try assumption.
  - now apply (pieces_bytes Amur32). - now apply (pieces_bytes Amur32).
Qed.
Theorem C53_murmur128_history e f c xs cs1 cs2 p : valid_env e -> valid_program e Amur128 c xs -> at_result xs -> valid_pieces Amur128 cs1 -> valid_pieces Amur128 cs2 ->
  (p mod 16 = 0)%nat -> differ_at p 16 (fed cs1) (fed cs2) -> told_apart e Amur128 f c xs (hash_pieces cs1) (hash_pieces cs2).
Proof.
  intros HE HV HX V1 V2 Hp HD. apply told_by; try assumption; [discriminate|].
  destruct (mur128_start_lt (e_cw e) c (proj1 HV)) as (st0 & k0 & E0 & L0).
  destruct (at_result_state (mur128_ar (e_cw e)) RDigest (mur128_start (e_cw e)) l2 (e_impl e) f c xs (mur128_nil (e_cw e)))
    as (st & k & ES & Hst); [now exists st0, k0|exact HX|].
  change (state e Amur128 f c xs) with (asteps ab_au (fun a => (RDigest (fst (mur128_ar (e_cw e) a)), snd (mur128_ar (e_cw e) a))) result64 (call_message (e_impl e) f) (mur128_start (e_cw e) c) xs).
  rewrite ES. cbn [machine_of blk_machine mc_ar mc_au]. unfold ab_au, mur128_ar. cbn [fst app].
  intros E. assert (E' := f_equal (fun r => match r with RDigest d => d | _ => [] end) E). cbn beta iota in E'. clear E.
  rewrite (proj1 (differ_neq _ _ _ _ HD)) in E'. revert E'. apply mur128_local with (p := p); try assumption.
  - destruct HE as [[-> | ->] _]; (eapply N.lt_le_trans; [apply N.mod_lt; discriminate|]); now apply N.leb_le.
  - now apply (pieces_bytes Amur128).
  - now apply (pieces_bytes Amur128).
Qed.
Theorem C53_xxh64_tail_history e f c xs cs1 cs2 p L : valid_env e -> valid_program e Axx64 c xs -> at_result xs -> valid_pieces Axx64 cs1 -> valid_pieces Axx64 cs2 ->
  (32 * (length (fed cs1) / 32) <= p)%nat ->
  unit8 p L -> (p + L <= length (fed cs1))%nat -> differ_at p L (fed cs1) (fed cs2) -> told_apart e Axx64 f c xs (hash_pieces cs1) (hash_pieces cs2).
Proof.
  intros HE HV HX V1 V2 HT HU HF HD. apply told_by; try assumption; [discriminate|].
  destruct (xx64_start_nil (2^64) c) as (st0 & k0 & E0).
  destruct (at_result_state (xx64_ar (2^64)) (RInt I64) (xx64_start (2^64)) (fun _ => True) (e_impl e) f c xs (xx64_nil (2^64)))
    as (v & k & ES & _); [now exists st0, k0|exact HX|].
  change (state e Axx64 f c xs) with (asteps ab_au (fun a => (RInt I64 (fst (xx64_ar (2^64) a)), snd (xx64_ar (2^64) a))) result64 (call_message (e_impl e) f) (xx64_start (2^64) c) xs).
  rewrite ES. cbn [machine_of blk_machine mc_ar mc_au]. unfold ab_au, xx64_ar. cbn [app].
  intros E. assert (E' := f_equal (fun r => match r with RInt _ d => d | _ => 0 end) E). cbn beta iota in E'. clear E.
  rewrite <- (proj1 (differ_neq _ _ _ _ HD)) in E'.
  pose proof (xx64_local ((k + N.of_nat (length (fed cs1))) mod 2^64) p L v (fed cs1) (fed cs2) HU (pieces_bytes _ _ V1) (pieces_bytes _ _ V2) HT HF HD) as HL.
  revert E' HL. destruct (fold_left XXH64_stripe (chunks 32 (fed cs1)) v) as [[[x1 x2] x3] x4].
  destruct (fold_left XXH64_stripe (chunks 32 (fed cs2)) v) as [[[y1 y2] y3] y4]. cbn [fst]. auto.
Qed.

(* ---------- xxhash_32: while the byte count fits size_t ---------- *)
Lemma steps_weight {St R} (ar : ast St -> R * ast St) (out : R -> result) i f nul xs : (forall a, aweight (snd (ar a)) <= aweight a + 192) ->
  Forall (valid_step nul i) xs -> forall a,
  aweight (asteps ab_au (fun a => (out (fst (ar a)), snd (ar a))) result64 (call_message i f) a xs) <= aweight a + N.of_nat (weight xs).
Proof.
  intros HW. induction 1 as [|x xs Hx HX IH]; intros a; [cbn; lia|]. rewrite weight_cons.
  destruct x as [p n| |k]; cbn [asteps step_weight snd]; (eapply N.le_trans; [apply IH|]).
  - rewrite aweight_au, (proj2 (valid_data _ _ _ Hx)). lia.
  - pose proof (HW a). lia.
  - rewrite aweight_au. unfold call_message. match goal with |- context [call_msg ?a1 ?a2 ?a3 ?a4 ?a5 k ?q] => pose proof (call_blen_ok a1 a2 a3 a4 a5 k q) end. lia.
Qed.
Lemma xx32_start_weight cw c : valid_ctor c -> aweight (xx32_start cw c) <= ctor_weight c.
Proof.
  intros HC. destruct c as [|s|p n]; cbn [xx32_start]; [cbn; lia|unfold aweight; cbn [length ctor_weight]; lia|].
  destruct (Nat.eqb n 0); [cbn; lia|]. cbn [valid_ctor] in HC. pose proof (valid_data _ _ _ HC) as [Hb Hl].
  pose proof (xx32_w cw (XXH32_init 0, 0, data p n)) as W. unfold aweight in W at 2. rewrite Hl in W. cbn [ctor_weight]. lia.
Qed.
Lemma xx32_ar_nil cw a : exists v k, snd (xx32_ar cw a) = (v, N.of_nat (16 + k), []) /\ l4 32 v.
Proof.
  destruct a as [[st c] l]. unfold xx32_ar. cbv zeta. destruct (fold_left _ _ _) as [[[v1 v2] v3] v4]. cbn [snd].
  exists (add32 v1 (xx32_acc (v1, v2, v3, v4) ((c + N.of_nat (length l)) mod cw) (rest 16 l)),
          add32 v2 (xx32_acc (v1, v2, v3, v4) ((c + N.of_nat (length l)) mod cw) (rest 16 l)),
          sub32 v3 (xx32_acc (v1, v2, v3, v4) ((c + N.of_nat (length l)) mod cw) (rest 16 l)),
          sub32 v4 (xx32_acc (v1, v2, v3, v4) ((c + N.of_nat (length l)) mod cw) (rest 16 l))), (N.to_nat c + (length l + (16 - length l mod 16) - 16))%nat.
  split; [f_equal; f_equal; assert (length l mod 16 <= length l)%nat by (apply Nat.mod_le; lia); pose proof (Nat.mod_upper_bound (length l) 16 ltac:(lia)); lia|].
  repeat split; apply N.mod_lt; discriminate.
Qed.
Theorem C53_xxh32_history e f c xs cs1 cs2 p L : valid_env e -> valid_program e Axx32 c xs -> at_result xs -> valid_pieces Axx32 cs1 -> valid_pieces Axx32 cs2 ->
  ctor_weight c + N.of_nat (weight xs + length (fed cs1)) < e_cw e ->
  unit4 p L -> (p + L <= length (fed cs1))%nat -> differ_at p L (fed cs1) (fed cs2) -> told_apart e Axx32 f c xs (hash_pieces cs1) (hash_pieces cs2).
Proof.
  intros HE HV HX V1 V2 HW HU HF HD. apply told_by; try assumption; [discriminate|].
  pose proof (steps_weight (xx32_ar (e_cw e)) (RInt I32) (e_impl e) f _ xs (xx32_w (e_cw e)) (proj2 HV) (xx32_start (e_cw e) c)) as W.
  pose proof (xx32_start_weight (e_cw e) c (proj1 HV)) as W0.
  assert (S : exists v k, asteps ab_au (fun a => (RInt I32 (fst (xx32_ar (e_cw e) a)), snd (xx32_ar (e_cw e) a))) result64 (call_message (e_impl e) f) (xx32_start (e_cw e) c) xs
              = (v, N.of_nat k, []) /\ l4 32 v /\ (k = 0 \/ 16 <= k)%nat).
  { destruct HX as [-> | (xs0 & ->)]; [apply (xx32_start_lt (e_cw e) c (proj1 HV))|]. rewrite asteps_app. cbn [asteps snd].
    destruct (xx32_ar_nil (e_cw e) (asteps ab_au (fun a => (RInt I32 (fst (xx32_ar (e_cw e) a)), snd (xx32_ar (e_cw e) a))) result64 (call_message (e_impl e) f) (xx32_start (e_cw e) c) xs0)) as (v & k & -> & Hv).
    exists v, (16 + k)%nat. split; [reflexivity|]. split; [exact Hv|lia]. }
  destruct S as (v & k & ES & Hv & Hk).
  change (state e Axx32 f c xs) with (asteps ab_au (fun a => (RInt I32 (fst (xx32_ar (e_cw e) a)), snd (xx32_ar (e_cw e) a))) result64 (call_message (e_impl e) f) (xx32_start (e_cw e) c) xs).
  rewrite ES in W |- *. unfold aweight in W at 1. cbn [length] in W. cbn [machine_of blk_machine mc_ar mc_au]. unfold ab_au, xx32_ar. cbn [app].
  intros E. assert (E' := f_equal (fun r => match r with RInt _ d => d | _ => 0 end) E). cbn beta iota in E'. clear E.
  rewrite <- (proj1 (differ_neq _ _ _ _ HD)) in E'. rewrite (N.mod_small (N.of_nat k + N.of_nat (length (fed cs1)))) in E' by (clear - HW W W0; lia). rewrite <- Nat2N.inj_add in E'.
  pose proof (xx32_local (k + length (fed cs1)) p L v (fed cs1) (fed cs2) Hv ltac:(clear - Hk; lia) HU (pieces_bytes _ _ V1) (pieces_bytes _ _ V2) HF HD) as HL.
  revert E' HL. destruct (fold_left XXH32_stripe (chunks 16 (fed cs1)) v) as [[[x1 x2] x3] x4].
  destruct (fold_left XXH32_stripe (chunks 16 (fed cs2)) v) as [[[y1 y2] y3] y4]. cbn [fst]. auto.
Qed.

(* ---------- one unit; values ---------- *)
Definition boundary (a : alg) (xs : list ustep) : Prop := match a with Afnv32 | Afnv64 => True | _ => at_result xs end.
Theorem C53_units_history e a f c xs cs1 cs2 : valid_env e -> valid_program e a c xs -> boundary a xs -> valid_pieces a cs1 -> valid_pieces a cs2 ->
  ctor_weight c + N.of_nat (weight xs) + 4 < e_cw e ->
  one_unit a (length (fed cs1)) -> length (fed cs1) = length (fed cs2) -> fed cs1 <> fed cs2 ->
  told_apart e a f c xs (hash_pieces cs1) (hash_pieces cs2).
Proof.
  intros HE HV HX V1 V2 HW HU HL HN. pose proof (all_differ (fed cs1) (fed cs2) (length (fed cs1)) HL HN ltac:(lia)) as HD.
  destruct a as [m|m| | | | | | | | | ]; cbn [one_unit boundary] in HU, HX; try contradiction.
  - apply (C53_xxh32_history e f c xs cs1 cs2 0 (length (fed cs1))); try assumption; [clear - HW HU; lia| |lia]. destruct HU as [-> | ->]; [now left|now right].
  - apply (C53_xxh64_tail_history e f c xs cs1 cs2 0 (length (fed cs1))); try assumption; [|clear - HU|lia].
    + rewrite Nat.div_small by lia. lia.
    + destruct HU as [-> | [-> | -> ]]; [now left|now right; left|now right; right].
  - rewrite HU in HD. now apply (C53_fnv32_history e f c xs cs1 cs2 0).
  - rewrite HU in HD. now apply (C53_fnv64_history e f c xs cs1 cs2 0).
  - apply (C53_murmur32_history e f c xs cs1 cs2 0); try assumption; [reflexivity|]. now apply all_differ.
  - apply (C53_murmur128_history e f c xs cs1 cs2 0); try assumption; [reflexivity|]. now apply all_differ.
Qed.
Theorem C53_keys_history e a f c xs t v1 v2 q : valid_env e -> decodable t -> boundary a xs ->
  valid_program e a c (xs ++ [SAppend t v1; SResult]) -> valid_program e a c (xs ++ [SAppend t v2; SResult]) ->
  ctor_weight c + N.of_nat (weight xs) + 4 < e_cw e ->
  regular (fl_size f) t v1 -> regular (fl_size f) t v2 ->
  one_unit a (length (message (e_impl e) f t v1 q)) -> length (message (e_impl e) f t v1 q) = length (message (e_impl e) f t v2 q) ->
  ~ equal t v1 v2 ->
  told_apart e a f c xs [SAppend t v1; SResult] [SAppend t v2; SResult].
Proof.
  intros HE HD HX V1 V2 HW R1 R2 HU HL HN. pose proof (decodable_ordered t HD) as HO.
  assert (HR : forall xs, room e a c xs) by (intros ys; unfold room, roomy; destruct a; try exact I; contradiction).
  destruct (append_feeds_ordered e a f c xs t v1 [SResult] q HE HO V1 (HR _)) as (rs1 & E1 & F1).
  destruct (append_feeds_ordered e a f c xs t v2 [SResult] q HE HO V2 (HR _)) as (rs2 & E2 & F2).
  assert (FD : forall m, fed [(Ptr m, length m)] = m) by (intros m; cbn; now rewrite app_nil_r, firstn_all).
  assert (VP : forall v, valid_pieces a [(Ptr (message (e_impl e) f t v q), length (message (e_impl e) f t v q))]).
  { intros v. constructor; [|constructor]. split; [cbn; lia|]. cbn. apply msg_bytes. }
  assert (HV : valid_program e a c xs) by (now apply valid_app in V1).
  assert (T : forall v, valid_program e a c (xs ++ [SAppend t v; SResult]) -> has_type (im_psz (e_impl e)) t v).
  { intros v [_ V]. apply Forall_app in V. destruct V as [_ V]. inversion V as [|? ? X _]. exact (proj1 X). }
  pose proof (T v1 V1) as T1. pose proof (T v2 V2) as T2.
  destruct (C53_units_history e a f c xs _ _ HE HV HX (VP v1) (VP v2) HW) as (rs & r1 & r2 & LR & X1 & X2 & XN); rewrite ?FD; try assumption.
  - intros E. apply HN. now apply (C28_parse (e_impl e) f t v1 v2 [] [] q q).
  - exists rs, r1, r2. change ([feed ?m] ++ [SResult]) with (hash_pieces [(Ptr m, length m)]) in F1, F2.
    split; [exact LR|]. rewrite X1 in F1. rewrite X2 in F2. cbn [app] in E1, E2.
    split; [exact (eq_trans E1 (eq_sym F1))|]. split; [exact (eq_trans E2 (eq_sym F2))|assumption].
Qed.
(* in particular, distinct integers (enumerators, addresses): the results after the same history differ *)
Theorem C53_integers_history e a f c xs t z1 z2 : valid_env e -> integer_like t -> boundary a xs ->
  valid_program e a c (xs ++ [SAppend t (VInt z1); SResult]) -> valid_program e a c (xs ++ [SAppend t (VInt z2); SResult]) ->
  ctor_weight c + N.of_nat (weight xs) + 4 < e_cw e ->
  one_unit a (length (scalar_bytes (e_impl e) f t z1)) -> z1 <> z2 ->
  told_apart e a f c xs [SAppend t (VInt z1); SResult] [SAppend t (VInt z2); SResult].
Proof.
  intros HE HI HX V1 V2 HW HU HN.
  assert (EL : forall z, length (message (e_impl e) f t (VInt z) (fun _ => 0)) = length (scalar_bytes (e_impl e) f t z)).
  { intros z. destruct t; try contradiction; unfold message, scalar_bytes, int_bytes; cbn [msg]; try (destruct (fl_order f)); rewrite ?enc_length, ?repeat_length; reflexivity. }
  assert (ES : length (scalar_bytes (e_impl e) f t z1) = length (scalar_bytes (e_impl e) f t z2)).
  { destruct t; try contradiction; unfold scalar_bytes, int_bytes; try (destruct (fl_order f)); rewrite ?enc_length; reflexivity. }
  assert (T : forall v, valid_program e a c (xs ++ [SAppend t v; SResult]) -> has_type (im_psz (e_impl e)) t v).
  { intros v [_ V]. apply Forall_app in V. destruct V as [_ V]. inversion V as [|? ? X _]. exact (proj1 X). }
  pose proof (T _ V1) as T1. pose proof (T _ V2) as T2.
  apply (C53_keys_history e a f c xs t (VInt z1) (VInt z2) (fun _ => 0)); try assumption; rewrite ?EL; try assumption.
  - destruct t; try contradiction; exact I.
  - destruct t; try contradiction; exact I.
  - destruct t; try contradiction; exact I.
  - destruct t; try contradiction; cbn [equal has_type] in *; congruence.
Qed.

(* ---------- concrete cases ---------- *)
(* a history: an update, a value, two results *)
Definition past : list ustep := [SUpdate (Ptr [1; 2; 3]) 3; SAppend (TInt I32 true) (VInt 7); SResult; SResult].
Lemma past_valid e a c : valid_ctor c -> valid_program e a c past.
Proof.
  intros HC. split; [exact HC|]. unfold past. constructor; [split; [apply le_n|ok]|]. constructor; [|repeat constructor].
  split; [cbn; lia|]. right. exact I.
Qed.
Example C53_fnv32_history_ex : told_apart env_pc Afnv32 le_flavor (CSeed 7) past (hash_pieces whole40) (hash_pieces (altered 37 [255])).
Proof. apply (C53_fnv32_history _ _ _ _ _ _ 37); [exact env_pc_valid|now apply past_valid|apply whole40_ok|apply altered_ok; [cbn; lia|ok]|differs]. Qed.
Example C53_fnv64_history_ex : told_apart env_pc Afnv64 le_flavor CDefault past (hash_pieces whole40) (hash_pieces (altered 0 [255])).
Proof. apply (C53_fnv64_history _ _ _ _ _ _ 0); [exact env_pc_valid|now apply past_valid|apply whole40_ok|apply altered_ok; [cbn; lia|ok]|differs]. Qed.
Lemma past_ends : at_result past.
Proof. right. now exists [SUpdate (Ptr [1; 2; 3]) 3; SAppend (TInt I32 true) (VInt 7); SResult]. Qed.
Example C53_murmur32_history_ex : told_apart env_be Amur32 le_flavor (CSeed (2^40)) past (hash_pieces whole40) (hash_pieces (altered 36 [1; 2; 3])).
Proof. apply (C53_murmur32_history _ _ _ _ _ _ 36); [exact env_be_valid|apply past_valid; ok|exact past_ends|apply whole40_ok|apply altered_ok; [cbn; lia|ok]|reflexivity|differs]. Qed.
Example C53_murmur128_history_ex : told_apart env_be Amur128 le_flavor (CSeed (2^40)) past (hash_pieces whole40) (hash_pieces (altered 16 [9; 8; 7; 6; 5; 4; 3; 2; 1; 0; 1; 2; 3; 4; 5; 6])).
Proof. apply (C53_murmur128_history _ _ _ _ _ _ 16); [exact env_be_valid|apply past_valid; ok|exact past_ends|apply whole40_ok|apply altered_ok; [cbn; lia|ok]|reflexivity|differs]. Qed.
Example C53_xxh32_history_ex : told_apart env_be Axx32 le_flavor (CSeed 9) past (hash_pieces whole40) (hash_pieces (altered 20 [9; 8; 7; 6])).
Proof. apply (C53_xxh32_history _ _ _ _ _ _ 20 4); [exact env_be_valid|apply past_valid; ok|exact past_ends|apply whole40_ok|apply altered_ok; [cbn; lia|ok]|reflexivity|now right|apply Nat.leb_le; reflexivity|differs]. Qed.
Example C53_xxh64_tail_history_ex : told_apart env_pc Axx64 le_flavor (CSeed 9) past (hash_pieces whole40) (hash_pieces (altered 36 [9; 8; 7; 6])).
Proof. apply (C53_xxh64_tail_history _ _ _ _ _ _ 36 4); [exact env_pc_valid|apply past_valid; ok|exact past_ends|apply whole40_ok|apply altered_ok; [cbn; lia|ok]|apply Nat.leb_le; reflexivity|right; left; auto|apply Nat.leb_le; reflexivity|differs]. Qed.
Example C53_integers_history_ex : told_apart env_pc Axx64 le_flavor (CSeed 7) past
  [SAppend (TInt I64 true) (VInt 1); SResult] [SAppend (TInt I64 true) (VInt (2^40)); SResult].
Proof.
  apply (C53_integers_history env_pc Axx64 le_flavor (CSeed 7) past (TInt I64 true) 1 (2^40)); [exact env_pc_valid|exact I|exact past_ends|key_ok|key_ok|reflexivity|right; right; reflexivity|discriminate].
Qed.

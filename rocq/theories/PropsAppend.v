(* Properties of hash_append.  The message of a value is specified in SpecAppend.v ([msg]);
   here it is shown to be what hash_append feeds any algorithm in any program, and its
   properties are derived. *)
From Coq Require Import Permutation.
From Verif Require Import Base BaseFacts SpecCommon Hasher GenBlk Types ModelResult ModelAppend SpecAppend
  ProofMsg ProofMsgEq ProofMsgExt ProofAppend Behaves ProofSpooky Instances ProofRuns PropsHistory Samples.
Open Scope N_scope.

(* a direct update with the bytes m *)
Definition feed (m : list N) : ustep := SUpdate (Ptr m) (length m).

Definition steps_to e a f c pre m := mc_au (machine_of (e_cw e) a) (state e a f c pre) m.

Lemma call_state e a f c pre k :
  state e a f c (pre ++ [SCall k]) = steps_to e a f c pre (call_message (e_impl e) f k (query e a f c pre)).
Proof. unfold state. rewrite asteps_app. reflexivity. Qed.
Lemma feed_state e a f c pre m : state e a f c (pre ++ [feed m]) = steps_to e a f c pre m.
Proof. unfold state. rewrite asteps_app. cbn [asteps feed data]. now rewrite firstn_all. Qed.

(* the validity of a call in a program *)
Lemma valid_call e a c pre k post : valid_program e a c (pre ++ [SCall k] ++ post) ->
  valid_step (nul_of a) (e_impl e) (SCall k).
Proof. intros (_ & HV). rewrite Forall_app in HV. destruct HV as [_ HV]. cbn [app] in HV. inversion HV; assumption. Qed.
Lemma valid_replace e a c pre x post y :
  valid_program e a c (pre ++ x ++ post) -> Forall (valid_step (nul_of a) (e_impl e)) y ->
  valid_program e a c (pre ++ y ++ post).
Proof. intros (H1 & H2) HY. split; [exact H1|]. rewrite !Forall_app in *; tauto. Qed.
Lemma room_replace e a c pre x post y : room e a c (pre ++ x ++ post) -> (weight y <= weight x)%nat ->
  room e a c (pre ++ y ++ post).
Proof. unfold room. intros H HL. apply (roomy_mono _ _ _ _ _ H). rewrite !weight_app. lia. Qed.

(* Two ways to continue that reach the same state are interchangeable in every program *)
Lemma interchange e a f c pre x y post : valid_env e -> valid_program e a c (pre ++ x ++ post) -> room e a c (pre ++ x ++ post) ->
  Forall (valid_step (nul_of a) (e_impl e)) y -> (weight y <= weight x)%nat ->
  Forall (fun s => s <> SResult) x -> Forall (fun s => s <> SResult) y ->
  state e a f c (pre ++ x) = state e a f c (pre ++ y) ->
  exists rs, runs e a f c (pre ++ x ++ post) = Ok rs /\ runs e a f c (pre ++ y ++ post) = Ok rs.
Proof.
  intros HE HV HR VY WY NX NY HS. eexists. split; [now apply runs_expected|].
  rewrite runs_expected; [|exact HE|now apply (valid_replace e a c pre x)|now apply (room_replace e a c pre x)].
  f_equal. apply same_state; [symmetry; exact HS| |].
  - clear -NY. induction NY as [|[p n| |k] y H NY IH]; intros s; cbn [aprun]; auto. easy.
  - clear -NX. induction NX as [|[p n| |k] y H NX IH]; intros s; cbn [aprun]; auto. easy.
Qed.

(* Examples: the call k after the sample program of Samples.v and before a further result() *)
Lemma after_sample e a k : im_psz (e_impl e) = I64 -> call_ok I64 k -> call_null_free k ->
  valid_program e a (CSeed 7) (sample ++ [SCall k] ++ [SResult]).
Proof.
  intros HP H1 H2. apply steps_valid; [exact HP|reflexivity|]. unfold steps_ok. rewrite !Forall_app.
  split; [exact sample_ok|]. split; repeat constructor; assumption.
Qed.
Ltac room_ex := match goal with a : alg |- _ => destruct a; try exact I; vm_compute; reflexivity end.
Ltac ex_side := first [exact env_pc_valid | exact env_be_valid | discriminate | exact I | apply after_sample; [reflexivity|ok|ok] | room_ex].

(* ---------- hash_append and the range functions feed the message ---------- *)
(* [q x]: the 64-bit result of the program so far followed by an update with x; only used for
   unordered containers *)
Definition is_query e a f c pre (L : nat) (q : list N -> N) : Prop :=
  forall x, bytes x -> (length x + 192 <= L)%nat ->
  exists rs r, runs e a f c (pre ++ [feed x; SResult]) = Ok (rs ++ [r]) /\ result64 r = q x.
Theorem append_feeds e a f c pre k post q m : valid_env e ->
  valid_program e a c (pre ++ [SCall k] ++ post) -> room e a c (pre ++ [SCall k] ++ post) ->
  is_query e a f c pre (call_blen k) q ->
  m = call_message (e_impl e) f k q ->
  exists rs, runs e a f c (pre ++ [SCall k] ++ post) = Ok rs /\ runs e a f c (pre ++ [feed m] ++ post) = Ok rs.
Proof.
  intros HE HV HR HQ ->.
  assert (EQ : call_message (e_impl e) f k q = call_message (e_impl e) f k (query e a f c pre)).
  { apply call_ext_b. intros x Bx Lx. destruct (HQ x Bx Lx) as (rs & r & E1 & E2).
    assert (HW : roomy e a c (weight pre + length x + 192)).
    { unfold room in HR. rewrite !weight_app in HR. apply (roomy_mono _ _ _ _ _ HR).
      unfold weight at 3. cbn [map step_weight lsum fold_right]. lia. }
    destruct (query_runs e a f c pre x HE (valid_app _ _ _ _ _ HV) Bx HW) as (rs' & r' & F1 & F2).
    unfold feed in E1. rewrite F1 in E1. injection E1 as E1. apply app_inj_tail in E1. destruct E1 as [_ <-]. congruence. }
  apply interchange; try assumption.
  - constructor; [|constructor]. split; [apply le_n|]. apply call_msg_bytes.
  - unfold weight. cbn [map step_weight lsum fold_right feed]. rewrite !Nat.add_0_r. apply call_blen_ok.
  - constructor; [discriminate|constructor].
  - constructor; [discriminate|constructor].
  - rewrite call_state, feed_state, EQ. reflexivity.
Qed.
(* such a q always exists *)
Theorem query_exists e a f c pre k post : valid_env e ->
  valid_program e a c (pre ++ [SCall k] ++ post) -> room e a c (pre ++ [SCall k] ++ post) ->
  exists q, is_query e a f c pre (call_blen k) q.
Proof.
  intros HE HV HR. exists (query e a f c pre). intros x Bx Lx. apply query_runs; [exact HE|eapply valid_app; exact HV|exact Bx|].
  unfold room in HR. rewrite !weight_app in HR. apply (roomy_mono _ _ _ _ _ HR).
  unfold weight at 3. cbn [map step_weight lsum fold_right]. lia.
Qed.
Example append_feeds_ex a : exists q rs,
  runs env_pc a le_flavor (CSeed 7) (sample ++ [SCall (KUnord (TInt I8 true) [VInt 3; VInt (-3)])] ++ [SResult]) = Ok rs /\
  runs env_pc a le_flavor (CSeed 7) (sample ++ [feed (call_message (e_impl env_pc) le_flavor (KUnord (TInt I8 true) [VInt 3; VInt (-3)]) q)] ++ [SResult]) = Ok rs.
Proof.
  set (k := KUnord (TInt I8 true) [VInt 3; VInt (-3)]).
  assert (HV : valid_program env_pc a (CSeed 7) (sample ++ [SCall k] ++ [SResult])) by (subst k; ex_side).
  assert (HR : room env_pc a (CSeed 7) (sample ++ [SCall k] ++ [SResult])) by room_ex.
  destruct (query_exists env_pc a le_flavor (CSeed 7) sample k [SResult] env_pc_valid HV HR) as (q & HQ).
  exists q. apply (append_feeds env_pc a le_flavor (CSeed 7) sample k [SResult] q); [exact env_pc_valid|exact HV|exact HR|exact HQ|reflexivity].
Qed.
(* without unordered containers no q is needed *)
Theorem append_feeds_ordered e a f c pre t v post q : valid_env e -> ordered t ->
  valid_program e a c (pre ++ [SAppend t v] ++ post) -> room e a c (pre ++ [SAppend t v] ++ post) ->
  exists rs, runs e a f c (pre ++ [SAppend t v] ++ post) = Ok rs /\
             runs e a f c (pre ++ [feed (message (e_impl e) f t v q)] ++ post) = Ok rs.
Proof.
  intros HE HO HV HR. destruct (query_exists e a f c pre (KVal t v) post HE HV HR) as (q' & HQ).
  apply (append_feeds e a f c pre (KVal t v) post q'); try assumption. change (call_message (e_impl e) f (KVal t v) q') with (message (e_impl e) f t v q').
  unfold message. now apply msg_q_indep.
Qed.
Example append_feeds_ordered_ex a : exists rs,
  runs env_pc a be32_flavor (CSeed 7) (sample ++ [SAppend (TVec (TInt I16 true)) (VList [VInt (-2); VInt 3])] ++ [SResult]) = Ok rs /\
  runs env_pc a be32_flavor (CSeed 7) (sample ++ [feed [0xFF; 0xFE; 0; 3; 0; 0; 0; 2]] ++ [SResult]) = Ok rs.
Proof. apply (append_feeds_ordered env_pc a be32_flavor (CSeed 7) sample (TVec (TInt I16 true)) (VList [VInt (-2); VInt 3]) [SResult] (fun _ => 0)); ex_side. Qed.

(* ---------- C26: scalars ---------- *)
(* the bytes of an integer in the byte order of the flavor *)
Definition int_bytes (f : flavor) (s : isz) (z : Z) : list N :=
  match fl_order f with ELittle => enc true (ibytes s) z | EBig => enc false (ibytes s) z end.
Definition scalar_bytes (i : impl) (f : flavor) (t : ty) (z : Z) : list N :=
  match t with
  | TInt s _ | TEnum s _ => int_bytes f s z
  | TBool => [Z.to_N z]                                  (* false: 0, true: 1 *)
  | TPtr => int_bytes f (im_psz i) z
  | TNullptr => repeat 0 (ibytes (im_psz i))
  | _ => []
  end.
Definition integer_like (t : ty) : Prop :=
  match t with TInt _ _ | TEnum _ _ | TBool | TPtr | TNullptr => True | _ => False end.
Theorem C26_scalars e a f c pre t z post : valid_env e -> integer_like t ->
  valid_program e a c (pre ++ [SAppend t (VInt z)] ++ post) -> room e a c (pre ++ [SAppend t (VInt z)] ++ post) ->
  exists rs, runs e a f c (pre ++ [SAppend t (VInt z)] ++ post) = Ok rs /\
             runs e a f c (pre ++ [feed (scalar_bytes (e_impl e) f t z)] ++ post) = Ok rs.
Proof.
  intros HE HI HV HR.
  assert (HT : has_type (im_psz (e_impl e)) t (VInt z)).
  { apply (valid_call _ _ _ _ _ _ HV). }
  replace (scalar_bytes (e_impl e) f t z) with (message (e_impl e) f t (VInt z) (fun _ => 0)).
  - apply append_feeds_ordered; try assumption. destruct t; try contradiction; exact I.
  - unfold message, scalar_bytes, int_bytes. destruct t; try contradiction; cbn [msg];
      try (destruct (fl_order f); reflexivity).
    + cbn [has_type] in HT. destruct HT as [-> | ->]; destruct (fl_order f); reflexivity.
    + destruct (im_psz (e_impl e)), (fl_order f); reflexivity.
Qed.
Example C26_scalars_ex a : exists rs,
  runs env_pc a be32_flavor (CSeed 7) (sample ++ [SAppend (TInt I32 true) (VInt (-2))] ++ [SResult]) = Ok rs /\
  runs env_pc a be32_flavor (CSeed 7) (sample ++ [feed [0xFF; 0xFF; 0xFF; 0xFE]] ++ [SResult]) = Ok rs.
Proof. apply (C26_scalars env_pc a be32_flavor (CSeed 7) sample (TInt I32 true) (-2) [SResult]); ex_side. Qed.
(* [enc] is two's complement: the bytes as a number are the value modulo 256^n *)
Theorem C26_enc le n z : length (enc le n z) = n /\ bytes (enc le n z) /\
  (Z.of_N (LE (if le then enc le n z else rev (enc le n z))) = z mod 2 ^ (8 * Z.of_nat n))%Z.
Proof.
  split; [apply enc_length|]. split; [apply enc_bytes|].
  assert (HP : (0 < 2 ^ (8 * Z.of_nat n))%Z) by (apply Z.pow_pos_nonneg; lia).
  pose proof (Z.mod_pos_bound z _ HP) as HB.
  assert (HL : Z.of_N (LE (toLE n (Z.to_N (z mod 2 ^ (8 * Z.of_nat n))))) = (z mod 2 ^ (8 * Z.of_nat n))%Z).
  { change LE with le_val. change toLE with le_bytes. rewrite le_val_bytes, N.mod_small.
    - now rewrite Z2N.id.
    - apply N2Z.inj_lt. rewrite Z2N.id by lia. rewrite N2Z.inj_pow, nat_N_Z. change (Z.of_N 256) with (2^8)%Z.
      rewrite <- Z.pow_mul_r by lia. apply HB. }
  unfold enc. destruct le; [exact HL|]. unfold toBE. rewrite rev_involutive. exact HL.
Qed.

(* ---------- C27: equal values ---------- *)
Lemma fadd0_zeros32 i : im_down i = false -> fadd0 i 8 23 0 = fadd0 i 8 23 (2^31).
Proof. intros H. unfold fadd0. change (is_nan 8 23 0) with false. change (is_nan 8 23 (2^31)) with false. cbn -[N.pow]. now rewrite H. Qed.
Lemma fadd0_zeros64 i : im_down i = false -> fadd0 i 11 52 0 = fadd0 i 11 52 (2^63).
Proof. intros H. unfold fadd0. change (is_nan 11 52 0) with false. change (is_nan 11 52 (2^63)) with false. cbn -[N.pow]. now rewrite H. Qed.

Lemma call_same e a f c pre k1 k2 post : valid_env e ->
  valid_program e a c (pre ++ [SCall k1] ++ post) -> room e a c (pre ++ [SCall k1] ++ post) ->
  room e a c (pre ++ [SCall k2] ++ post) ->
  valid_step (nul_of a) (e_impl e) (SCall k2) ->
  (forall q, call_message (e_impl e) f k1 q = call_message (e_impl e) f k2 q) ->
  exists rs, runs e a f c (pre ++ [SCall k1] ++ post) = Ok rs /\ runs e a f c (pre ++ [SCall k2] ++ post) = Ok rs.
Proof.
  intros HE HV R1 R2 HT EM. eexists. split; [now apply runs_expected|].
  rewrite runs_expected; [|exact HE| |exact R2].
  - f_equal. apply same_state; try reflexivity. rewrite !call_state. now rewrite EM.
  - apply (valid_replace e a c pre [SCall k1]); [exact HV|]. constructor; [exact HT|constructor].
Qed.

Theorem C27_equal_values e a f c pre t v1 v2 post : valid_env e -> im_down (e_impl e) = false ->
  valid_program e a c (pre ++ [SAppend t v1] ++ post) -> room e a c (pre ++ [SAppend t v1] ++ post) ->
  valid_program e a c (pre ++ [SAppend t v2] ++ post) -> room e a c (pre ++ [SAppend t v2] ++ post) ->
  equal t v1 v2 ->
  exists rs, runs e a f c (pre ++ [SAppend t v1] ++ post) = Ok rs /\ runs e a f c (pre ++ [SAppend t v2] ++ post) = Ok rs.
Proof.
  intros HE HD V1 R1 V2 R2 EQ. apply valid_call in V2. apply call_same; try assumption. intros q.
  change (message (e_impl e) f t v1 q = message (e_impl e) f t v2 q).
  unfold message. apply msg_equal; try assumption.
  - now apply fadd0_zeros32.
  - now apply fadd0_zeros64.
  - apply (valid_call _ _ _ _ _ _ V1).
  - apply V2.
Qed.
(* equal unordered sets of doubles: 0.0 and 1.0, 1.0 and -0.0 *)
Example C27_equal_values_ex a : exists rs,
  runs env_pc a be32_flavor (CSeed 7) (sample ++ [SAppend (TUnord TFlt64) (VList [VInt 0; VInt 0x3FF0000000000000])] ++ [SResult]) = Ok rs /\
  runs env_pc a be32_flavor (CSeed 7) (sample ++ [SAppend (TUnord TFlt64) (VList [VInt 0x3FF0000000000000; VInt (2^63)])] ++ [SResult]) = Ok rs.
Proof.
  apply C27_equal_values; try reflexivity; try ex_side.
  cbn [equal]. exists [VInt 0x3FF0000000000000; VInt 0]. split; [apply perm_swap|].
  apply Forall2_cons; [|apply Forall2_cons; [|apply Forall2_nil]].
  - split; [vm_compute; discriminate|]. split; [vm_compute; discriminate|]. now left.
  - split; [vm_compute; discriminate|]. split; [vm_compute; discriminate|]. right. split; reflexivity.
Qed.

(* ---------- C28: different values ---------- *)
Lemma fadd0_inj i e m a b : ~ flt_nan e m a -> ~ flt_nan e m b -> fadd0 i e m a = fadd0 i e m b ->
  a = b \/ flt_zero e m a /\ flt_zero e m b.
Proof.
  intros Na Nb. unfold fadd0.
  destruct (is_nan e m a) eqn:Ea; [now apply is_nan_spec in Ea|].
  destruct (is_nan e m b) eqn:Eb; [now apply is_nan_spec in Eb|].
  assert (Z1 : flt_zero e m (2 ^ (e + m))) by (unfold flt_zero; apply N.mod_same; now apply N.pow_nonzero).
  assert (Z0 : flt_zero e m 0) by (unfold flt_zero; apply N.mod_0_l; now apply N.pow_nonzero).
  destruct (N.eqb_spec a (2 ^ (e + m))) as [->|Ha]; destruct (N.eqb_spec b (2 ^ (e + m))) as [->|Hb];
    destruct (im_down i); intros H; subst; auto.
Qed.
Lemma fadd0_bound i e m k a : ~ flt_nan e m a -> a < k -> fadd0 i e m a < k.
Proof.
  intros Na Ha. unfold fadd0. destruct (is_nan e m a) eqn:Ea; [now apply is_nan_spec in Ea|].
  destruct (a =? 2 ^ (e + m)); [destruct (im_down i); lia|exact Ha].
Qed.
(* messages can be parsed from the end: what precedes the message of a value is determined, and
   the value up to == *)
Theorem C28_parse i f t v1 v2 p1 p2 q1 q2 : decodable t ->
  has_type (im_psz i) t v1 -> has_type (im_psz i) t v2 -> regular (fl_size f) t v1 -> regular (fl_size f) t v2 ->
  p1 ++ message i f t v1 q1 = p2 ++ message i f t v2 q2 -> p1 = p2 /\ equal t v1 v2.
Proof.
  intros HO. unfold message. apply msg_inj; [..|exact HO]; intros.
  - eapply fadd0_inj; eassumption.
  - eapply fadd0_inj; eassumption.
  - now apply fadd0_bound.
  - now apply fadd0_bound.
Qed.
(* sequences of hash_append calls: the bytes fed determine the values *)
Theorem C28_sequences i f ts vs1 vs2 q1 q2 : Forall decodable ts ->
  Zip (has_type (im_psz i)) ts vs1 -> Zip (has_type (im_psz i)) ts vs2 ->
  ZipW (regular (fl_size f)) ts vs1 -> ZipW (regular (fl_size f)) ts vs2 ->
  tup_msg (order_le (fl_order f)) (fl_size f) (im_psz i) (fadd0 i 8 23) (fadd0 i 11 52) ts vs1 q1 =
  tup_msg (order_le (fl_order f)) (fl_size f) (im_psz i) (fadd0 i 8 23) (fadd0 i 11 52) ts vs2 q2 ->
  Zip2 equal ts vs1 vs2.
Proof.
  intros HO T1 T2 R1 R2 E. destruct ts as [|t ts]; [destruct vs1, vs2; easy|].
  apply equal_tuple. apply (C28_parse i f (TTuple (t :: ts)) (VList vs1) (VList vs2) [] [] q1 q2).
  - now apply decodable_tuple.
  - now apply has_type_tuple.
  - now apply has_type_tuple.
  - now apply regular_tuple.
  - now apply regular_tuple.
  - unfold message. rewrite !msg_tuple by discriminate. exact E.
Qed.
(* ( "ab", "c" ) and ( "a", "bc" ): different messages, although the characters concatenate to the same *)
Example C28_sequences_ex i f q1 q2 : let ts := [TVec (TInt I8 true); TVec (TInt I8 true)] in
  tup_msg (order_le (fl_order f)) (fl_size f) (im_psz i) (fadd0 i 8 23) (fadd0 i 11 52) ts
    [VList [VInt 97; VInt 98]; VList [VInt 99]] q1 <>
  tup_msg (order_le (fl_order f)) (fl_size f) (im_psz i) (fadd0 i 8 23) (fadd0 i 11 52) ts
    [VList [VInt 97]; VList [VInt 98; VInt 99]] q2.
Proof.
  intros ts E. subst ts. apply C28_sequences in E.
  - cbn in E. destruct E as [E _]. inversion E as [|? ? ? ? ? HF]. inversion HF.
  - repeat constructor.
  - ok.
  - ok.
  - destruct f as [[] o]; cbn; repeat split; repeat constructor.
  - destruct f as [[] o]; cbn; repeat split; repeat constructor.
Qed.

(* ---------- C29: every value contributes ---------- *)
Theorem C29_nonempty i f t v q : has_type (im_psz i) t v -> message i f t v q <> [].
Proof. apply msg_nonempty. Qed.

(* ---------- C30: unordered containers ---------- *)
Theorem C30_iteration_order e a f c pre t vs vs' post : valid_env e ->
  valid_program e a c (pre ++ [SAppend (TUnord t) (VList vs)] ++ post) -> room e a c (pre ++ [SAppend (TUnord t) (VList vs)] ++ post) ->
  Permutation vs vs' ->
  exists rs, runs e a f c (pre ++ [SAppend (TUnord t) (VList vs)] ++ post) = Ok rs /\
             runs e a f c (pre ++ [SAppend (TUnord t) (VList vs')] ++ post) = Ok rs.
Proof.
  intros HE HV HR HP.
  assert (HT : has_type (im_psz (e_impl e)) (TUnord t) (VList vs)).
  { apply (valid_call _ _ _ _ _ _ HV). }
  pose proof (valid_call _ _ _ _ _ _ HV) as [_ HN].
  apply call_same; try assumption.
  - eapply room_replace; [exact HR|]. unfold weight. cbn [map step_weight lsum fold_right call_blen blen form_blen].
    assert (lsum (map (fun v => (192 + blen t v)%nat) vs') = lsum (map (fun v => (192 + blen t v)%nat) vs)); [|lia].
    clear -HP. unfold lsum. induction HP; cbn [map fold_right]; lia.
  - cbn [valid_step call_ok call_null_free has_type null_free form_ok form_null] in *. split.
    + eapply Permutation_Forall; eassumption.
    + intros H. destruct (HN H) as [H1|H1]; [now left|right]. eapply Permutation_Forall; eassumption.
  - intros q. unfold call_message. cbn [call_msg msg form_msg]. rewrite (Permutation_length HP). do 3 f_equal.
    apply sum64_perm. now apply Permutation_map.
Qed.
Example C30_iteration_order_ex a : exists rs,
  runs env_pc a be32_flavor (CSeed 7) (sample ++ [SAppend (TUnord (TInt I16 false)) (VList [VInt 1; VInt 2])] ++ [SResult]) = Ok rs /\
  runs env_pc a be32_flavor (CSeed 7) (sample ++ [SAppend (TUnord (TInt I16 false)) (VList [VInt 2; VInt 1])] ++ [SResult]) = Ok rs.
Proof. apply C30_iteration_order; first [apply Permutation.perm_swap | ex_side]. Qed.

(* ---------- C31: the kind of container does not matter ---------- *)
Theorem C31_sequences e a f c pre t vs k k' post : valid_env e ->
  valid_program e a c (pre ++ [SAppend (TVec t) (VList vs)] ++ post) -> room e a c (pre ++ [SAppend (TVec t) (VList vs)] ++ post) ->
  exists rs, runs e a f c (pre ++ [SAppend (TVec t) (VList vs)] ++ post) = Ok rs /\
             runs e a f c (pre ++ [SAppend (TList k t) (VList vs)] ++ post) = Ok rs /\
             runs e a f c (pre ++ [SAppend (TList k' t) (VList vs)] ++ post) = Ok rs.
Proof.
  intros HE HV HR.
  assert (HT : has_type (im_psz (e_impl e)) (TVec t) (VList vs)).
  { apply (valid_call _ _ _ _ _ _ HV). }
  assert (HK : forall k, exists rs, runs e a f c (pre ++ [SAppend (TVec t) (VList vs)] ++ post) = Ok rs /\
             runs e a f c (pre ++ [SAppend (TList k t) (VList vs)] ++ post) = Ok rs).
  { intros k0. apply call_same; try assumption; try reflexivity. 
    - eapply room_replace; [exact HR|apply le_n].
    - split; [exact HT|]. intros H. destruct (proj2 (valid_call _ _ _ _ _ _ HV) H) as [H1|H1]; [now left|right]. apply H1. }
  destruct (HK k) as (r1 & E1 & E2). destruct (HK k') as (r2 & E3 & E4). exists r1. split; [exact E1|]. split; [exact E2|].
  congruence.
Qed.
Example C31_sequences_ex a : exists rs,
  runs env_pc a be32_flavor (CSeed 7) (sample ++ [SAppend (TVec (TInt I16 false)) (VList [VInt 1; VInt 2])] ++ [SResult]) = Ok rs /\
  runs env_pc a be32_flavor (CSeed 7) (sample ++ [SAppend (TList CRandom (TInt I16 false)) (VList [VInt 1; VInt 2])] ++ [SResult]) = Ok rs /\
  runs env_pc a be32_flavor (CSeed 7) (sample ++ [SAppend (TList CInput (TInt I16 false)) (VList [VInt 1; VInt 2])] ++ [SResult]) = Ok rs.
Proof. apply C31_sequences;  ex_side. Qed.
Definition all_same (t : ty) (n : nat) : list ty := repeat t n.
Lemma tup_seq le ss psz a b t vs : forall q, tup_msg le ss psz a b (repeat t (length vs)) vs q = seq_msg (msg le ss psz a b t) vs q.
Proof. induction vs as [|v vs IH]; intros q; [reflexivity|]. cbn [length repeat tup_msg seq_msg]. f_equal. apply IH. Qed.
Lemma zip_repeat P t vs : Forall (P t) vs -> Zip P (repeat t (length vs)) vs.
Proof. induction 1; cbn [length repeat Zip]; auto. Qed.
Lemma zipw_repeat P t vs : Forall (P t) vs -> ZipW P (repeat t (length vs)) vs.
Proof. induction 1; cbn [length repeat ZipW]; auto. Qed.
Lemma tup_blen_repeat t vs : tup_blen (repeat t (length vs)) vs = lsum (map (blen t) vs).
Proof. induction vs as [|v vs IH]; [reflexivity|]. cbn [length repeat tup_blen map lsum fold_right]. rewrite IH. reflexivity. Qed.
(* C array, std::array, non-contiguous constant-size range, and tuple of the same elements *)
Theorem C31_arrays e a f c pre t vs post : valid_env e -> vs <> [] ->
  valid_program e a c (pre ++ [SAppend (TCArr (length vs) t) (VList vs)] ++ post) ->
  room e a c (pre ++ [SAppend (TCArr (length vs) t) (VList vs)] ++ post) ->
  exists rs, runs e a f c (pre ++ [SAppend (TCArr (length vs) t) (VList vs)] ++ post) = Ok rs /\
             runs e a f c (pre ++ [SAppend (TArr (length vs) t) (VList vs)] ++ post) = Ok rs /\
             runs e a f c (pre ++ [SAppend (TArrN (length vs) t) (VList vs)] ++ post) = Ok rs /\
             runs e a f c (pre ++ [SAppend (TTuple (all_same t (length vs))) (VList vs)] ++ post) = Ok rs.
Proof.
  intros HE HN HV HR.
  assert (HT : has_type (im_psz (e_impl e)) (TCArr (length vs) t) (VList vs)).
  { apply (valid_call _ _ _ _ _ _ HV). }
  assert (HF : Forall (has_type (im_psz (e_impl e)) t) vs) by apply HT.
  assert (HK : forall t', has_type (im_psz (e_impl e)) t' (VList vs) -> blen t' (VList vs) = blen (TCArr (length vs) t) (VList vs) ->
     (forall q, message (e_impl e) f (TCArr (length vs) t) (VList vs) q = message (e_impl e) f t' (VList vs) q) ->
     (Forall (null_free t) vs -> null_free t' (VList vs)) ->
     exists rs, runs e a f c (pre ++ [SAppend (TCArr (length vs) t) (VList vs)] ++ post) = Ok rs /\
             runs e a f c (pre ++ [SAppend t' (VList vs)] ++ post) = Ok rs).
  { intros t' T' W' M' N'. apply call_same; try assumption.
    - eapply room_replace; [exact HR|]. unfold weight. cbn [map step_weight lsum fold_right call_blen form_blen]. rewrite W'. lia.
    - split; [exact T'|]. intros H. destruct (proj2 (valid_call _ _ _ _ _ _ HV) H) as [H1|H1]; [now left|right]. now apply N'. }
  destruct (HK (TArr (length vs) t)) as (r1 & E1 & E2); [split; [reflexivity|exact HF]|reflexivity| |trivial|].
  { intros q. unfold message. cbn [msg]. destruct vs; [easy|reflexivity]. }
  destruct (HK (TArrN (length vs) t)) as (r2 & E3 & E4); [split; [reflexivity|exact HF]|reflexivity| |trivial|].
  { intros q. unfold message. cbn [msg]. destruct vs; [easy|reflexivity]. }
  destruct (HK (TTuple (all_same t (length vs)))) as (r3 & E5 & E6).
  { apply has_type_tuple. now apply zip_repeat. }
  { unfold all_same. rewrite blen_tuple, tup_blen_repeat. reflexivity. }
  { intros q. unfold message. rewrite msg_tuple by (destruct vs; [easy|discriminate]).
    unfold all_same. rewrite tup_seq. reflexivity. }
  { intros H. apply null_free_tuple. now apply zipw_repeat. }
  exists r1. split; [exact E1|]. split; [exact E2|]. split; congruence.
Qed.
Example C31_arrays_ex a : exists rs,
  runs env_pc a be32_flavor (CSeed 7) (sample ++ [SAppend (TCArr 2 (TInt I16 false)) (VList [VInt 1; VInt 2])] ++ [SResult]) = Ok rs /\
  runs env_pc a be32_flavor (CSeed 7) (sample ++ [SAppend (TArr 2 (TInt I16 false)) (VList [VInt 1; VInt 2])] ++ [SResult]) = Ok rs /\
  runs env_pc a be32_flavor (CSeed 7) (sample ++ [SAppend (TArrN 2 (TInt I16 false)) (VList [VInt 1; VInt 2])] ++ [SResult]) = Ok rs /\
  runs env_pc a be32_flavor (CSeed 7) (sample ++ [SAppend (TTuple [TInt I16 false; TInt I16 false]) (VList [VInt 1; VInt 2])] ++ [SResult]) = Ok rs.
Proof. apply C31_arrays with (vs := [VInt 1; VInt 2]) (t := TInt I16 false);  ex_side. Qed.

(* ---------- C32: composites are their parts in sequence ---------- *)
Fixpoint parts (ts : list ty) (vs : list val) : list ustep :=
  match ts, vs with
  | t :: ts, v :: vs => SAppend t v :: parts ts vs
  | _, _ => []
  end.
Lemma parts_valid nul i ts : forall vs, Zip (has_type (im_psz i)) ts vs ->
  (im_null i = true -> nul = true \/ ZipW null_free ts vs) -> Forall (valid_step nul i) (parts ts vs).
Proof.
  induction ts as [|t ts IH]; intros [|v vs] H HN; cbn [parts]; try constructor.
  - split; [apply H|]. intros E. destruct (HN E) as [H1|H1]; [now left|right; apply H1].
  - apply IH; [apply H|]. intros E. destruct (HN E) as [H1|H1]; [now left|right; apply H1].
Qed.
Lemma parts_weight ts : forall vs, weight (parts ts vs) = tup_blen ts vs.
Proof. induction ts as [|t ts IH]; intros [|v vs]; cbn [parts tup_blen]; try reflexivity. rewrite weight_cons, IH. reflexivity. Qed.
Lemma parts_noresult ts : forall vs, Forall (fun s => s <> SResult) (parts ts vs).
Proof. induction ts as [|t ts IH]; intros [|v vs]; cbn [parts]; constructor; [discriminate|apply IH]. Qed.
Lemma parts_state cw a i f ts : forall vs s,
  asteps (mc_au (machine_of cw a)) (mc_ar (machine_of cw a)) result64 (call_message i f) s (parts ts vs) =
  mc_au (machine_of cw a) s (tup_msg (order_le (fl_order f)) (fl_size f) (im_psz i) (fadd0 i 8 23) (fadd0 i 11 52) ts vs
    (aq (mc_au (machine_of cw a)) (mc_ar (machine_of cw a)) result64 s)).
Proof.
  induction ts as [|t ts IH]; intros [|v vs] s; cbn [parts asteps tup_msg]; try (symmetry; apply machine_nil).
  rewrite IH, machine_app. f_equal. f_equal. apply tup_msg_q. intros m. unfold aq, shift. now rewrite machine_app.
Qed.
Lemma composite e a f c pre k ps post : valid_env e ->
  valid_program e a c (pre ++ [SCall k] ++ post) -> room e a c (pre ++ [SCall k] ++ post) ->
  Forall (valid_step (nul_of a) (e_impl e)) ps -> Forall (fun s => s <> SResult) ps -> (weight ps <= call_blen k)%nat ->
  (forall s, asteps (mc_au (machine_of (e_cw e) a)) (mc_ar (machine_of (e_cw e) a)) result64 (call_message (e_impl e) f) s ps =
    mc_au (machine_of (e_cw e) a) s (call_message (e_impl e) f k (aq (mc_au (machine_of (e_cw e) a)) (mc_ar (machine_of (e_cw e) a)) result64 s))) ->
  exists rs, runs e a f c (pre ++ [SCall k] ++ post) = Ok rs /\ runs e a f c (pre ++ ps ++ post) = Ok rs.
Proof.
  intros HE HV HR VP NP WP HS. apply interchange; try assumption.
  - unfold weight at 2. cbn [map step_weight lsum fold_right]. lia.
  - constructor; [discriminate|constructor].
  - unfold state. rewrite !asteps_app, HS. reflexivity.
Qed.
(* tuple and pair, and classes with a tag_invoke that appends these members *)
Theorem C32_tuple e a f c pre ts vs post : valid_env e -> ts <> [] ->
  valid_program e a c (pre ++ [SAppend (TTuple ts) (VList vs)] ++ post) -> room e a c (pre ++ [SAppend (TTuple ts) (VList vs)] ++ post) ->
  exists rs, runs e a f c (pre ++ [SAppend (TTuple ts) (VList vs)] ++ post) = Ok rs /\
             runs e a f c (pre ++ parts ts vs ++ post) = Ok rs.
Proof.
  intros HE HN HV HR.
  assert (HT : has_type (im_psz (e_impl e)) (TTuple ts) (VList vs)).
  { apply (valid_call _ _ _ _ _ _ HV). }
  apply composite; try assumption.
  - apply parts_valid; [now apply has_type_tuple|]. intros H; destruct (proj2 (valid_call _ _ _ _ _ _ HV) H) as [H1|H1]; [now left|right]. now apply null_free_tuple.
  - apply parts_noresult.
  - rewrite parts_weight. cbn [call_blen form_blen]. rewrite blen_tuple. lia.
  - intros s. rewrite parts_state. unfold call_message. cbn [call_msg form_msg]. rewrite msg_tuple by exact HN. reflexivity.
Qed.
Example C32_tuple_ex a : exists rs,
  runs env_pc a be32_flavor (CSeed 7) (sample ++ [SAppend (TTuple [TInt I32 true; TBool]) (VList [VInt (-5); VInt 1])] ++ [SResult]) = Ok rs /\
  runs env_pc a be32_flavor (CSeed 7) (sample ++ [SAppend (TInt I32 true) (VInt (-5)); SAppend TBool (VInt 1)] ++ [SResult]) = Ok rs.
Proof. apply C32_tuple with (ts := [TInt I32 true; TBool]) (vs := [VInt (-5); VInt 1]);  ex_side. Qed.
Theorem C32_described e a f c pre bs ms bv mv post : valid_env e -> (bs <> [] \/ ms <> []) ->
  valid_program e a c (pre ++ [SAppend (TDesc bs ms) (VList [VList bv; VList mv])] ++ post) ->
  room e a c (pre ++ [SAppend (TDesc bs ms) (VList [VList bv; VList mv])] ++ post) ->
  exists rs, runs e a f c (pre ++ [SAppend (TDesc bs ms) (VList [VList bv; VList mv])] ++ post) = Ok rs /\
             runs e a f c (pre ++ (parts bs bv ++ parts ms mv) ++ post) = Ok rs.
Proof.
  intros HE HN HV HR.
  assert (HT : has_type (im_psz (e_impl e)) (TDesc bs ms) (VList [VList bv; VList mv])).
  { apply (valid_call _ _ _ _ _ _ HV). }
  apply has_type_desc in HT. destruct HT as [HB HM].
  apply composite; try assumption.
  - apply Forall_app. split; apply parts_valid; try assumption; (intros H; destruct (proj2 (valid_call _ _ _ _ _ _ HV) H) as [H1|H1]; [now left|right]; now apply null_free_desc in H1).
  - apply Forall_app. split; apply parts_noresult.
  - rewrite weight_app, !parts_weight. cbn [call_blen form_blen]. rewrite blen_desc. lia.
  - intros s. rewrite asteps_app, !parts_state. rewrite machine_app. f_equal. unfold call_message. cbn [call_msg form_msg]. rewrite msg_desc by exact HN.
    f_equal. apply tup_msg_q. intros m. unfold aq, shift. now rewrite machine_app.
Qed.
Example C32_described_ex a : exists rs,
  runs env_pc a be32_flavor (CSeed 7) (sample ++ [SAppend (TDesc [TInt I64 true] [TInt I32 true; TBool]) (VList [VList [VInt 9]; VList [VInt (-5); VInt 1]])] ++ [SResult]) = Ok rs /\
  runs env_pc a be32_flavor (CSeed 7) (sample ++ [SAppend (TInt I64 true) (VInt 9); SAppend (TInt I32 true) (VInt (-5)); SAppend TBool (VInt 1)] ++ [SResult]) = Ok rs.
Proof. apply C32_described with (bs := [TInt I64 true]) (ms := [TInt I32 true; TBool]) (bv := [VInt 9]) (mv := [VInt (-5); VInt 1]); try (left; discriminate); ex_side. Qed.
Lemma seq_parts cw a i f t vs : forall s,
  asteps (mc_au (machine_of cw a)) (mc_ar (machine_of cw a)) result64 (call_message i f) s (parts (repeat t (length vs)) vs) =
  mc_au (machine_of cw a) s (seq_msg (message i f t) vs (aq (mc_au (machine_of cw a)) (mc_ar (machine_of cw a)) result64 s)).
Proof. intros s. rewrite parts_state. f_equal. apply tup_seq. Qed.
(* arrays *)
Theorem C32_array e a f c pre n t vs post : valid_env e -> n <> 0%nat ->
  valid_program e a c (pre ++ [SAppend (TArr n t) (VList vs)] ++ post) -> room e a c (pre ++ [SAppend (TArr n t) (VList vs)] ++ post) ->
  exists rs, runs e a f c (pre ++ [SAppend (TArr n t) (VList vs)] ++ post) = Ok rs /\
             runs e a f c (pre ++ parts (all_same t n) vs ++ post) = Ok rs.
Proof.
  intros HE HN HV HR.
  assert (HT : has_type (im_psz (e_impl e)) (TArr n t) (VList vs)).
  { apply (valid_call _ _ _ _ _ _ HV). }
  destruct HT as [<- HF]. apply composite; try assumption.
  - apply parts_valid; unfold all_same; [now apply zip_repeat|]. intros H; destruct (proj2 (valid_call _ _ _ _ _ _ HV) H) as [H1|H1]; [now left|right]. now apply zipw_repeat.
  - apply parts_noresult.
  - unfold all_same. rewrite parts_weight, tup_blen_repeat. cbn [call_blen blen form_blen]. lia.
  - intros s. unfold all_same. rewrite seq_parts. f_equal. destruct vs; [easy|reflexivity].
Qed.
Example C32_array_ex a : exists rs,
  runs env_pc a be32_flavor (CSeed 7) (sample ++ [SAppend (TArr 2 (TInt I16 false)) (VList [VInt 1; VInt 2])] ++ [SResult]) = Ok rs /\
  runs env_pc a be32_flavor (CSeed 7) (sample ++ [SAppend (TInt I16 false) (VInt 1); SAppend (TInt I16 false) (VInt 2)] ++ [SResult]) = Ok rs.
Proof. apply C32_array with (n := 2%nat) (t := TInt I16 false) (vs := [VInt 1; VInt 2]);  ex_side. Qed.
(* sized ranges: the elements, then the size as a value of the flavor's size_type *)
Definition size_value (f : flavor) (n : nat) : Z := (Z.of_nat n mod 2 ^ (8 * Z.of_nat (ibytes (fl_size f))))%Z.
Theorem C32_range e a f c pre t vs post : valid_env e ->
  valid_program e a c (pre ++ [SAppend (TVec t) (VList vs)] ++ post) -> room e a c (pre ++ [SAppend (TVec t) (VList vs)] ++ post) ->
  exists rs, runs e a f c (pre ++ [SAppend (TVec t) (VList vs)] ++ post) = Ok rs /\
             runs e a f c (pre ++ (parts (all_same t (length vs)) vs ++
                                   [SAppend (TInt (fl_size f) false) (VInt (size_value f (length vs)))]) ++ post) = Ok rs.
Proof.
  intros HE HV HR.
  assert (HT : has_type (im_psz (e_impl e)) (TVec t) (VList vs)).
  { apply (valid_call _ _ _ _ _ _ HV). }
  cbn [has_type] in HT. apply composite; try assumption.
  - apply Forall_app. split; [apply parts_valid; unfold all_same; [now apply zip_repeat|]; intros H; destruct (proj2 (valid_call _ _ _ _ _ _ HV) H) as [H1|H1]; [now left|right]; apply zipw_repeat, H1|].
    constructor; [|constructor]. cbn [valid_step call_ok call_null_free has_type null_free form_ok form_null]. split; [|intros _; now right]. unfold in_int, size_value.
    apply Z.mod_pos_bound. apply Z.pow_pos_nonneg; lia.
  - apply Forall_app. split; [apply parts_noresult|]. constructor; [discriminate|constructor].
  - unfold all_same. rewrite weight_app, parts_weight, tup_blen_repeat. unfold weight. cbn [map step_weight lsum fold_right call_blen blen form_blen]. lia.
  - intros s. unfold all_same. rewrite asteps_app, seq_parts. cbn [asteps]. rewrite machine_app. f_equal.
    unfold call_message. cbn [call_msg msg form_msg]. f_equal. unfold size_msg, size_value, enc. rewrite Z.mod_mod; [reflexivity|].
    apply Z.pow_nonzero; lia.
Qed.
Example C32_range_ex a : exists rs,
  runs env_pc a be32_flavor (CSeed 7) (sample ++ [SAppend (TVec (TInt I16 false)) (VList [VInt 1; VInt 2])] ++ [SResult]) = Ok rs /\
  runs env_pc a be32_flavor (CSeed 7) (sample ++ [SAppend (TInt I16 false) (VInt 1); SAppend (TInt I16 false) (VInt 2); SAppend (TInt I32 false) (VInt 2)] ++ [SResult]) = Ok rs.
Proof. apply C32_range with (t := TInt I16 false) (vs := [VInt 1; VInt 2]);  ex_side. Qed.

(* ---------- C41: the range functions called directly ---------- *)
(* hash_append_range: one hash_append per element, whatever the iterators *)
Theorem C41_range e a f c pre k t vs post : valid_env e ->
  valid_program e a c (pre ++ [SCall (KRange k t vs)] ++ post) -> room e a c (pre ++ [SCall (KRange k t vs)] ++ post) ->
  exists rs, runs e a f c (pre ++ [SCall (KRange k t vs)] ++ post) = Ok rs /\
             runs e a f c (pre ++ parts (all_same t (length vs)) vs ++ post) = Ok rs.
Proof.
  intros HE HV HR. destruct (valid_call _ _ _ _ _ _ HV) as [HT HN]. cbn [call_ok form_ok] in HT.
  apply composite; try assumption.
  - apply parts_valid; unfold all_same; [now apply zip_repeat|]. intros H; destruct (HN H) as [H1|H1]; [now left|right].
    apply zipw_repeat. destruct k; [apply H1|exact H1].
  - apply parts_noresult.
  - unfold all_same. rewrite parts_weight, tup_blen_repeat. apply le_n.
  - intros s. unfold all_same. apply seq_parts.
Qed.
Example C41_range_ex a : exists rs,
  runs env_pc a be32_flavor (CSeed 7) (sample ++ [SCall (KRange IPtr (TInt I16 false) [VInt 1; VInt 2])] ++ [SResult]) = Ok rs /\
  runs env_pc a be32_flavor (CSeed 7) (sample ++ [SAppend (TInt I16 false) (VInt 1); SAppend (TInt I16 false) (VInt 2)] ++ [SResult]) = Ok rs.
Proof. apply C41_range with (t := TInt I16 false) (vs := [VInt 1; VInt 2]);  ex_side. Qed.
(* hash_append_sized_range: the same as hash_append of a container with these elements *)
Theorem C41_sized_range e a f c pre k t vs post : valid_env e ->
  valid_program e a c (pre ++ [SCall (KSized k t vs)] ++ post) -> room e a c (pre ++ [SCall (KSized k t vs)] ++ post) ->
  forall ic, exists rs, runs e a f c (pre ++ [SCall (KSized k t vs)] ++ post) = Ok rs /\
             runs e a f c (pre ++ [SAppend (TList ic t) (VList vs)] ++ post) = Ok rs.
Proof.
  intros HE HV HR ic. destruct (valid_call _ _ _ _ _ _ HV) as [HT HN]. cbn [call_ok form_ok] in HT.
  apply call_same; try assumption; try reflexivity; [eapply room_replace; [exact HR|apply le_n]|]. split; [exact HT|].
  intros H; destruct (HN H) as [H1|H1]; [now left|right]. cbn [call_null_free null_free form_null] in *. destruct k; [apply H1|exact H1].
Qed.
Example C41_sized_range_ex a : exists rs,
  runs env_pc a be32_flavor (CSeed 7) (sample ++ [SCall (KSized IPtr (TInt I16 false) [VInt 1; VInt 2])] ++ [SResult]) = Ok rs /\
  runs env_pc a be32_flavor (CSeed 7) (sample ++ [SAppend (TList CInput (TInt I16 false)) (VList [VInt 1; VInt 2])] ++ [SResult]) = Ok rs.
Proof. apply C41_sized_range;  ex_side. Qed.
(* hash_append_unordered_range: the same as hash_append of an unordered container *)
Theorem C41_unordered_range e a f c pre t vs post : valid_env e ->
  valid_program e a c (pre ++ [SCall (KUnord t vs)] ++ post) -> room e a c (pre ++ [SCall (KUnord t vs)] ++ post) ->
  exists rs, runs e a f c (pre ++ [SCall (KUnord t vs)] ++ post) = Ok rs /\
             runs e a f c (pre ++ [SAppend (TUnord t) (VList vs)] ++ post) = Ok rs.
Proof.
  intros HE HV HR. apply call_same; try assumption; try reflexivity; [eapply room_replace; [exact HR|apply le_n]|]. exact (valid_call _ _ _ _ _ _ HV).
Qed.
Example C41_unordered_range_ex a : exists rs,
  runs env_pc a be32_flavor (CSeed 7) (sample ++ [SCall (KUnord (TInt I16 false) [VInt 1; VInt 2])] ++ [SResult]) = Ok rs /\
  runs env_pc a be32_flavor (CSeed 7) (sample ++ [SAppend (TUnord (TInt I16 false)) (VList [VInt 1; VInt 2])] ++ [SResult]) = Ok rs.
Proof. apply C41_unordered_range;  ex_side. Qed.
(* hash_append_size: the value converted to size_type *)
Theorem C41_size e a f c pre z post : valid_env e ->
  valid_program e a c (pre ++ [SCall (KSize z)] ++ post) -> room e a c (pre ++ [SCall (KSize z)] ++ post) ->
  exists rs, runs e a f c (pre ++ [SCall (KSize z)] ++ post) = Ok rs /\
             runs e a f c (pre ++ [SAppend (TInt (fl_size f) false) (VInt (z mod 2 ^ (8 * Z.of_nat (ibytes (fl_size f)))))] ++ post) = Ok rs.
Proof.
  intros HE HV HR. apply call_same; try assumption.
  - eapply room_replace; [exact HR|apply le_n].
  - split; [|intros _; now right]. cbn [call_ok has_type form_ok]. unfold in_int. apply Z.mod_pos_bound. apply Z.pow_pos_nonneg; lia.
  - intros q. unfold call_message. cbn [call_msg msg form_msg]. unfold enc. rewrite Z.mod_mod; [reflexivity|]. apply Z.pow_nonzero; lia.
Qed.
Example C41_size_ex a : exists rs,
  runs env_pc a be32_flavor (CSeed 7) (sample ++ [SCall (KSize 4294967298)] ++ [SResult]) = Ok rs /\
  runs env_pc a be32_flavor (CSeed 7) (sample ++ [SAppend (TInt I32 false) (VInt 2)] ++ [SResult]) = Ok rs.
Proof. apply C41_size with (z := 4294967298%Z);  ex_side. Qed.

(* ---------- C40: sizes ---------- *)
Theorem C40_size f n1 n2 :
  size_msg (order_le (fl_order f)) (fl_size f) n1 = size_msg (order_le (fl_order f)) (fl_size f) n2 <->
  (Z.of_nat n1 mod 2 ^ (8 * Z.of_nat (ibytes (fl_size f))) = Z.of_nat n2 mod 2 ^ (8 * Z.of_nat (ibytes (fl_size f))))%Z.
Proof.
  unfold size_msg. split; intros H.
  - pose proof (C26_enc (order_le (fl_order f)) (ibytes (fl_size f)) (Z.of_nat n1)) as (_ & _ & <-).
    pose proof (C26_enc (order_le (fl_order f)) (ibytes (fl_size f)) (Z.of_nat n2)) as (_ & _ & <-).
    now rewrite H.
  - unfold enc. now rewrite H.
Qed.

(* ---------- the message as seen by a recording hash algorithm ---------- *)
(* A user-defined hash algorithm that records the bytes it is fed *)
Definition recorder : hasher :=
  {| h_S := list N; h_R := list N; h_init := []; h_seed := fun _ => Ok []; h_bytes := fun _ _ => Ok [];
     h_update := fun s p n => l <- padd p n ;; Ok (s ++ data p n); h_result := fun s => Ok (s, s) |}.
Lemma recorder_refines : refines recorder true (list N) (fun l d => l ++ d) (fun l => (l, l)) (fun _ => True) eq.
Proof.
  constructor.
  - intros a s p n <- _ V _. exists (a ++ data p n). split; [|reflexivity]. cbn [recorder h_update].
    destruct p as [|l]; [destruct V as [_ ->]; reflexivity|]. rewrite padd_ok by apply V. reflexivity.
  - intros a s <- _ _. exists a. split; reflexivity.
  - apply app_nil_r.
  - intros. symmetry. apply app_assoc.
Qed.
Theorem append_records (g : list N -> N) i f t v st : has_type (im_psz i) t v ->
  ha recorder (fun r => Ok (g r)) i f t v st = Ok (st ++ message i f t v (fun m => g (st ++ m))).
Proof.
  intros HT. destruct (ha_msg recorder true (list N) (fun l d => l ++ d) (fun l => (l, l)) (fun _ => True) eq
    recorder_refines (fun _ _ => True) (fits_true _ _ _ (fun _ => I)) (fun r => Ok (g r)) g (fun _ => eq_refl) i f
    (fun _ => eq_refl) t v st st eq_refl HT I) as (s' & E & R). rewrite E. f_equal. symmetry. exact R.
Qed.

(* C27 needs the rounding mode: rounding towards -infinity keeps -0 + 0 = -0 *)
Theorem C27_downward_refuted i f q : im_down i = true ->
  equal TFlt32 (VInt 0) (VInt (2^31)) /\ message i f TFlt32 (VInt 0) q <> message i f TFlt32 (VInt (2^31)) q.
Proof.
  intros HD. split.
  - cbn [equal]. unfold flt_equal, flt_nan, flt_zero. vm_compute. repeat split; try discriminate. now right.
  - unfold message. cbn [msg]. unfold fadd0. change (is_nan 8 23 (Z.to_N 0)) with false.
    change (is_nan 8 23 (Z.to_N (2 ^ 31))) with false. cbn -[enc]. rewrite HD.
    destruct (fl_order f); vm_compute; discriminate.
Qed.

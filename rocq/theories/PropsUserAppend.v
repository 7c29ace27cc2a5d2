(* C45, continued: the properties C28, C30-C32 and C41 of hash_append for user-defined hash algorithms. *)
From Verif Require Import Base BaseFacts SpecCommon Hasher Types ModelResult ModelAppend SpecAppend
  ProofMsg ProofMsgEq ProofMsgExt ProofAppend Behaves UserAlg Instances ProofRuns PropsHistory Samples PropsAppend PropsUser ModelExamples PropsTools.
From Coq Require Import Permutation.
Open Scope N_scope.

(* [h] meets the requirements of a hash algorithm, and its results, seen as [view], those of get_integral_result *)
Definition user_algorithm (h : hasher) (nul : bool) (view : h_R h -> result) : Prop :=
  hash_algorithm h nul /\ all_results h nul (fun r => digest_result (view r)).
(* replacing the calls x by the calls y in a program does not change its results *)
Definition same_results (h : hasher) (view : h_R h -> result) (i : impl) (f : flavor) (c : ctor) (pre x y post : list ustep) : Prop :=
  exists rs, uruns h view i f c (pre ++ x ++ post) = Ok rs /\ uruns h view i f c (pre ++ y ++ post) = Ok rs.

Lemma uau_nil u : u_au u [] = u.
Proof. destruct u as [[c dn] cur]. cbn [u_au]. now rewrite app_nil_r. Qed.
Lemma uau_app u a b : u_au (u_au u a) b = u_au u (a ++ b).
Proof. destruct u as [[c dn] cur]. cbn [u_au]. now rewrite app_assoc. Qed.
Lemma uvalid_call nul i c pre k post : uvalid nul i c (pre ++ [SCall k] ++ post) -> valid_step nul i (SCall k).
Proof. intros [_ HV]. rewrite Forall_app in HV. destruct HV as [_ HV]. cbn [app] in HV. now inversion HV. Qed.

Section Composite.
Variable h : hasher.
Variable nul : bool.
Variable view : h_R h -> result.
Hypothesis HU : user_algorithm h nul view.
Lemma user_parts r0 i f ts : forall vs u,
  usteps h view r0 i f u (parts ts vs) =
  u_au u (tup_msg (order_le (fl_order f)) (fl_size f) (im_psz i) (fadd0 i 8 23) (fadd0 i 11 52) ts vs (uquery h view r0 u)).
Proof.
  unfold usteps, uquery. induction ts as [|t ts IH]; intros [|v vs] u; cbn [parts asteps tup_msg]; try (symmetry; apply uau_nil).
  rewrite IH, uau_app. f_equal. f_equal. apply tup_msg_q. intros m. unfold aq, shift. now rewrite uau_app.
Qed.
Lemma user_composite i f c pre k ps post : uvalid nul i c (pre ++ [SCall k] ++ post) ->
  Forall (valid_step nul i) ps -> Forall (fun s => s <> SResult) ps ->
  (forall r0 u, usteps h view r0 i f u ps = u_au u (call_message i f k (uquery h view r0 u))) ->
  same_results h view i f c pre [SCall k] ps post.
Proof.
  intros HV VP NP HS. destruct HU as [HA HR]. destruct (some_result h nul _ HA HR) as (r0 & H0).
  apply (user_interchange h nul HA view HR r0 H0); try assumption.
  - constructor; [discriminate|constructor].
  - rewrite user_call_state, user_steps_app, HS. reflexivity.
Qed.
Lemma user_same i f c pre k k' post : uvalid nul i c (pre ++ [SCall k] ++ post) -> valid_step nul i (SCall k') ->
  (forall q, call_message i f k q = call_message i f k' q) -> same_results h view i f c pre [SCall k] [SCall k'] post.
Proof.
  intros HV V' E. apply user_composite; try assumption.
  - constructor; [exact V'|constructor].
  - constructor; [discriminate|constructor].
  - intros r0 u. rewrite E. reflexivity.
Qed.
End Composite.

(* ---------- C30: iteration order ---------- *)
Theorem C45_iteration_order h nul view i f c pre t vs vs' post : user_algorithm h nul view ->
  uvalid nul i c (pre ++ [SAppend (TUnord t) (VList vs)] ++ post) -> Permutation vs vs' ->
  same_results h view i f c pre [SAppend (TUnord t) (VList vs)] [SAppend (TUnord t) (VList vs')] post.
Proof.
  intros HU HV HP. apply (user_same h nul view HU); [exact HV| |].
  - pose proof (uvalid_call _ _ _ _ _ _ HV) as [HT HN].
    cbn [valid_step call_ok call_null_free has_type null_free form_ok form_null] in *. split.
    + eapply Permutation_Forall; eassumption.
    + intros H. destruct (HN H) as [H1|H1]; [now left|right]. eapply Permutation_Forall; eassumption.
  - intros q. unfold call_message. cbn [call_msg msg form_msg]. rewrite (Permutation_length HP). do 3 f_equal.
    apply sum64_perm. now apply Permutation_map.
Qed.

(* ---------- C31: the kind of container ---------- *)
Theorem C45_sequences h nul view i f c pre t vs k post : user_algorithm h nul view ->
  uvalid nul i c (pre ++ [SAppend (TVec t) (VList vs)] ++ post) ->
  same_results h view i f c pre [SAppend (TVec t) (VList vs)] [SAppend (TList k t) (VList vs)] post.
Proof.
  intros HU HV. apply (user_same h nul view HU); [exact HV| |reflexivity].
  destruct (uvalid_call _ _ _ _ _ _ HV) as [HT HN]. split; [exact HT|]. intros H. destruct (HN H) as [H1|H1]; [now left|right]. apply H1.
Qed.
Theorem C45_arrays h nul view i f c pre t vs post : user_algorithm h nul view -> vs <> [] ->
  uvalid nul i c (pre ++ [SAppend (TCArr (length vs) t) (VList vs)] ++ post) ->
  same_results h view i f c pre [SAppend (TCArr (length vs) t) (VList vs)] [SAppend (TArr (length vs) t) (VList vs)] post /\
  same_results h view i f c pre [SAppend (TCArr (length vs) t) (VList vs)] [SAppend (TArrN (length vs) t) (VList vs)] post /\
  same_results h view i f c pre [SAppend (TCArr (length vs) t) (VList vs)] [SAppend (TTuple (all_same t (length vs))) (VList vs)] post.
Proof.
  intros HU HN HV. destruct (uvalid_call _ _ _ _ _ _ HV) as [HT HZ].
  assert (HF : Forall (has_type (im_psz i) t) vs) by apply HT.
  assert (HK : forall t', has_type (im_psz i) t' (VList vs) ->
     (forall q, message i f (TCArr (length vs) t) (VList vs) q = message i f t' (VList vs) q) ->
     (Forall (null_free t) vs -> null_free t' (VList vs)) ->
     same_results h view i f c pre [SAppend (TCArr (length vs) t) (VList vs)] [SAppend t' (VList vs)] post).
  { intros t' T' M' N'. apply (user_same h nul view HU); [exact HV| |exact M'].
    split; [exact T'|]. intros H. destruct (HZ H) as [H1|H1]; [now left|right]. now apply N'. }
  split; [|split]; apply HK; try (split; [reflexivity|exact HF]); trivial.
  - intros q. unfold message. cbn [msg]. destruct vs; [easy|reflexivity].
  - intros q. unfold message. cbn [msg]. destruct vs; [easy|reflexivity].
  - apply has_type_tuple. now apply zip_repeat.
  - intros q. unfold message. rewrite msg_tuple by (destruct vs; [easy|discriminate]). unfold all_same. rewrite tup_seq. reflexivity.
  - intros H. apply null_free_tuple. now apply zipw_repeat.
Qed.

(* ---------- C32: composites ---------- *)
Theorem C45_tuple h nul view i f c pre ts vs post : user_algorithm h nul view -> ts <> [] ->
  uvalid nul i c (pre ++ [SAppend (TTuple ts) (VList vs)] ++ post) ->
  same_results h view i f c pre [SAppend (TTuple ts) (VList vs)] (parts ts vs) post.
Proof.
  intros HU HN HV. destruct (uvalid_call _ _ _ _ _ _ HV) as [HT HZ]. apply (user_composite h nul view HU); try assumption.
  - apply parts_valid; [now apply has_type_tuple|]. intros H; destruct (HZ H) as [H1|H1]; [now left|right]. now apply null_free_tuple.
  - apply parts_noresult.
  - intros r0 u. rewrite user_parts. unfold call_message. cbn [call_msg form_msg]. rewrite msg_tuple by exact HN. reflexivity.
Qed.
Theorem C45_described h nul view i f c pre bs ms bv mv post : user_algorithm h nul view -> (bs <> [] \/ ms <> []) ->
  uvalid nul i c (pre ++ [SAppend (TDesc bs ms) (VList [VList bv; VList mv])] ++ post) ->
  same_results h view i f c pre [SAppend (TDesc bs ms) (VList [VList bv; VList mv])] (parts bs bv ++ parts ms mv) post.
Proof.
  intros HU HN HV. destruct (uvalid_call _ _ _ _ _ _ HV) as [HT HZ]. cbn [call_ok form_ok] in HT. apply has_type_desc in HT. destruct HT as [HB HM].
  apply (user_composite h nul view HU); try assumption.
  - apply Forall_app. split; apply parts_valid; try assumption; (intros H; destruct (HZ H) as [H1|H1]; [now left|right]; now apply null_free_desc in H1).
  - apply Forall_app. split; apply parts_noresult.
  - intros r0 u. rewrite user_steps_app, !user_parts, uau_app. f_equal. unfold call_message. cbn [call_msg form_msg]. rewrite msg_desc by exact HN.
    f_equal. apply tup_msg_q. intros m. unfold uquery, aq, shift. now rewrite uau_app.
Qed.
Lemma user_seq_parts h view r0 i f t vs u :
  usteps h view r0 i f u (parts (repeat t (length vs)) vs) = u_au u (seq_msg (message i f t) vs (uquery h view r0 u)).
Proof. rewrite user_parts. f_equal. apply tup_seq. Qed.
Theorem C45_range h nul view i f c pre t vs post : user_algorithm h nul view ->
  uvalid nul i c (pre ++ [SAppend (TVec t) (VList vs)] ++ post) ->
  same_results h view i f c pre [SAppend (TVec t) (VList vs)]
    (parts (all_same t (length vs)) vs ++ [SAppend (TInt (fl_size f) false) (VInt (size_value f (length vs)))]) post.
Proof.
  intros HU HV. destruct (uvalid_call _ _ _ _ _ _ HV) as [HT HZ]. apply (user_composite h nul view HU); try assumption.
  - apply Forall_app. split; [apply parts_valid; unfold all_same; [now apply zip_repeat|]; intros H; destruct (HZ H) as [H1|H1]; [now left|right]; apply zipw_repeat, H1|].
    constructor; [|constructor]. cbn [valid_step call_ok call_null_free has_type null_free form_ok form_null]. split; [|intros _; now right]. unfold in_int, size_value.
    apply Z.mod_pos_bound. apply Z.pow_pos_nonneg; lia.
  - apply Forall_app. split; [apply parts_noresult|]. constructor; [discriminate|constructor].
  - intros r0 u. unfold all_same. rewrite user_steps_app, user_seq_parts. unfold usteps. cbn [asteps]. rewrite uau_app. f_equal.
    unfold call_message. cbn [call_msg msg form_msg]. f_equal. unfold size_msg, size_value, enc. rewrite Z.mod_mod; [reflexivity|].
    apply Z.pow_nonzero; lia.
Qed.
(* the range functions, called directly (C41) *)
Theorem C45_direct h nul view i f c pre k t vs post : user_algorithm h nul view ->
  (uvalid nul i c (pre ++ [SCall (KRange k t vs)] ++ post) ->
    same_results h view i f c pre [SCall (KRange k t vs)] (parts (all_same t (length vs)) vs) post) /\
  (uvalid nul i c (pre ++ [SCall (KSized k t vs)] ++ post) ->
    forall ic, same_results h view i f c pre [SCall (KSized k t vs)] [SAppend (TList ic t) (VList vs)] post) /\
  (uvalid nul i c (pre ++ [SCall (KUnord t vs)] ++ post) ->
    same_results h view i f c pre [SCall (KUnord t vs)] [SAppend (TUnord t) (VList vs)] post).
Proof.
  intros HU. split; [|split]; intros HV; destruct (uvalid_call _ _ _ _ _ _ HV) as [HT HN].
  - cbn [call_ok form_ok] in HT. apply (user_composite h nul view HU); try assumption.
    + apply parts_valid; unfold all_same; [now apply zip_repeat|]. intros H; destruct (HN H) as [H1|H1]; [now left|right].
      apply zipw_repeat. destruct k; [apply H1|exact H1].
    + apply parts_noresult.
    + intros r0 u. unfold all_same. apply user_seq_parts.
  - intros ic. apply (user_same h nul view HU); [exact HV| |reflexivity]. split; [exact HT|].
    intros H; destruct (HN H) as [H1|H1]; [now left|right]. cbn [call_null_free null_free form_null] in *. destruct k; [apply H1|exact H1].
  - apply (user_same h nul view HU); [exact HV| |reflexivity]. split; assumption.
Qed.

(* ---------- C28: hash_append makes no collisions ---------- *)
(* If two different values of a decodable type have the same hash, the algorithm has the same hash for two different byte sequences. *)
Theorem C45_collisions h nul view i f c t v1 v2 r : user_algorithm h nul view -> decodable t ->
  uvalid nul i c [SAppend t v1; SResult] -> uvalid nul i c [SAppend t v2; SResult] ->
  regular (fl_size f) t v1 -> regular (fl_size f) t v2 -> ~ equal t v1 v2 ->
  uruns h view i f c [SAppend t v1; SResult] = Ok [r] -> uruns h view i f c [SAppend t v2; SResult] = Ok [r] ->
  exists m1 m2, m1 <> m2 /\ bytes m1 /\ bytes m2 /\ uruns h view i f c [feed m1; SResult] = Ok [r] /\ uruns h view i f c [feed m2; SResult] = Ok [r].
Proof.
  intros [HA HR] HD V1 V2 R1 R2 HN E1 E2.
  destruct (C45_query h nul view i f c [] HA HR) as (q & HQ); [split; [apply V1|constructor]|].
  destruct (C45_feeds h nul view i f c [] (KVal t v1) [SResult] q _ HA HR V1 HQ eq_refl) as (rs1 & A1 & B1).
  destruct (C45_feeds h nul view i f c [] (KVal t v2) [SResult] q _ HA HR V2 HQ eq_refl) as (rs2 & A2 & B2).
  cbn [app] in *. exists (message i f t v1 q), (message i f t v2 q). split; [|split; [apply msg_bytes|split; [apply msg_bytes|split]]].
  - intros E. apply HN. apply (C28_parse i f t v1 v2 [] [] q q); try assumption.
    + apply (uvalid_call _ _ _ [] _ _ V1).
    + apply (uvalid_call _ _ _ [] _ _ V2).
  - rewrite E1 in A1. rewrite A1. exact B1.
  - rewrite E2 in A2. rewrite A2. exact B2.
Qed.

(* ---------- concrete cases: the class xxhash_128 of the documentation ---------- *)
Lemma xxhash_128_user pf : user_algorithm (xxhash_128 pf) true RDigest.
Proof.
  destruct (C48_algorithm pf) as [HA HR]. split; [exact HA|]. intros c ops rs HC HV E. eapply Forall_impl; [|exact (HR c ops rs HC HV E)].
  intros d [Hb Hl]. split; [exact Hb|]. rewrite Hl. apply Nat.leb_le. reflexivity.
Qed.
Notation x128 := (xxhash_128 (e_pf env_pc)).
Notation i_pc := (e_impl env_pc).
Ltac u_ok := split; [reflexivity|]; repeat (apply Forall_cons; [|]); try apply Forall_nil; try exact I;
  (split; [cbn; repeat constructor; try lia; try (intros; discriminate)|intros _; now left]).
Example C45_iteration_order_ex : same_results x128 RDigest i_pc be32_flavor (CSeed 7) [SAppend (TInt I8 false) (VInt 1)]
  [SAppend (TUnord (TInt I16 false)) (VList [VInt 1; VInt 2])] [SAppend (TUnord (TInt I16 false)) (VList [VInt 2; VInt 1])] [SResult].
Proof. apply (C45_iteration_order x128 true RDigest i_pc be32_flavor (CSeed 7) [SAppend (TInt I8 false) (VInt 1)] (TInt I16 false) [VInt 1; VInt 2] [VInt 2; VInt 1] [SResult] (xxhash_128_user _)); [u_ok|apply perm_swap]. Qed.
Example C45_range_ex : same_results x128 RDigest i_pc be32_flavor (CSeed 7) [SAppend (TInt I8 false) (VInt 1)]
  [SAppend (TVec (TInt I16 false)) (VList [VInt 1; VInt 2])]
  [SAppend (TInt I16 false) (VInt 1); SAppend (TInt I16 false) (VInt 2); SAppend (TInt I32 false) (VInt 2)] [SResult].
Proof. apply (C45_range x128 true RDigest i_pc be32_flavor (CSeed 7) [SAppend (TInt I8 false) (VInt 1)] (TInt I16 false) [VInt 1; VInt 2] [SResult] (xxhash_128_user _)). u_ok. Qed.
Example C45_described_ex : same_results x128 RDigest i_pc be32_flavor (CSeed 7) []
  [SAppend (TDesc [TInt I64 true] [TInt I32 true; TBool]) (VList [VList [VInt 9]; VList [VInt (-5); VInt 1]])]
  [SAppend (TInt I64 true) (VInt 9); SAppend (TInt I32 true) (VInt (-5)); SAppend TBool (VInt 1)] [SResult].
Proof.
  apply (C45_described x128 true RDigest i_pc be32_flavor (CSeed 7) [] [TInt I64 true] [TInt I32 true; TBool] [VInt 9] [VInt (-5); VInt 1] [SResult] (xxhash_128_user _)); [left; discriminate|].
  split; [reflexivity|]. apply Forall_cons; [|apply Forall_cons; [exact I|apply Forall_nil]].
  split; [cbn; unfold in_int; cbn; repeat split; try lia; now right|intros _; now left].
Qed.
Example C45_arrays_ex : same_results x128 RDigest i_pc be32_flavor (CSeed 7) [] [SAppend (TCArr 2 (TInt I16 false)) (VList [VInt 1; VInt 2])]
  [SAppend (TTuple [TInt I16 false; TInt I16 false]) (VList [VInt 1; VInt 2])] [SResult].
Proof.
  apply (C45_arrays x128 true RDigest i_pc be32_flavor (CSeed 7) [] (TInt I16 false) [VInt 1; VInt 2] [SResult] (xxhash_128_user _)); [discriminate|].
  split; [reflexivity|]. apply Forall_cons; [|apply Forall_cons; [exact I|apply Forall_nil]].
  split; [cbn; unfold in_int; cbn; repeat split; try lia; repeat constructor; lia|intros _; now left].
Qed.
(* an algorithm that collides, and two strings that collide: a class that ignores its input *)
Definition constant : hasher :=
  {| h_S := unit; h_R := N; h_init := tt; h_seed := fun _ => Ok tt; h_bytes := fun _ _ => Ok tt; h_update := fun s _ _ => Ok s; h_result := fun s => Ok (0, s) |}.
Lemma constant_run ops : forall s, exists n, run constant s ops = Ok (repeat 0 n, s) /\ n = length (filter (fun o => match o with OResult => true | _ => false end) ops).
Proof.
  induction ops as [|[p n|] ops IH]; intros s; cbn [run].
  - now exists 0%nat.
  - cbn [constant h_update bind]. apply IH.
  - destruct (IH s) as (n & E & EN). exists (S n). cbn [constant h_result bind]. rewrite E. cbn [bind repeat filter length]. now rewrite EN.
Qed.
Lemma constant_session c ops : session constant c ops = Ok (repeat 0 (length (filter (fun o => match o with OResult => true | _ => false end) ops))).
Proof.
  assert (E : construct constant c = Ok tt) by (destruct c; reflexivity). unfold session. rewrite E. cbn [bind].
  destruct (constant_run ops tt) as (k & F & EN). rewrite F, EN. reflexivity.
Qed.
Lemma segments_length ops : forall acc, length (segments acc ops) = S (length (filter (fun o => match o with OResult => true | _ => false end) ops)).
Proof. induction ops as [|[p n|] ops IH]; intros acc; cbn [segments filter length]; auto. Qed.
Lemma constant_user : user_algorithm constant true (RInt I32).
Proof.
  split; [constructor|].
  - intros c ops _ _. rewrite constant_session. eauto.
  - intros c o1 o2 _ _ _ E. rewrite !constant_session. apply (f_equal (@length _)) in E. rewrite !segments_length in E. injection E as E. now rewrite E.
  - intros ops _. now rewrite !constant_session.
  - intros p ops _ _. now rewrite !constant_session.
  - intros c ops rs _ _ E. apply Forall_forall. intros r _. exact I.
Qed.
Example C45_collisions_ex : exists m1 m2, m1 <> m2 /\ bytes m1 /\ bytes m2 /\
  uruns constant (RInt I32) i_pc le_flavor CDefault [feed m1; SResult] = Ok [RInt I32 0] /\ uruns constant (RInt I32) i_pc le_flavor CDefault [feed m2; SResult] = Ok [RInt I32 0].
Proof.
  apply (C45_collisions constant true (RInt I32) i_pc le_flavor CDefault (TVec (TInt I8 true)) (VList [VInt 97]) (VList [VInt 98])).
  - exact constant_user.
  - exact I.
  - u_ok.
  - u_ok.
  - cbn. repeat constructor.
  - cbn. repeat constructor.
  - cbn. intros E. inversion E as [|? ? ? ? E1]. discriminate.
  - vm_compute. reflexivity.
  - vm_compute. reflexivity.
Qed.

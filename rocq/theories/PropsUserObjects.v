(* C47, continued: the hash function objects of /repo/example are templates over the hash algorithm; here with any user-defined
   algorithm H that meets the documented requirements (UserAlg.v). *)
From Verif Require Import Base BaseFacts SpecCommon Hasher Types ModelResult ModelAppend SpecAppend ProofMsg ProofMsgEq ProofAppend Behaves Instances
  ProofRuns ProofRange Samples PropsAppend PropsIntegral UserAlg PropsUser PropsUserAppend ModelExamples PropsTools PropsObjects.
Open Scope N_scope.

Section Object.
Variables (H : hasher) (gir : h_R H -> res N) (view : h_R H -> result) (e : env) (t : ty).
(* example/hash_with_any_seed.cpp:33-35, hash_with_byte_seed.cpp:25-27, hash_with_uint64_seed.cpp:25-27, hash_without_seed.cpp:17-19:
   hash_append( h, {}, v ) and get_integral_result<std::size_t>( h.result() ) *)
Definition uobject_value (h : h_S H) (v : val) : res N :=
  h <- ha_call H gir (e_impl e) (default_flavor (e_pf e)) (KVal t v) h ;;
  '(r, _) <- h_result H h ;;
  gir_size e (view r).
(* hash_with_any_seed.cpp:31-36, hash_with_byte_seed.cpp:23-28: operator() copies the member h_; a sequence of calls on one object *)
Fixpoint uobject_calls (h_ : h_S H) (vs : list val) : res (list N) :=
  match vs with
  | [] => Ok []
  | v :: t => z <- uobject_value h_ v ;; zs <- uobject_calls h_ t ;; Ok (z :: zs)
  end.
(* hash_with_any_seed.cpp:15-29 *)
Definition uhash_with_any_seed (c : ctor) (vs : list val) : res (list N) := h_ <- construct H c ;; uobject_calls h_ vs.
(* hash_with_uint64_seed.cpp:15-28 *)
Fixpoint uhash_with_uint64_seed (seed_ : N) (vs : list val) : res (list N) :=
  match vs with
  | [] => Ok []
  | v :: t => h <- h_seed H seed_ ;; z <- uobject_value h v ;; zs <- uhash_with_uint64_seed seed_ t ;; Ok (z :: zs)
  end.
(* hash_without_seed.cpp:15-20 *)
Fixpoint uhash_without_seed (vs : list val) : res (list N) :=
  match vs with
  | [] => Ok []
  | v :: t => z <- uobject_value (h_init H) v ;; zs <- uhash_without_seed t ;; Ok (z :: zs)
  end.
End Object.
(* the models of ModelExamples.v are these for H an algorithm of the library *)
Lemma library_object e a t c vs :
  hash_with_any_seed e a t c vs = uhash_with_any_seed (pk_h (pack e a)) (pk_gir (pack e a)) (pk_out (pack e a)) e t c vs.
Proof. reflexivity. Qed.

(* get_integral_result<std::uint64_t> of a result, as hash_append uses it for unordered containers *)
Definition ugir (H : hasher) (view : h_R H -> result) (e : env) : h_R H -> res N := fun r => gir64 (e_pf e) (view r).
Definition uobject (H : hasher) (view : h_R H -> result) (e : env) (t : ty) (c : ctor) (vs : list val) : res (list N) :=
  uhash_with_any_seed H (ugir H view e) view e t c vs.
(* a hash algorithm whose results are unsigned integers or digests *)
Definition integral_algorithm (H : hasher) (nul : bool) (view : h_R H -> result) : Prop :=
  user_algorithm H nul view /\ all_results H nul (fun r => word_result (view r)).
Definition ukey_ok (H : hasher) (nul : bool) (e : env) (c : ctor) (t : ty) (v : val) : Prop := uvalid nul (e_impl e) c [SAppend t v; SResult].
Definition ukey_result (H : hasher) (view : h_R H -> result) (e : env) (c : ctor) (t : ty) (v : val) (r : result) : Prop :=
  uruns H view (e_impl e) (default_flavor (e_pf e)) c [SAppend t v; SResult] = Ok [r].

Lemma gir_size_any e r : valid_env e -> word_result r -> digest_result r -> exists z, gir_size e r = Ok z /\ z < e_cw e.
Proof.
  intros HE HW HD. destruct r as [s x|d]; cbn [gir_size].
  - cbn [word_result] in HW. destruct (Nat.ltb_spec (ibytes (size_t e)) (ibytes s)) as [L|L].
    + assert (HS16 : s <> I16) by (unfold size_t in L; destruct (e_cw e =? 2^32), s; cbn in L; try lia; discriminate).
      rewrite gir_down by assumption. eexists. split; [reflexivity|]. rewrite <- size_t_cw by exact HE.
      apply N.div_lt_upper_bound; [now apply N.pow_nonzero|]. rewrite <- N.pow_add_r.
      replace (ibits s - ibits (size_t e) + ibits (size_t e)) with (ibits s) by (unfold ibits; lia).
      apply N.mod_lt. now apply N.pow_nonzero.
    + rewrite gir_up by assumption. eexists. split; [reflexivity|]. rewrite <- size_t_cw by exact HE.
      apply N.mod_lt. now apply N.pow_nonzero.
  - destruct HD as [H1 H2]. unfold gir_digest. rewrite read64le_ok by assumption. cbn [bind]. eexists. split; [reflexivity|].
    rewrite <- size_t_cw by exact HE. apply N.mod_lt. now apply N.pow_nonzero.
Qed.

Lemma feed_session H view i f c m rs : uruns H view i f c [feed m; SResult] = Ok rs ->
  exists ss, session H c [OUpdate (Ptr m) (length m); OResult] = Ok ss /\ rs = map view ss.
Proof.
  unfold uruns, program, session, exec, feed. destruct (construct H c) as [s| | |]; cbn [bind prun run]; try discriminate.
  destruct (h_update H s (Ptr m) (length m)) as [s1| | |]; cbn [bind]; try discriminate.
  destruct (h_result H s1) as [[r s2]| | |]; cbn [bind]; try discriminate.
  intros E. exists [r]. split; [reflexivity|]. now injection E as <-.
Qed.
Lemma ukey_shape H nul view e c t v : integral_algorithm H nul view -> ukey_ok H nul e c t v ->
  exists r, ukey_result H view e c t v r /\ word_result r /\ digest_result r.
Proof.
  intros [[HA HD] HW] HV. unfold ukey_result. set (f := default_flavor (e_pf e)).
  assert (V0 : uvalid nul (e_impl e) c []) by (split; [apply HV|constructor]).
  destruct (C45_query H nul view (e_impl e) f c [] HA HD V0) as (q & HQ).
  set (m := call_message (e_impl e) f (KVal t v) q).
  destruct (C45_feeds H nul view (e_impl e) f c [] (KVal t v) [SResult] q m HA HD HV HQ eq_refl) as (rs & E1 & E2). cbn [app] in E1, E2.
  destruct (feed_session H view _ _ _ _ _ E2) as (ss & ES & ->).
  assert (VO : Forall (valid_op nul) [OUpdate (Ptr m) (length m); OResult]).
  { constructor; [|constructor; [exact I|constructor]]. split; [apply le_n|apply call_msg_bytes]. }
  pose proof (HD c _ _ (proj1 HV) VO ES) as F1. pose proof (HW c _ _ (proj1 HV) VO ES) as F2.
  assert (L : length ss = 1%nat).
  { unfold session in ES. unfold exec in ES. destruct (construct H c) as [s| | |]; cbn [bind run] in ES; try discriminate.
    destruct (h_update H s (Ptr m) (length m)) as [s1| | |]; cbn [bind] in ES; try discriminate.
    destruct (h_result H s1) as [[r s2]| | |]; cbn [bind] in ES; try discriminate. now injection ES as <-. }
  destruct ss as [|r [|? ?]]; try discriminate. exists (view r). cbn [map] in E1. split; [exact E1|].
  split; [exact (Forall_inv F2)|exact (Forall_inv F1)].
Qed.
Lemma urun_value H nul view e c t v h_ : valid_env e -> integral_algorithm H nul view -> ukey_ok H nul e c t v -> construct H c = Ok h_ ->
  exists r z, ukey_result H view e c t v r /\ word_result r /\ digest_result r /\
    uobject_value H (ugir H view e) view e t h_ v = Ok z /\ gir_size e r = Ok z /\ z < e_cw e.
Proof.
  intros HE HA HV EC. destruct (ukey_shape H nul view e c t v HA HV) as (r & E & HW & HD).
  destruct (gir_size_any e r HE HW HD) as (z & Ez & Lz). exists r, z. split; [exact E|]. split; [exact HW|]. split; [exact HD|]. split; [|now split].
  unfold ukey_result, uruns, program in E. rewrite EC in E. cbn [bind prun] in E. unfold uobject_value, ugir.
  change (e_pf e) with (im_pf (e_impl e)) in *.
  destruct (ha_call H _ _ _ _ h_) as [h1| | |]; cbn [bind] in E |- *; try discriminate.
  destruct (h_result H h1) as [[r' s2]| | |]; cbn [bind map] in E |- *; try discriminate. injection E as ->. exact Ez.
Qed.
Lemma uctor_ok H nul view c : integral_algorithm H nul view -> valid_ctor c -> exists h_, construct H c = Ok h_.
Proof.
  intros [[HA _] _] HC. destruct (al_runs _ _ HA c [] HC (Forall_nil _)) as (rs & E). unfold session, exec in E.
  destruct (construct H c) as [s| | |]; cbn [bind] in E; try discriminate. eauto.
Qed.

(* The values of a sequence of calls on one object: the value of each key is that of the result of the algorithm fed that key; other
   calls have no influence *)
Theorem C47_user_values H nul view e c t vs : valid_env e -> integral_algorithm H nul view -> valid_ctor c -> Forall (ukey_ok H nul e c t) vs ->
  exists zs, uobject H view e t c vs = Ok zs /\
    Forall2 (fun v z => z < e_cw e /\ exists r, ukey_result H view e c t v r /\ PropsObjects.size_value e r = Ok (Z.of_N z)) vs zs.
Proof.
  intros HE HA HC HV. destruct (uctor_ok H nul view c HA HC) as (h_ & EC). unfold uobject, uhash_with_any_seed. rewrite EC. cbn [bind].
  induction HV as [|v vs Hv HV IH]; [exists []; split; [reflexivity|constructor]|].
  destruct IH as (zs & Ez & HF). destruct (urun_value H nul view e c t v h_ HE HA Hv EC) as (r & z & K & _ & _ & OV & GS & LT).
  exists (z :: zs). cbn [uobject_calls]. rewrite OV. cbn [bind]. rewrite Ez. cbn [bind]. split; [reflexivity|].
  constructor; [|exact HF]. split; [exact LT|]. exists r. split; [exact K|]. now apply size_value_gir.
Qed.
(* equal keys have equal values, wherever in the sequence *)
Theorem C47_user_equal_keys H nul view e c t vs zs i j v1 v2 z1 z2 : valid_env e -> im_down (e_impl e) = false -> integral_algorithm H nul view ->
  valid_ctor c -> Forall (ukey_ok H nul e c t) vs -> uobject H view e t c vs = Ok zs ->
  nth_error vs i = Some v1 -> nth_error vs j = Some v2 -> nth_error zs i = Some z1 -> nth_error zs j = Some z2 ->
  equal t v1 v2 -> z1 = z2.
Proof.
  intros HE HDn HA HC HV EZ I1 I2 J1 J2 EQ.
  destruct (C47_user_values H nul view e c t vs HE HA HC HV) as (zs' & EZ' & HF). rewrite EZ in EZ'. injection EZ' as <-.
  assert (HG : forall k v z, nth_error vs k = Some v -> nth_error zs k = Some z -> exists r, ukey_result H view e c t v r /\ PropsObjects.size_value e r = Ok (Z.of_N z)).
  { clear -HF. induction HF as [|v0 z0 vs zs [_ H'] HF IH]; intros [|k] v z K1 K2; try discriminate.
    - injection K1 as <-. injection K2 as <-. exact H'.
    - now apply (IH k). }
  destruct (HG _ _ _ I1 J1) as (r1 & K1 & S1). destruct (HG _ _ _ I2 J2) as (r2 & K2 & S2).
  assert (V1 : ukey_ok H nul e c t v1). { apply nth_error_In in I1. rewrite Forall_forall in HV. auto. }
  assert (V2 : ukey_ok H nul e c t v2). { apply nth_error_In in I2. rewrite Forall_forall in HV. auto. }
  destruct HA as [[HA HD] _].
  destruct (C45_equal_values H nul view (e_impl e) (default_flavor (e_pf e)) c [] t v1 v2 [SResult] HA HD HDn V1 V2 EQ) as (rs & Q1 & Q2).
  unfold ukey_result in K1, K2. cbn [app] in Q1, Q2. rewrite K1 in Q1. rewrite K2 in Q2. injection Q1 as Q1. rewrite <- Q1 in Q2. injection Q2 as ->.
  rewrite S1 in S2. injection S2 as S2. now apply N2Z.inj in S2.
Qed.
(* integer results no wider than std::size_t: keys collide only where the algorithm's results do; digests: exactly if the first
   sizeof( std::size_t ) bytes agree *)
Theorem C47_user_collisions H nul view e c t v1 v2 : valid_env e -> integral_algorithm H nul view ->
  ukey_ok H nul e c t v1 -> ukey_ok H nul e c t v2 ->
  exists z1 z2, uobject H view e t c [v1; v2] = Ok [z1; z2] /\
    (forall s x1 x2, (ibytes s <= ibytes (size_t e))%nat -> ukey_result H view e c t v1 (RInt s x1) -> ukey_result H view e c t v2 (RInt s x2) ->
       (z1 = z2 <-> x1 = x2)) /\
    (forall d1 d2, ukey_result H view e c t v1 (RDigest d1) -> ukey_result H view e c t v2 (RDigest d2) ->
       (z1 = z2 <-> firstn (ibytes (size_t e)) d1 = firstn (ibytes (size_t e)) d2)).
Proof.
  intros HE HA V1 V2. destruct (uctor_ok H nul view c HA (proj1 V1)) as (h_ & EC).
  destruct (urun_value H nul view e c t v1 h_ HE HA V1 EC) as (r1 & z1 & K1 & W1 & D1 & O1 & G1 & L1).
  destruct (urun_value H nul view e c t v2 h_ HE HA V2 EC) as (r2 & z2 & K2 & W2 & D2 & O2 & G2 & L2).
  exists z1, z2. split.
  { unfold uobject, uhash_with_any_seed. rewrite EC. cbn [bind uobject_calls]. rewrite O1. cbn [bind]. rewrite O2. reflexivity. }
  unfold ukey_result in *. apply size_value_gir in G1, G2.
  assert (EQ : z1 = z2 <-> PropsObjects.size_value e r1 = PropsObjects.size_value e r2).
  { rewrite G1, G2. split; [now intros ->|]. intros E. injection E as E. now apply N2Z.inj. }
  split.
  - intros s x1 x2 HS E1 E2. rewrite E1 in K1. rewrite E2 in K2. injection K1 as <-. injection K2 as <-. rewrite EQ. cbn [PropsObjects.size_value word_result] in *.
    split; [|now intros ->]. apply (proj2 (C33_injective (size_t e) false s x1 x2 HS W1 W2)).
  - intros d1 d2 E1 E2. rewrite E1 in K1. rewrite E2 in K2. injection K1 as <-. injection K2 as <-. rewrite EQ. cbn [PropsObjects.size_value digest_result] in *.
    apply (proj2 (C34_first_bytes (e_pf e) (size_t e) false d1 d2 (proj2 D1) (proj1 D1) (proj2 D2) (proj1 D2))).
Qed.
(* the other forms of the function object give the same values *)
Theorem C47_user_forms H nul view e t vs : valid_env e -> integral_algorithm H nul view ->
  (forall seed, seed < 2^64 -> Forall (ukey_ok H nul e (CSeed seed) t) vs ->
     uhash_with_uint64_seed H (ugir H view e) view e t seed vs = uobject H view e t (CSeed seed) vs) /\
  (Forall (ukey_ok H nul e CDefault t) vs -> uhash_without_seed H (ugir H view e) view e t vs = uobject H view e t CDefault vs).
Proof.
  intros HE HA. split.
  - intros seed HS HV. destruct (uctor_ok H nul view (CSeed seed) HA HS) as (h_ & EC). unfold uobject, uhash_with_any_seed. rewrite EC. cbn [bind].
    induction HV as [|v vs Hv HV IH]; [reflexivity|]. cbn [uhash_with_uint64_seed uobject_calls]. cbn [construct] in EC. rewrite EC. cbn [bind].
    rewrite IH. reflexivity.
  - intros HV. unfold uobject, uhash_with_any_seed. cbn [construct bind]. induction HV as [|v vs Hv HV IH]; [reflexivity|].
    cbn [uhash_without_seed uobject_calls]. rewrite IH. reflexivity.
Qed.

(* ---------- concrete cases: the class xxhash_128 of the documentation ---------- *)
Lemma xxhash_128_integral pf : integral_algorithm (xxhash_128 pf) true RDigest.
Proof. split; [apply xxhash_128_user|]. intros c ops rs _ _ _. apply Forall_forall. intros r _. exact I. Qed.
Lemma ukeys_ex : Forall (ukey_ok (xxhash_128 (e_pf env_pc)) true env_pc (CSeed 7) string_ty) [foo; bar; foo].
Proof.
  apply Forall_forall. intros v Hv. split; [reflexivity|]. apply Forall_cons; [|apply Forall_cons; [exact I|apply Forall_nil]].
  destruct Hv as [<-|[<-|[<-|[]]]]; (split; [cbn; repeat constructor; lia|intros _; now left]).
Qed.
Example C47_user_values_ex : exists z1 z2, uobject (xxhash_128 (e_pf env_pc)) RDigest env_pc string_ty (CSeed 7) [foo; bar; foo] = Ok [z1; z2; z1] /\ z1 <> z2.
Proof. eexists _, _. split; [vm_compute; reflexivity|]. vm_compute. discriminate. Qed.
Example C47_user_equal_keys_ex z1 z2 z3 : uobject (xxhash_128 (e_pf env_pc)) RDigest env_pc string_ty (CSeed 7) [foo; bar; foo] = Ok [z1; z2; z3] -> z1 = z3.
Proof.
  intros E. apply (C47_user_equal_keys (xxhash_128 (e_pf env_pc)) true RDigest env_pc (CSeed 7) string_ty [foo; bar; foo] [z1; z2; z3] 0 2 foo foo z1 z3);
    try reflexivity; try assumption; [exact env_pc_valid|apply xxhash_128_integral|exact ukeys_ex|].
  cbn. repeat constructor.
Qed.
Example C47_user_collisions_ex : exists z1 z2, uobject (xxhash_128 (e_pf env_pc)) RDigest env_pc string_ty (CSeed 7) [foo; bar] = Ok [z1; z2] /\
  (forall d1 d2, ukey_result (xxhash_128 (e_pf env_pc)) RDigest env_pc (CSeed 7) string_ty foo (RDigest d1) ->
     ukey_result (xxhash_128 (e_pf env_pc)) RDigest env_pc (CSeed 7) string_ty bar (RDigest d2) -> (z1 = z2 <-> firstn 8 d1 = firstn 8 d2)).
Proof.
  pose proof (Forall_inv ukeys_ex) as V1. pose proof (Forall_inv (Forall_inv_tail ukeys_ex)) as V2.
  destruct (C47_user_collisions (xxhash_128 (e_pf env_pc)) true RDigest env_pc (CSeed 7) string_ty foo bar env_pc_valid (xxhash_128_integral _) V1 V2) as (z1 & z2 & E & _ & H).
  exists z1, z2. split; [exact E|exact H].
Qed.
Example C47_user_forms_ex : uhash_with_uint64_seed (xxhash_128 (e_pf env_pc)) (ugir (xxhash_128 (e_pf env_pc)) RDigest env_pc) RDigest env_pc string_ty 7 [foo; bar; foo] =
  uobject (xxhash_128 (e_pf env_pc)) RDigest env_pc string_ty (CSeed 7) [foo; bar; foo].
Proof. apply (proj1 (C47_user_forms (xxhash_128 (e_pf env_pc)) true RDigest env_pc string_ty [foo; bar; foo] env_pc_valid (xxhash_128_integral _))); [reflexivity|exact ukeys_ex]. Qed.

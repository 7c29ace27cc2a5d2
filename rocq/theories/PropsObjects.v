(* C47: the hash function objects of /repo/example (hash_with_any_seed, hash_with_byte_seed,
   hash_with_uint64_seed, hash_without_seed, hash_32_64), as used with unordered containers. *)
From Verif Require Import Base BaseFacts SpecCommon Hasher GenBlk Types ModelResult ModelAppend SpecAppend
  ProofMsg ProofMsgEq ProofMsgExt ProofAppend Behaves Instances ProofRuns ProofRange PropsHistory Samples PropsAppend PropsIntegral ModelExamples.
Open Scope N_scope.

(* A key: a value of type t that can be hashed by algorithm a after constructor c *)
Definition valid_key (e : env) (a : alg) (c : ctor) (t : ty) (v : val) : Prop :=
  valid_program e a c [SAppend t v; SResult] /\ room e a c [SAppend t v; SResult].
(* the result r of algorithm a fed the key v by hash_append with the default flavor *)
Definition key_result (e : env) (a : alg) (c : ctor) (t : ty) (v : val) (r : result) : Prop :=
  runs e a (default_flavor (e_pf e)) c [SAppend t v; SResult] = Ok [r].
(* its value as a std::size_t: get_integral_result<std::size_t>( r ) *)
Definition size_value (e : env) (r : result) : res Z :=
  match r with
  | RInt s x => get_integral_result (size_t e) false s x
  | RDigest d => get_digest_result (e_pf e) (size_t e) false d
  end.

Lemma size_value_gir e r z : gir_size e r = Ok z -> size_value e r = Ok (Z.of_N z).
Proof.
  destruct r as [s x|d]; cbn [gir_size size_value]; unfold get_integral_result, get_digest_result; intros ->; reflexivity.
Qed.
Lemma size_value_inj e r1 r2 z : gir_size e r1 = Ok z -> gir_size e r2 = Ok z -> size_value e r1 = size_value e r2.
Proof. intros H1 H2. now rewrite (size_value_gir _ _ _ H1), (size_value_gir _ _ _ H2). Qed.
Lemma size_t_cw e : valid_env e -> 2 ^ ibits (size_t e) = e_cw e.
Proof. intros [[E|E] _]; unfold size_t; rewrite E; reflexivity. Qed.
Lemma gir_size_ok e r : valid_env e -> word_result r -> digest_result r ->
  (forall s x, r = RInt s x -> s = I32 \/ s = I64) -> exists z, gir_size e r = Ok z /\ z < e_cw e.
Proof.
  intros HE HW HD HS. destruct r as [s x|d]; cbn [gir_size].
  - specialize (HS s x eq_refl). cbn [word_result] in HW.
    assert (HS16 : s <> I16) by (destruct HS as [-> | ->]; discriminate).
    destruct (Nat.ltb_spec (ibytes (size_t e)) (ibytes s)) as [L|L].
    + rewrite gir_down by assumption. eexists. split; [reflexivity|]. rewrite <- size_t_cw by exact HE.
      apply N.div_lt_upper_bound; [now apply N.pow_nonzero|]. rewrite <- N.pow_add_r.
      replace (ibits s - ibits (size_t e) + ibits (size_t e)) with (ibits s) by (unfold ibits; lia).
      apply N.mod_lt. now apply N.pow_nonzero.
    + rewrite gir_up by assumption. eexists. split; [reflexivity|]. rewrite <- size_t_cw by exact HE.
      apply N.mod_lt. now apply N.pow_nonzero.
  - destruct HD as [H1 H2]. unfold gir_digest. rewrite read64le_ok by assumption. cbn [bind]. eexists. split; [reflexivity|].
    rewrite <- size_t_cw by exact HE. apply N.mod_lt. now apply N.pow_nonzero.
Qed.

Lemma expected_shape e a f c xs : Forall (fun r => digest_result r /\ (forall s x, r = RInt s x -> s = I32 \/ s = I64)) (expected e a f c xs).
Proof.
  unfold expected.
  assert (HM : forall s, digest_result (fst (mc_ar (machine_of (e_cw e) a) s)) /\
    (forall k x, fst (mc_ar (machine_of (e_cw e) a) s) = RInt k x -> k = I32 \/ k = I64)).
  { intros s. split; [apply machine_digest|]. intros k x E. destruct a as [m|m| | | | | | | | | ]; cbn in E; try discriminate; injection E as <- _; auto. }
  generalize (mc_start (machine_of (e_cw e) a) c). induction xs as [|[p n| |k] xs IH]; intros s; cbn [aprun]; auto.
Qed.

(* the components of a run *)
Lemma run_value e a c t v h_ : valid_env e -> valid_key e a c t v -> construct (pk_h (pack e a)) c = Ok h_ ->
  exists r z, key_result e a c t v r /\ word_result r /\ digest_result r /\
    object_value e a t h_ v = Ok z /\ gir_size e r = Ok z /\ z < e_cw e.
Proof.
  intros HE [HV HR] EC. pose proof (runs_expected e a (default_flavor (e_pf e)) c _ HE HV HR) as E.
  pose proof (results_words e a (default_flavor (e_pf e)) c _ HV) as HW.
  pose proof (expected_shape e a (default_flavor (e_pf e)) c [SAppend t v; SResult]) as HS.
  rewrite <- (f_equal (fun x => match x with Ok l => l | _ => [] end) E) in HW, HS.
  unfold key_result. unfold runs, program in E, HW, HS |- *. rewrite EC in E, HW, HS |- *. cbn [bind prun] in E, HW, HS |- *. unfold object_value.
  destruct (ha_call _ _ _ _ _ h_) as [h1| | |]; cbn [bind] in E, HW, HS |- *; try discriminate.
  destruct (h_result _ h1) as [[r s2]| | |]; cbn [bind map] in E, HW, HS |- *; try discriminate.
  inversion HW as [|? ? W1 _]; subst. inversion HS as [|? ? [D1 D2] _]; subst.
  destruct (gir_size_ok e _ HE W1 D1 D2) as (z & Ez & Lz). exists (pk_out (pack e a) r), z. auto 6.
Qed.
Lemma ctor_ok e a c t v : valid_env e -> valid_key e a c t v -> exists h_, construct (pk_h (pack e a)) c = Ok h_.
Proof.
  intros HE [HV HR]. pose proof (runs_expected e a (default_flavor (e_pf e)) c _ HE HV HR) as E. unfold runs, program in E.
  destruct (construct (pk_h (pack e a)) c) as [s| | |]; cbn [bind] in E; try discriminate. eauto.
Qed.

(* The values of a sequence of calls on one object: the value of each key is that of the result of
   the algorithm fed that key, a number of type std::size_t; other calls have no influence *)
Theorem C47_values e a c t vs : valid_env e -> valid_ctor c -> Forall (valid_key e a c t) vs -> vs <> [] ->
  exists zs, hash_with_any_seed e a t c vs = Ok zs /\
    Forall2 (fun v z => z < e_cw e /\ exists r, key_result e a c t v r /\ size_value e r = Ok (Z.of_N z)) vs zs.
Proof.
  intros HE HC HV HN. assert (HX : exists h_, construct (pk_h (pack e a)) c = Ok h_).
  { destruct HV as [|v t' Hv _]; [easy|]. now apply (ctor_ok e a c t v). }
  destruct HX as (h_ & EC). unfold hash_with_any_seed. rewrite EC. cbn [bind]. clear HN.
  induction HV as [|v vs Hv HV IH]; [exists []; split; [reflexivity|constructor]|].
  destruct IH as (zs & Ez & HF). destruct (run_value e a c t v h_ HE Hv EC) as (r & z & K & _ & _ & OV & GS & LT).
  exists (z :: zs). cbn [object_calls]. rewrite OV. cbn [bind]. rewrite Ez. cbn [bind]. split; [reflexivity|].
  constructor; [|exact HF]. split; [exact LT|]. exists r. split; [exact K|]. now apply size_value_gir.
Qed.

(* equal keys have equal values, wherever in the sequence *)
Theorem C47_equal_keys e a c t vs zs i j v1 v2 z1 z2 : valid_env e -> im_down (e_impl e) = false -> valid_ctor c ->
  Forall (valid_key e a c t) vs -> hash_with_any_seed e a t c vs = Ok zs ->
  nth_error vs i = Some v1 -> nth_error vs j = Some v2 -> nth_error zs i = Some z1 -> nth_error zs j = Some z2 ->
  equal t v1 v2 -> z1 = z2.
Proof.
  intros HE HD HC HV EZ I1 I2 J1 J2 EQ.
  assert (HN : vs <> []) by (intros ->; destruct i; discriminate).
  destruct (C47_values e a c t vs HE HC HV HN) as (zs' & EZ' & HF). rewrite EZ in EZ'. injection EZ' as <-.
  assert (HG : forall k v z, nth_error vs k = Some v -> nth_error zs k = Some z -> exists r, key_result e a c t v r /\ size_value e r = Ok (Z.of_N z)).
  { clear -HF. induction HF as [|v0 z0 vs zs [_ H] HF IH]; intros [|k] v z K1 K2; try discriminate.
    - injection K1 as <-. injection K2 as <-. exact H.
    - now apply (IH k). }
  destruct (HG _ _ _ I1 J1) as (r1 & K1 & S1). destruct (HG _ _ _ I2 J2) as (r2 & K2 & S2).
  assert (V1 : valid_key e a c t v1). { apply nth_error_In in I1. rewrite Forall_forall in HV. auto. }
  assert (V2 : valid_key e a c t v2). { apply nth_error_In in I2. rewrite Forall_forall in HV. auto. }
  destruct V1 as [P1 R1]. destruct V2 as [P2 R2].
  destruct (C27_equal_values e a (default_flavor (e_pf e)) c [] t v1 v2 [SResult] HE HD P1 R1 P2 R2 EQ) as (rs & Q1 & Q2).
  unfold key_result in K1, K2. cbn [app] in Q1, Q2. rewrite K1 in Q1. rewrite K2 in Q2. injection Q1 as Q1. rewrite <- Q1 in Q2. injection Q2 as ->.
  rewrite S1 in S2. injection S2 as S2. now apply N2Z.inj in S2.
Qed.

(* integer results no wider than std::size_t: keys collide only where the algorithm's results do *)
Theorem C47_collisions_integer e a c t v1 v2 r1 r2 s1 s2 x1 x2 z : valid_env e ->
  valid_key e a c t v1 -> valid_key e a c t v2 ->
  (result_size a <= ibytes (size_t e))%nat -> r1 = RInt s1 x1 -> r2 = RInt s2 x2 ->
  key_result e a c t v1 r1 -> key_result e a c t v2 r2 ->
  hash_with_any_seed e a t c [v1; v2] = Ok [z; z] -> r1 = r2.
Proof.
  intros HE V1 V2 HS -> -> K1 K2 EZ.
  destruct (ctor_ok e a c t v1 HE V1) as (h_ & EC).
  destruct (run_value e a c t v1 h_ HE V1 EC) as (r1 & z1 & K1' & W1 & _ & O1 & G1 & _).
  destruct (run_value e a c t v2 h_ HE V2 EC) as (r2 & z2 & K2' & W2 & _ & O2 & G2 & _).
  unfold key_result in *. rewrite K1' in K1. rewrite K2' in K2. injection K1 as ->. injection K2 as ->.
  unfold hash_with_any_seed in EZ. rewrite EC in EZ. cbn [bind object_calls] in EZ. rewrite O1, O2 in EZ. cbn [bind] in EZ. injection EZ as -> ->.
  assert (HK : forall s x c' xs f, runs e a f c' xs = Ok [RInt s x] -> s1 = s1 -> result_size a = ibytes s).
  { intros s x c' xs f E _. unfold runs in E. destruct (program _ _ _ _ c' xs) as [[|r [|? ?]]| | |]; cbn [bind map] in E; try discriminate. injection E as E.
    destruct a as [m|m| | | | | | | | | ]; try (destruct m); cbn in E; try discriminate; injection E as <- _; reflexivity. }
  pose proof (HK _ _ _ _ _ K1' eq_refl) as A1. pose proof (HK _ _ _ _ _ K2' eq_refl) as A2.
  assert (ES : s1 = s2) by (destruct s1, s2; cbn in A1, A2; congruence). subst s2. f_equal.
  cbn [word_result] in W1, W2. rewrite A1 in HS.
  destruct (C33_injective (size_t e) false s1 x1 x2 HS W1 W2) as [_ HI]. apply HI.
  apply (size_value_inj e (RInt s1 x1) (RInt s1 x2) z G1 G2).
Qed.
(* digests: exactly where their first sizeof(std::size_t) bytes agree *)
Theorem C47_collisions_digest e a c t v1 v2 d1 d2 : valid_env e ->
  valid_key e a c t v1 -> valid_key e a c t v2 ->
  key_result e a c t v1 (RDigest d1) -> key_result e a c t v2 (RDigest d2) ->
  (exists z1 z2, hash_with_any_seed e a t c [v1; v2] = Ok [z1; z2] /\
    (z1 = z2 <-> firstn (ibytes (size_t e)) d1 = firstn (ibytes (size_t e)) d2)).
Proof.
  intros HE V1 V2 K1 K2.
  destruct (ctor_ok e a c t v1 HE V1) as (h_ & EC).
  destruct (run_value e a c t v1 h_ HE V1 EC) as (r1 & z1 & K1' & _ & D1 & O1 & G1 & _).
  { unfold key_result in *. rewrite K1' in K1. injection K1 as ->. destruct D1 as [B1 L1].
    destruct (run_value e a c t v2 h_ HE V2 EC) as (r2 & z2 & K2' & _ & D2 & O2 & G2 & _).
    unfold key_result in *. rewrite K2' in K2. injection K2 as ->. destruct D2 as [B2 L2].
    exists z1, z2. unfold hash_with_any_seed. rewrite EC. cbn [bind object_calls]. rewrite O1, O2. cbn [bind]. split; [reflexivity|].
    destruct (C34_first_bytes (e_pf e) (size_t e) false d1 d2 L1 B1 L2 B2) as [_ HI]. rewrite <- HI.
    pose proof (size_value_gir _ _ _ G1) as S1. pose proof (size_value_gir _ _ _ G2) as S2. cbn [size_value] in S1, S2. rewrite S1, S2.
    split; [congruence|]. intros E. injection E as E. now apply N2Z.inj in E. }
Qed.

(* the objects that store the seed, or none, give the same values *)
Theorem C47_forms e a t vs : valid_env e -> vs <> [] ->
  (forall p n, valid_ctor (CBytes p n) -> Forall (valid_key e a (CBytes p n) t) vs ->
     hash_with_byte_seed e a t p n vs = hash_with_any_seed e a t (CBytes p n) vs) /\
  (forall seed, Forall (valid_key e a (CSeed seed) t) vs ->
     hash_with_uint64_seed e a t seed vs = hash_with_any_seed e a t (CSeed seed) vs) /\
  (Forall (valid_key e a CDefault t) vs ->
     hash_without_seed e a t vs = hash_with_any_seed e a t CDefault vs) /\
  (Forall (valid_key e a CDefault t) vs ->
     hash_with_any_seed e a t CDefault vs = hash_with_any_seed e a t (CSeed 0) vs).
Proof.
  intros HE HN. split; [|split; [|split]].
  - reflexivity.
  - intros seed HV. assert (HX : exists h_, construct (pk_h (pack e a)) (CSeed seed) = Ok h_).
    { destruct HV as [|v t' Hv _]; [easy|]. now apply (ctor_ok e a _ t v). }
    destruct HX as (h_ & EC). unfold hash_with_any_seed. rewrite EC. cbn [bind]. clear HV HN.
    induction vs as [|v vs IH]; [reflexivity|]. cbn [hash_with_uint64_seed object_calls]. cbn [construct] in EC. rewrite EC. cbn [bind]. now rewrite IH.
  - intros HV. unfold hash_with_any_seed. cbn [construct bind]. clear HV HN.
    induction vs as [|v vs IH]; [reflexivity|]. cbn [hash_without_seed object_calls]. now rewrite IH.
  - intros HV.
    assert (HZ : forall v, valid_key e a CDefault t v -> valid_key e a (CSeed 0) t v).
    { intros v [[_ P] R]. split; [split; [reflexivity|exact P]|]. unfold room in *. destruct a; cbn [roomy] in *; auto. }
    assert (HV0 : Forall (valid_key e a (CSeed 0) t) vs) by (eapply Forall_impl; [exact HZ|exact HV]).
    assert (EV : Forall (fun v => forall r, key_result e a CDefault t v r -> key_result e a (CSeed 0) t v r) vs).
    { eapply Forall_impl; [|exact HV]. intros v [[_ P] R] r K.
      assert (P0 : valid_program e a (CSeed 0) [SAppend t v; SResult]) by (split; [reflexivity|exact P]).
      assert (R0 : room e a (CSeed 0) [SAppend t v; SResult]) by (unfold room in *; destruct a; cbn [roomy] in *; auto).
      unfold key_result in *. rewrite runs_expected in K by first [assumption|split; [exact I|exact P]].
      rewrite runs_expected by assumption. rewrite <- K. unfold expected. now rewrite (proj1 (start_zero (e_cw e) a Null)). }
    destruct vs as [|v0 vs0] eqn:EVS; [easy|]. rewrite <- EVS in *. clear HN.
    assert (X1 : exists h1, construct (pk_h (pack e a)) CDefault = Ok h1) by (eexists; reflexivity).
    assert (X2 : exists h2, construct (pk_h (pack e a)) (CSeed 0) = Ok h2).
    { rewrite EVS in HV0. inversion HV0; subst. eapply ctor_ok; eassumption. }
    destruct X1 as (h1 & E1). destruct X2 as (h2 & E2). unfold hash_with_any_seed. rewrite E1, E2. cbn [bind]. clear EVS v0 vs0.
    induction vs as [|v vs IH]; [reflexivity|]. inversion HV; subst. inversion HV0; subst. inversion EV; subst. cbn [object_calls].
    destruct (run_value e a CDefault t v h1 HE) as (r1 & z1 & K1 & _ & _ & O1 & G1 & _); [assumption|exact E1|].
    destruct (run_value e a (CSeed 0) t v h2 HE) as (r2 & z2 & K2 & _ & _ & O2 & G2 & _); [assumption|exact E2|].
    assert (r1 = r2) by (match goal with H : forall r, _ -> _ |- _ => specialize (H _ K1); unfold key_result in H, K2; rewrite K2 in H; now injection H end).
    subst r2. rewrite G1 in G2. injection G2 as <-. rewrite O1, O2. cbn [bind]. rewrite IH by assumption. reflexivity.
Qed.

(* hash_32_64: with a 4-byte and an 8-byte integer algorithm, the values are the results of the
   algorithm of the width of std::size_t, unchanged *)
Theorem C47_32_64 e a1 a2 c t vs : valid_env e -> valid_ctor c -> result_size a1 = 4%nat -> result_size a2 = 8%nat ->
  Forall (valid_key e (hash_type e a1 a2) c t) vs -> vs <> [] ->
  result_size (hash_type e a1 a2) = ibytes (size_t e) /\
  exists zs, hash_32_64 e a1 a2 t c vs = Ok zs /\ Forall2 (fun v z => key_result e (hash_type e a1 a2) c t v (RInt (size_t e) z)) vs zs.
Proof.
  intros HE HC S1 S2. set (a := hash_type e a1 a2).
  assert (HA : result_size a = ibytes (size_t e)).
  { unfold a, hash_type. rewrite S1. destruct HE as [[E|E] _]; unfold size_t; rewrite E; [exact S1|exact S2]. }
  intros HV HN. split; [exact HA|].
  assert (HX : exists h_, construct (pk_h (pack e a)) c = Ok h_).
  { destruct HV as [|v t' Hv _]; [easy|]. now apply (ctor_ok e a c t v). }
  destruct HX as (h_ & EC). unfold hash_32_64, hash_with_any_seed. fold a. rewrite EC. cbn [bind]. clear HN.
  induction HV as [|v vs Hv HV IH]; [exists []; split; [reflexivity|constructor]|].
  destruct IH as (zs & Ez & HF). destruct (run_value e a c t v h_ HE Hv EC) as (r & z & K & W & _ & OV & GS & LT).
  exists (z :: zs). cbn [object_calls]. rewrite OV. cbn [bind]. rewrite Ez. cbn [bind]. split; [reflexivity|].
  constructor; [|exact HF].
  assert (HR : exists s x, r = RInt s x /\ ibytes s = ibytes (size_t e)).
  { unfold key_result, runs in K. destruct (program _ _ _ _ c _) as [[|y [|? ?]]| | |]; cbn [bind map] in K; try discriminate. injection K as <-.
    rewrite <- HA. assert (HB : result_size a = 4%nat \/ result_size a = 8%nat) by (rewrite HA; unfold size_t; destruct (e_cw e =? _); auto).
    clear -HB. clearbody a. revert y. destruct a as [m|m| | | | | | | | | ]; intros y; try (destruct m); cbn in HB; try (destruct HB; discriminate);
      (eexists _, _; split; [reflexivity|reflexivity]). }
  destruct HR as (s & x & -> & HS). assert (s = size_t e) by (destruct s; unfold size_t in *; destruct (e_cw e =? 2^32); cbn in HS; congruence). subst s.
  cbn [gir_size] in GS. cbn [word_result] in W. rewrite gir_up in GS by (try apply le_n; exact W).
  replace (multiplier (size_t e) (size_t e)) with 1 in GS by (destruct (size_t e); reflexivity).
  rewrite N.mul_1_r, N.mod_small in GS by exact W. injection GS as ->. exact K.
Qed.

(* ---------- examples: string keys "foo", "bar", "foo" as in hash_with_any_seed.cpp ---------- *)
(* (a std::string is a TVec of char) *)
Definition string_ty : ty := TVec (TInt I8 true).
Definition foo : val := VList [VInt 102; VInt 111; VInt 111].
Definition bar : val := VList [VInt 98; VInt 97; VInt 114].
Lemma key_ex e a c v : im_psz (e_impl e) = I64 -> valid_ctor c -> a <> Aspooky -> v = foo \/ v = bar -> valid_key e a c string_ty v.
Proof.
  intros HP HC HA HV. split; [|unfold room; destruct a; exact I || easy].
  apply steps_valid; [exact HP|exact HC|]. unfold steps_ok. destruct HV as [-> | ->]; unfold foo, bar, string_ty; ok.
Qed.
Lemma keys_ex e a c : im_psz (e_impl e) = I64 -> valid_ctor c -> a <> Aspooky -> Forall (valid_key e a c string_ty) [foo; bar; foo].
Proof. intros HP HC HA. repeat (constructor; [apply key_ex; auto|]). constructor. Qed.
Lemma Forall2_len {A B} (P : A -> B -> Prop) l1 l2 : Forall2 P l1 l2 -> length l1 = length l2.
Proof. induction 1; cbn; auto. Qed.
Example C47_values_ex e a c : e = env_pc \/ e = env_be -> valid_ctor c -> a <> Aspooky -> exists z1 z2,
  hash_with_any_seed e a string_ty c [foo; bar; foo] = Ok [z1; z2; z1].
Proof.
  intros HE HC HA. assert (VE : valid_env e) by (destruct HE as [-> | ->]; [exact env_pc_valid|exact env_be_valid]).
  assert (HP : im_psz (e_impl e) = I64) by (destruct HE as [-> | ->]; reflexivity).
  assert (HD : im_down (e_impl e) = false) by (destruct HE as [-> | ->]; reflexivity).
  pose proof (keys_ex e a c HP HC HA) as HV.
  destruct (C47_values e a c string_ty _ VE HC HV ltac:(discriminate)) as (zs & EZ & HF).
  destruct zs as [|z1 [|z2 [|z3 [|z4 zs]]]]; try (exfalso; apply Forall2_len in HF; cbn in HF; discriminate).
  exists z1, z2. rewrite EZ. do 4 f_equal. symmetry.
  apply (C47_equal_keys e a c string_ty [foo; bar; foo] [z1; z2; z3] 0 2 foo foo z1 z3); auto.
  cbn. repeat constructor.
Qed.
Example C47_32_64_ex : hash_type env_be Asip32 Asip64 = Asip32 /\ hash_type env_pc Asip32 Asip64 = Asip64 /\
  exists z1 z2, hash_32_64 env_pc Asip32 Asip64 string_ty (CSeed 0x0102030405060708) [foo; bar] = Ok [z1; z2] /\ z1 <> z2.
Proof.
  split; [reflexivity|]. split; [reflexivity|]. eexists _, _. split; [vm_compute; reflexivity|]. vm_compute. discriminate.
Qed.
(* siphash_64 with the byte seed of hash_with_byte_seed.cpp *)
Example C47_collisions_integer_ex : forall r1 r2 s1 s2 x1 x2 z,
  let c := CBytes (Ptr [1; 2; 3; 4; 5; 6; 7; 8; 9; 10; 11; 12; 13; 14; 15; 16]) 16 in
  r1 = RInt s1 x1 -> r2 = RInt s2 x2 -> key_result env_pc Asip64 c string_ty foo r1 -> key_result env_pc Asip64 c string_ty bar r2 ->
  hash_with_any_seed env_pc Asip64 string_ty c [foo; bar] = Ok [z; z] -> r1 = r2.
Proof.
  intros r1 r2 s1 s2 x1 x2 z c. assert (HC : valid_ctor c) by (split; [cbn; lia|repeat constructor]).
  apply C47_collisions_integer; [exact env_pc_valid| | |cbn; lia]; apply key_ex; auto; discriminate.
Qed.
Example C47_collisions_digest_ex : forall d1 d2,
  key_result env_be (Amd Amd5) CDefault string_ty foo (RDigest d1) -> key_result env_be (Amd Amd5) CDefault string_ty bar (RDigest d2) ->
  exists z1 z2, hash_with_any_seed env_be (Amd Amd5) string_ty CDefault [foo; bar] = Ok [z1; z2] /\ (z1 = z2 <-> firstn 4 d1 = firstn 4 d2).
Proof.
  intros d1 d2. apply C47_collisions_digest; [exact env_be_valid| |]; apply key_ex; auto; try exact I; discriminate.
Qed.

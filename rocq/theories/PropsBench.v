(* C64: the functions of the compile-time examples.  C65: the hash function objects of
   benchmark/unordered.cpp. *)
From Coq Require Import Permutation.
From Verif Require Import Base BaseFacts SpecCommon Hasher GenBlk Types ModelResult ModelAppend SpecAppend
  ProofMsg ProofMsgEq ProofMsgExt ProofAppend Behaves Instances ProofRuns ProofRange PropsHistory Samples PropsAppend PropsIntegral PropsAlg
  ModelExamples PropsObjects ModelBench.
From Verif Require Import SpecMd5 SpecSha2 SpecHmac.
Open Scope N_scope.

(* ------------------------------------------------------------------ C64 *)
(* md5( a ) is the MD5 of the bytes of the array, at compile time (p_cx) or not *)
Theorem C64_md5 e a : valid_env e -> bytes a -> example_md5 e a = Ok (RDigest (MD5 a)).
Proof.
  intros HE HA. assert (HV : valid_pieces (Amd Amd5) [(Ptr a, length a)]) by (constructor; [split; [apply le_n|exact HA]|constructor]).
  pose proof (C02_md5 e le_flavor _ HE HV) as E. unfold runs, program, hash_pieces, updates in E. cbn [map app construct bind prun fst snd] in E.
  unfold example_md5. cbv zeta.
  destruct (h_update _ _ (Ptr a) (length a)) as [h| | |]; cbn [bind] in E |- *; try discriminate.
  destruct (h_result _ h) as [[r s]| | |]; cbn [bind map] in E |- *; try discriminate.
  replace (fed [(Ptr a, length a)]) with a in E; [now injection E as ->|].
  unfold fed. cbn [map concat fst snd data]. now rewrite firstn_all, app_nil_r.
Qed.
(* hmac_sha2_256( s ) is the HMAC-SHA-256, under the secret, of the characters before the final one
   of the array (the null terminator).  char is an unsigned (0..255) or signed type.
   (The pointers to an array are not null: im_null = false, if there are no characters.) *)
Definition char_code (z : Z) : N := Z.to_N (z mod 256).
Lemma chars_message i f sg k zs q : call_message i f (KRange k (TInt I8 sg) (map VInt zs)) q = map char_code zs.
Proof.
  unfold call_message. cbn [call_msg form_msg]. revert q.
  induction zs as [|z zs IH]; intros q; [reflexivity|]. cbn [map seq_msg]. rewrite IH. cbn [msg ibytes].
  unfold enc, char_code. cbv zeta. change (2 ^ (8 * Z.of_nat 1))%Z with 256%Z.
  pose proof (Z.mod_pos_bound z 256 ltac:(lia)) as HB.
  destruct (order_le (fl_order f)); cbn -[N.modulo N.div Z.modulo]; rewrite N.mod_small by lia; reflexivity.
Qed.
Lemma chars_bytes zs : bytes (map char_code zs).
Proof.
  apply Forall_forall. intros x Hx. apply in_map_iff in Hx. destruct Hx as (z & <- & _). unfold char_code. pose proof (Z.mod_pos_bound z 256 ltac:(lia)). lia.
Qed.
(* a range of characters given by pointers is one update *)
Lemma chars_feed e a f c sg zs : valid_env e -> valid_ctor c -> Forall (in_int I8 sg) zs -> (zs = [] -> im_null (e_impl e) = false) -> a <> Aspooky ->
  exists rs, runs e a f c ([SCall (KRange IPtr (TInt I8 sg) (map VInt zs))] ++ [SResult]) = Ok rs /\ runs e a f c (hash_pieces [(Ptr (map char_code zs), length zs)]) = Ok rs.
Proof.
  intros HE HC HZ HN HA.
  assert (HV : valid_program e a c ([] ++ [SCall (KRange IPtr (TInt I8 sg) (map VInt zs))] ++ [SResult])).
  { split; [exact HC|]. constructor; [|constructor; [exact I|constructor]]. cbn [valid_step call_ok call_null_free form_ok form_null]. split.
    - apply Forall_map. exact HZ.
    - intros HI. right. destruct zs as [|z zs]; [rewrite HN in HI; discriminate || reflexivity|]. split; [discriminate|]. apply Forall_map, Forall_forall. intros; exact I. }
  assert (HR : room e a c ([] ++ [SCall (KRange IPtr (TInt I8 sg) (map VInt zs))] ++ [SResult])) by now apply room_any.
  destruct (query_exists e a f c [] _ _ HE HV HR) as (q & HQ).
  destruct (append_feeds e a f c [] _ _ q _ HE HV HR HQ eq_refl) as (rs & E1 & E2). rewrite chars_message in E2.
  exists rs. split; [exact E1|]. unfold feed in E2. rewrite map_length in E2. exact E2.
Qed.
Theorem C64_hmac e sg secret s z : valid_env e -> bytes secret -> Forall (in_int I8 sg) s -> (s = [] -> im_null (e_impl e) = false) ->
  example_hmac e sg secret (s ++ [z]) = Ok (RDigest (HMAC 64 SHA256 secret (map char_code s))).
Proof.
  intros HE HB HS HN. set (f := default_flavor (e_pf e)).
  assert (HC : valid_ctor (CBytes (Ptr secret) (length secret))) by (split; [apply le_n|exact HB]).
  destruct (chars_feed e (Ahmac Asha256) f _ sg s HE HC HS HN ltac:(discriminate)) as (rs & E1 & E2).
  rewrite (C13_hmac e f Asha256) in E2; [|exact HE|exact HC| |intros H; discriminate].
  2:{ constructor; [|constructor]. split; [rewrite map_length; apply le_n|apply chars_bytes]. }
  assert (EL : fed [(Ptr (map char_code s), length s)] = map char_code s).
  { unfold fed. cbn [map concat fst snd data]. rewrite app_nil_r. apply firstn_all2. rewrite map_length. apply le_n. }
  assert (EK : data (Ptr secret) (length secret) = secret) by apply firstn_all.
  rewrite EL, EK in E2. assert (Q2 : forall x y : list result, Ok x = Ok y -> x = y) by (now intros x y [= ->]). apply Q2 in E2. subst rs.
  unfold runs, program in E1. cbn [app construct bind prun] in E1. unfold example_hmac. cbv zeta. fold f.
  replace (length (s ++ [z]) - 1)%nat with (length s) by (rewrite app_length; cbn [length]; lia).
  rewrite firstn_app, firstn_all, Nat.sub_diag. cbn [firstn]. rewrite app_nil_r.
  destruct (h_bytes _ (Ptr secret) (length secret)) as [h| | |]; cbn [bind] in E1 |- *; try discriminate.
  destruct (ha_call _ _ _ _ _ h) as [h1| | |]; cbn [bind] in E1 |- *; try discriminate.
  destruct (h_result _ h1) as [[r s']| | |]; cbn [bind map] in E1 |- *; try discriminate.
  assert (Q : forall x y : result, Ok [x] = Ok [y] -> x = y) by (now intros x y [= ->]). exact (f_equal Ok (Q _ _ E1)).
Qed.
Definition env_cx : env := {| e_impl := {| im_pf := {| p_le := true; p_cx := true |}; im_psz := I64; im_null := false; im_down := false; im_nan := fun b => b |};
  e_cw := 2^64; e_junk := fun k => repeat 0 k |}.
Lemma env_cx_valid : valid_env env_cx. Proof. split; [right; reflexivity|intros k; apply repeat_length]. Qed.
Example C64_md5_ex : example_md5 env_cx [97; 98; 99] = Ok (RDigest (MD5 [97; 98; 99])) /\ MD5 [97; 98; 99] = toBE 16 0x900150983cd24fb0d6963f7d28e17f72.
Proof. split; [apply C64_md5; [exact env_cx_valid|repeat constructor]|vm_compute; reflexivity]. Qed.
(* "ab", and a string with the characters -1 *)
Example C64_hmac_ex : example_hmac env_cx true [1; 2; 3] [97; 98; 0]%Z = Ok (RDigest (HMAC 64 SHA256 [1; 2; 3] [97; 98])) /\
  example_hmac env_pc true [1; 2; 3] [-1; 0]%Z = Ok (RDigest (HMAC 64 SHA256 [1; 2; 3] [255])).
Proof.
  split.
  - apply (C64_hmac env_cx true [1; 2; 3] [97; 98]%Z 0%Z env_cx_valid); [repeat constructor|repeat constructor; discriminate|discriminate].
  - apply (C64_hmac env_pc true [1; 2; 3] [-1]%Z 0%Z env_pc_valid); [repeat constructor|repeat constructor; discriminate|discriminate].
Qed.

(* ------------------------------------------------------------------ C65 *)
(* a key of type t that algorithm a can hash after constructor c *)
Definition bench_key (e : env) (a : alg) (c : ctor) (t : ty) (v : val) : Prop :=
  valid_program e a c [SCall (benchmark_call t v); SResult] /\ room e a c [SCall (benchmark_call t v); SResult].
(* r: the result after one hash_append per element of a vector, string or array; after hash_append
   of the key for all other types *)
Definition bench_result (e : env) (a : alg) (c : ctor) (t : ty) (v : val) (r : result) : Prop :=
  match t, v with
  | TVec t, VList vs | TArr _ t, VList vs => runs e a (default_flavor (e_pf e)) c (parts (all_same t (length vs)) vs ++ [SResult]) = Ok [r]
  | _, _ => runs e a (default_flavor (e_pf e)) c [SAppend t v; SResult] = Ok [r]
  end.
Lemma bench_value e a c t v h_ : valid_env e -> bench_key e a c t v -> construct (pk_h (pack e a)) c = Ok h_ ->
  exists r z, runs e a (default_flavor (e_pf e)) c [SCall (benchmark_call t v); SResult] = Ok [r] /\
    compute_hash_value e a t h_ v = Ok z /\ gir_size e r = Ok z /\ z < e_cw e.
Proof.
  intros HE [HV HR] EC. pose proof (runs_expected e a (default_flavor (e_pf e)) c _ HE HV HR) as E.
  pose proof (results_words e a (default_flavor (e_pf e)) c _ HV) as HW.
  pose proof (expected_shape e a (default_flavor (e_pf e)) c [SCall (benchmark_call t v); SResult]) as HS.
  rewrite <- (f_equal (fun x => match x with Ok l => l | _ => [] end) E) in HW, HS.
  unfold runs, program in E, HW, HS |- *. rewrite EC in E, HW, HS |- *. cbn [bind prun] in E, HW, HS |- *. unfold compute_hash_value.
  destruct (ha_call _ _ _ _ _ h_) as [h1| | |]; cbn [bind] in E, HW, HS |- *; try discriminate.
  destruct (h_result _ h1) as [[r s2]| | |]; cbn [bind map] in E, HW, HS |- *; try discriminate.
  inversion HW as [|? ? W1 _]; subst. inversion HS as [|? ? [D1 D2] _]; subst.
  destruct (gir_size_ok e _ HE W1 D1 D2) as (z & Ez & Lz). exists (pk_out (pack e a) r), z. auto 6.
Qed.
Lemma bench_ctor e a c t v : valid_env e -> bench_key e a c t v -> exists h_, construct (pk_h (pack e a)) c = Ok h_.
Proof.
  intros HE [HV HR]. pose proof (runs_expected e a (default_flavor (e_pf e)) c _ HE HV HR) as E. unfold runs, program in E.
  destruct (construct (pk_h (pack e a)) c) as [s| | |]; cbn [bind] in E; try discriminate. eauto.
Qed.
Lemma bench_feeds e a c t v r : valid_env e -> bench_key e a c t v ->
  runs e a (default_flavor (e_pf e)) c [SCall (benchmark_call t v); SResult] = Ok [r] -> bench_result e a c t v r.
Proof.
  intros HE [HV HR] E. assert (K : forall t' vs, benchmark_call t v = KRange IPtr t' vs ->
    runs e a (default_flavor (e_pf e)) c (parts (all_same t' (length vs)) vs ++ [SResult]) = Ok [r]).
  { intros t' vs EK. rewrite EK in E, HV, HR. destruct (C41_range e a (default_flavor (e_pf e)) c [] IPtr t' vs [SResult] HE HV HR) as (rs & E1 & E2).
    cbn [app] in E1, E2. rewrite E1 in E. injection E as ->. exact E2. }
  unfold bench_result. destruct t; try exact E; destruct v; try exact E; apply K; reflexivity.
Qed.
(* the value of a key with the three forms of objects; any number of calls on the seeded object *)
Theorem C65_values e a t v : valid_env e ->
  (bench_key e a CDefault t v -> exists r z, bench_result e a CDefault t v r /\ benchmark_without_seed e a t v = Ok z /\ size_value e r = Ok (Z.of_N z)) /\
  (forall n, bench_key e a (CSeed n) t v -> exists r z, bench_result e a (CSeed n) t v r /\ benchmark_uint64_seed e a t n v = Ok z /\ size_value e r = Ok (Z.of_N z)) /\
  (forall p n vs, valid_ctor (CBytes p n) -> vs <> [] -> Forall (bench_key e a (CBytes p n) t) vs ->
     exists zs, benchmark_byte_seed e a t p n vs = Ok zs /\
       Forall2 (fun v z => z < e_cw e /\ exists r, bench_result e a (CBytes p n) t v r /\ size_value e r = Ok (Z.of_N z)) vs zs).
Proof.
  intros HE. split; [|split].
  - intros HK. destruct (bench_value e a CDefault t v _ HE HK eq_refl) as (r & z & R & O & G & L). exists r, z.
    split; [now apply bench_feeds|]. split; [exact O|]. now apply size_value_gir.
  - intros n HK. destruct (bench_ctor e a _ t v HE HK) as (h_ & EC). destruct (bench_value e a _ t v h_ HE HK EC) as (r & z & R & O & G & L). exists r, z.
    split; [now apply bench_feeds|]. split; [|now apply size_value_gir]. unfold benchmark_uint64_seed. cbn [construct] in EC. rewrite EC. exact O.
  - intros p n vs HC HN HV. assert (HX : exists h_, construct (pk_h (pack e a)) (CBytes p n) = Ok h_).
    { destruct HV as [|v0 t' Hv _]; [easy|]. now apply (bench_ctor e a _ t v0). }
    destruct HX as (h_ & EC). unfold benchmark_byte_seed. cbn [construct] in EC. rewrite EC. cbn [bind]. clear HN.
    induction HV as [|v0 vs Hv HV IH]; [exists []; split; [reflexivity|constructor]|].
    destruct IH as (zs & Ez & HF). destruct (bench_value e a (CBytes p n) t v0 h_ HE Hv EC) as (r & z & K & OV & GS & LT).
    exists (z :: zs). cbn [benchmark_calls]. rewrite OV. cbn [bind]. rewrite Ez. cbn [bind]. split; [reflexivity|].
    constructor; [|exact HF]. split; [exact LT|]. exists r. split; [now apply bench_feeds|now apply size_value_gir].
Qed.
(* equal keys have equal results, so equal values *)
Theorem C65_equal_keys e a c t v1 v2 r1 r2 : valid_env e -> im_down (e_impl e) = false -> bench_key e a c t v1 -> bench_key e a c t v2 ->
  equal t v1 v2 -> bench_result e a c t v1 r1 -> bench_result e a c t v2 r2 -> r1 = r2.
Proof.
  intros HE HD K1 K2 EQ B1 B2.
  destruct (bench_ctor e a c t v1 HE K1) as (h_ & EC).
  destruct (bench_value e a c t v1 h_ HE K1 EC) as (s1 & _ & R1 & _). destruct (bench_value e a c t v2 h_ HE K2 EC) as (s2 & _ & R2 & _).
  assert (U : forall v s r, bench_key e a c t v -> runs e a (default_flavor (e_pf e)) c [SCall (benchmark_call t v); SResult] = Ok [s] -> bench_result e a c t v r -> s = r).
  { intros v s r K R B. pose proof (bench_feeds e a c t v s HE K R) as B'. unfold bench_result in B, B'.
    destruct t; try (rewrite B in B'; now injection B'); destruct v; rewrite B in B'; now injection B'. }
  rewrite <- (U v1 s1 r1 K1 R1 B1), <- (U v2 s2 r2 K2 R2 B2). clear U B1 B2 r1 r2 EC h_.
  destruct K1 as [V1 M1]. destruct K2 as [V2 M2].
  assert (ES : exists rs, runs e a (default_flavor (e_pf e)) c ([] ++ [SCall (benchmark_call t v1)] ++ [SResult]) = Ok rs /\
                          runs e a (default_flavor (e_pf e)) c ([] ++ [SCall (benchmark_call t v2)] ++ [SResult]) = Ok rs).
  { assert (HR : forall t' vs1 vs2, Forall2 (equal t') vs1 vs2 -> benchmark_call t v1 = KRange IPtr t' vs1 -> benchmark_call t v2 = KRange IPtr t' vs2 ->
      exists rs, runs e a (default_flavor (e_pf e)) c ([] ++ [SCall (benchmark_call t v1)] ++ [SResult]) = Ok rs /\
                 runs e a (default_flavor (e_pf e)) c ([] ++ [SCall (benchmark_call t v2)] ++ [SResult]) = Ok rs).
    { intros t' vs1 vs2 F E1 E2. rewrite E1 in V1, M1 |- *. rewrite E2 in V2, M2 |- *.
      apply call_same; try assumption.
      - apply (valid_call e a c [] _ [SResult] V2).
      - destruct (valid_call e a c [] _ [SResult] V1) as [T1 _]. destruct (valid_call e a c [] _ [SResult] V2) as [T2 _]. cbn [call_ok form_ok] in T1, T2.
        intros q. unfold call_message. cbn [call_msg form_msg].
        eapply seq_msg_equal; [|exact T1|exact T2|exact F]. intros w1 w2 q' W1 W2 EW. apply msg_equal; try assumption; [now apply fadd0_zeros32|now apply fadd0_zeros64]. }
    destruct t; cbn [benchmark_call] in *; try (now apply (C27_equal_values e a (default_flavor (e_pf e)) c [] _ v1 v2 [SResult])).
    - destruct v1 as [|vs1], v2 as [|vs2]; try contradiction. now apply (HR t vs1 vs2).
    - destruct v1 as [|vs1], v2 as [|vs2]; try contradiction. now apply (HR t vs1 vs2). }
  destruct ES as (rs & E1 & E2). cbn [app] in E1, E2. rewrite R1 in E1. rewrite R2 in E2. injection E1 as <-. now injection E2 as ->.
Qed.
(* a string key is hashed as exactly its characters: e.g. xxhash_64 with a seed *)
Theorem C65_strings e a c sg zs r : valid_env e -> valid_ctor c -> a <> Aspooky -> Forall (in_int I8 sg) zs -> (zs = [] -> im_null (e_impl e) = false) ->
  bench_result e a c (TVec (TInt I8 sg)) (VList (map VInt zs)) r ->
  runs e a (default_flavor (e_pf e)) c (hash_pieces [(Ptr (map char_code zs), length zs)]) = Ok [r].
Proof.
  intros HE HC HA HZ HN HB. destruct (chars_feed e a (default_flavor (e_pf e)) c sg zs HE HC HZ HN HA) as (rs & E1 & E2).
  assert (HV : valid_program e a c ([] ++ [SCall (KRange IPtr (TInt I8 sg) (map VInt zs))] ++ [SResult])).
  { split; [exact HC|]. constructor; [|constructor; [exact I|constructor]]. cbn [valid_step call_ok call_null_free form_ok form_null]. split.
    - apply Forall_map. exact HZ.
    - intros HI. right. destruct zs as [|z zs]; [rewrite HN in HI; discriminate || reflexivity|]. split; [discriminate|]. apply Forall_map, Forall_forall. intros; exact I. }
  destruct (C41_range e a (default_flavor (e_pf e)) c [] IPtr _ _ [SResult] HE HV ltac:(now apply room_any)) as (rs' & F1 & F2).
  cbn [app] in E1, F1, F2. rewrite E1 in F1. injection F1 as <-. cbn [bench_result] in HB. rewrite HB in F2. injection F2 as <-. exact E2.
Qed.
(* ---------- examples: the string keys "foo", "bar" and the integer key 5 ---------- *)
Lemma bench_key_ex e a c v : im_psz (e_impl e) = I64 -> valid_ctor c -> a <> Aspooky -> v = foo \/ v = bar -> bench_key e a c string_ty v.
Proof.
  intros HP HC HA HV. split; [|now apply room_any]. apply steps_valid; [exact HP|exact HC|]. unfold steps_ok. destruct HV as [-> | ->]; ok.
Qed.
Example C65_values_ex a : a <> Aspooky -> exists z1 z2 z3, benchmark_byte_seed env_pc a string_ty (Ptr [1; 2; 3]) 3 [foo; bar; foo] = Ok [z1; z2; z3] /\ z1 = z3.
Proof.
  intros HA. assert (HC : valid_ctor (CBytes (Ptr [1; 2; 3]) 3)) by (split; [apply le_n|repeat constructor]).
  assert (HK : forall v, v = foo \/ v = bar -> bench_key env_pc a (CBytes (Ptr [1; 2; 3]) 3) string_ty v) by (intros v Hv; now apply bench_key_ex).
  destruct (C65_values env_pc a string_ty foo env_pc_valid) as (_ & _ & H).
  destruct (H (Ptr [1; 2; 3]) 3%nat [foo; bar; foo] HC ltac:(discriminate)) as (zs & E & F); [repeat (constructor; [apply HK; auto|]); constructor|].
  inversion F as [|? z1 ? ? (_ & r1 & B1 & S1) F1]; subst. inversion F1 as [|? z2 ? ? _ F2]; subst. inversion F2 as [|? z3 ? ? (_ & r3 & B3 & S3) F3]; subst. inversion F3; subst.
  exists z1, z2, z3. split; [exact E|].
  assert (r1 = r3) by (apply (C65_equal_keys env_pc a (CBytes (Ptr [1; 2; 3]) 3) string_ty foo foo r1 r3 env_pc_valid); [reflexivity|apply HK; auto|apply HK; auto|repeat constructor|exact B1|exact B3]).
  subst r3. rewrite S1 in S3. injection S3 as S3. now apply N2Z.inj in S3.
Qed.
Example C65_integer_key e a : im_psz (e_impl e) = I64 -> a <> Aspooky -> valid_env e -> exists r z,
  runs e a (default_flavor (e_pf e)) (CSeed 1) [SAppend (TInt I32 true) (VInt 5); SResult] = Ok [r] /\ benchmark_uint64_seed e a (TInt I32 true) 1 (VInt 5) = Ok z /\ size_value e r = Ok (Z.of_N z).
Proof.
  intros HP HA HE. destruct (C65_values e a (TInt I32 true) (VInt 5) HE) as (_ & H & _). apply H.
  split; [|now apply room_any]. apply steps_valid; [exact HP|reflexivity|]. unfold steps_ok. ok.
Qed.
(* "foo" with xxhash_64: XXH64 of the three characters *)
Example C65_strings_ex r : bench_result env_pc Axx64 (CSeed 5) string_ty foo r -> runs env_pc Axx64 (default_flavor (e_pf env_pc)) (CSeed 5) (hash_pieces [(Ptr [102; 111; 111], 3%nat)]) = Ok [r].
Proof. apply (C65_strings env_pc Axx64 (CSeed 5) true [102; 111; 111]%Z); [exact env_pc_valid|reflexivity|discriminate|repeat constructor; discriminate|discriminate]. Qed.

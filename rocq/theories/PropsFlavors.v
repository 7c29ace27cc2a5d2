(* C26 and C40, continued: the flavors the library provides (flavor.hpp). *)
From Verif Require Import Base BaseFacts SpecCommon Hasher Types ModelResult ModelAppend SpecAppend ProofMsg ProofMsgEq
  Behaves Instances ProofRuns Samples PropsAppend.
Open Scope N_scope.

(* flavor.hpp:16-32: the three flavors and whether each is little-endian; default_flavor has the byte order of the platform *)
Inductive provided (e : env) : flavor -> bool -> Prop :=
| P_default : provided e (default_flavor (e_pf e)) (p_le (e_pf e))
| P_little : provided e little_endian_flavor true
| P_big : provided e big_endian_flavor false.

(* the k bytes of z modulo 256^k, least significant first or last *)
Definition k_bytes (k : nat) (le : bool) (z : Z) : list N :=
  let u := Z.to_N (z mod 2 ^ (8 * Z.of_nat k)) in if le then toLE k u else toBE k u.

(* hash_append_size feeds the eight bytes of the size *)
Theorem C40_provided e a f le c pre z post : valid_env e -> provided e f le ->
  valid_program e a c (pre ++ [SCall (KSize z)] ++ post) -> room e a c (pre ++ [SCall (KSize z)] ++ post) ->
  exists rs, runs e a f c (pre ++ [SCall (KSize z)] ++ post) = Ok rs /\
             runs e a f c (pre ++ [feed (k_bytes 8 le z)] ++ post) = Ok rs.
Proof.
  intros HE HP HV HR. destruct (query_exists e a f c pre (KSize z) post HE HV HR) as (q & HQ).
  apply (append_feeds e a f c pre (KSize z) post q); try assumption.
  unfold call_message. cbn [call_msg]. destruct HP; cbn [fl_order fl_size ibytes default_flavor little_endian_flavor big_endian_flavor]; try reflexivity.
  unfold native. destruct (p_le (e_pf e)); reflexivity.
Qed.

(* an integer feeds its sizeof(T) bytes *)
Theorem C26_provided e a f le c pre s sg z post : valid_env e -> provided e f le ->
  valid_program e a c (pre ++ [SAppend (TInt s sg) (VInt z)] ++ post) -> room e a c (pre ++ [SAppend (TInt s sg) (VInt z)] ++ post) ->
  exists rs, runs e a f c (pre ++ [SAppend (TInt s sg) (VInt z)] ++ post) = Ok rs /\
             runs e a f c (pre ++ [feed (k_bytes (ibytes s) le z)] ++ post) = Ok rs.
Proof.
  intros HE HP HV HR. replace (k_bytes (ibytes s) le z) with (scalar_bytes (e_impl e) f (TInt s sg) z).
  - apply C26_scalars; try assumption. exact I.
  - cbn [scalar_bytes]. unfold int_bytes, k_bytes, enc. destruct HP; cbn [fl_order default_flavor little_endian_flavor big_endian_flavor]; try reflexivity.
    unfold native. destruct (p_le (e_pf e)); reflexivity.
Qed.

(* a container of variable length feeds its elements and then its size in eight bytes *)
Lemma parts_same t vs : parts (repeat t (length vs)) vs = map (fun v => SAppend t v) vs.
Proof. induction vs as [|v vs IH]; [reflexivity|]. cbn [length repeat parts map]. now rewrite IH. Qed.
Lemma k_bytes_ok k le z : length (k_bytes k le z) = k /\ bytes (k_bytes k le z).
Proof. destruct (C26_enc le k z) as (L & B & _). now split. Qed.
Theorem C40_container e a f le c pre t vs post : valid_env e -> provided e f le ->
  valid_program e a c (pre ++ [SAppend (TVec t) (VList vs)] ++ post) -> room e a c (pre ++ [SAppend (TVec t) (VList vs)] ++ post) ->
  exists rs, runs e a f c (pre ++ [SAppend (TVec t) (VList vs)] ++ post) = Ok rs /\
             runs e a f c (pre ++ (map (fun v => SAppend t v) vs ++ [feed (k_bytes 8 le (Z.of_nat (length vs)))]) ++ post) = Ok rs.
Proof.
  intros HE HP HV HR.
  assert (HT : has_type (im_psz (e_impl e)) (TVec t) (VList vs)).
  { apply (valid_call _ _ _ _ _ _ HV). }
  destruct (k_bytes_ok 8 le (Z.of_nat (length vs))) as [KL KB].
  cbn [has_type] in HT. rewrite <- parts_same. apply composite; try assumption.
  - apply Forall_app. split; [apply parts_valid; [now apply zip_repeat|]; intros H; destruct (proj2 (valid_call _ _ _ _ _ _ HV) H) as [H1|H1]; [now left|right]; apply zipw_repeat, H1|].
    constructor; [|constructor]. cbn [valid_step feed]. split; [apply le_n|exact KB].
  - apply Forall_app. split; [apply parts_noresult|]. constructor; [discriminate|constructor].
  - rewrite weight_app, parts_weight, tup_blen_repeat. unfold weight, feed. cbn [map step_weight lsum fold_right call_blen blen form_blen]. rewrite KL. lia.
  - intros s. rewrite asteps_app, seq_parts. cbn [asteps feed data]. rewrite firstn_all, machine_app. f_equal.
    unfold call_message. cbn [call_msg msg form_msg]. f_equal. unfold size_msg, enc, k_bytes.
    destruct HP; cbn [fl_order fl_size ibytes default_flavor little_endian_flavor big_endian_flavor]; try reflexivity.
    unfold native. destruct (p_le (e_pf e)); reflexivity.
Qed.

(* with the flavors provided, no two sizes below 2^64 feed the same bytes *)
Theorem C40_provided_distinct le z1 z2 : (0 <= z1 < 2 ^ 64)%Z -> (0 <= z2 < 2 ^ 64)%Z ->
  k_bytes 8 le z1 = k_bytes 8 le z2 -> z1 = z2.
Proof.
  intros H1 H2 E. destruct (C26_enc le 8 z1) as (_ & _ & E1). destruct (C26_enc le 8 z2) as (_ & _ & E2).
  change (enc le 8 z1) with (k_bytes 8 le z1) in E1. change (enc le 8 z2) with (k_bytes 8 le z2) in E2. rewrite E in E1. rewrite E1 in E2.
  change (2 ^ (8 * Z.of_nat 8))%Z with (2 ^ 64)%Z in E2. rewrite !Z.mod_small in E2 by assumption. exact E2.
Qed.

Example C40_provided_ex a : exists rs,
  runs env_pc a (default_flavor (e_pf env_pc)) (CSeed 7) (sample ++ [SCall (KSize 4294967298)] ++ [SResult]) = Ok rs /\
  runs env_pc a (default_flavor (e_pf env_pc)) (CSeed 7) (sample ++ [feed [2; 0; 0; 0; 1; 0; 0; 0]] ++ [SResult]) = Ok rs.
Proof. apply (C40_provided env_pc a _ true (CSeed 7) sample 4294967298 [SResult]); try exact (P_default env_pc); ex_side. Qed.
Example C40_provided_big_ex a : exists rs,
  runs env_pc a big_endian_flavor (CSeed 7) (sample ++ [SCall (KSize 4294967298)] ++ [SResult]) = Ok rs /\
  runs env_pc a big_endian_flavor (CSeed 7) (sample ++ [feed [0; 0; 0; 1; 0; 0; 0; 2]] ++ [SResult]) = Ok rs.
Proof. apply (C40_provided env_pc a _ false (CSeed 7) sample 4294967298 [SResult]); try exact (P_big env_pc); ex_side. Qed.
Example C26_provided_ex a : exists rs,
  runs env_pc a little_endian_flavor (CSeed 7) (sample ++ [SAppend (TInt I32 true) (VInt (-2))] ++ [SResult]) = Ok rs /\
  runs env_pc a little_endian_flavor (CSeed 7) (sample ++ [feed [0xFE; 0xFF; 0xFF; 0xFF]] ++ [SResult]) = Ok rs.
Proof. apply (C26_provided env_pc a _ true (CSeed 7) sample I32 true (-2) [SResult]); try exact (P_little env_pc); ex_side. Qed.
Example C40_container_ex a : exists rs,
  runs env_pc a (default_flavor (e_pf env_pc)) (CSeed 7) (sample ++ [SAppend (TVec (TInt I16 false)) (VList [VInt 1; VInt 2])] ++ [SResult]) = Ok rs /\
  runs env_pc a (default_flavor (e_pf env_pc)) (CSeed 7)
    (sample ++ [SAppend (TInt I16 false) (VInt 1); SAppend (TInt I16 false) (VInt 2); feed [2; 0; 0; 0; 0; 0; 0; 0]] ++ [SResult]) = Ok rs.
Proof. apply (C40_container env_pc a _ true (CSeed 7) sample (TInt I16 false) [VInt 1; VInt 2] [SResult]); try exact (P_default env_pc); ex_side. Qed.
Example C40_provided_distinct_ex : k_bytes 8 true 5 <> k_bytes 8 true 4294967301.
Proof. intros E. apply C40_provided_distinct in E; [discriminate|lia|lia]. Qed.

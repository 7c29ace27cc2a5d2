(* C48: the user-defined algorithm xxhash_128 of example/xxh128_from_xxh64.cpp.
   C49: the command line tools md5sum and hash2sum of /repo/example. *)
From Verif Require Import Base BaseFacts SpecCommon Hasher GenBlk Types ModelResult ModelAppend SpecAppend
  ProofMsg ProofMsgEq ProofMsgExt ProofAppend Behaves UserAlg Instances ProofRuns PropsHistory Samples PropsAppend PropsUser PropsUserHmac
  PropsAlg ModelDigest PropsDigest ModelExamples.
From Verif Require Import SpecXxh ProofXxh.
Open Scope N_scope.

(* ------------------------------------------------------------------ C48 *)
(* every result() is two consecutive result() calls of xxhash_64 *)
Definition doubled (ops : list op) : list op := flat_map (fun o => match o with OResult => [OResult; OResult] | u => [u] end) ops.
(* the digest of two results *)
Definition two_words (r1 r2 : N) : list N := toLE 8 r1 ++ toLE 8 r2.
Fixpoint pairs (rs : list N) : list (list N) :=
  match rs with r1 :: r2 :: t => two_words r1 r2 :: pairs t | _ => [] end.

Definition xx64 (pf : plat) : hasher := xx64_class (2^64) pf.
Lemma store_two r1 r2 : store_little_u64 (store_little_u64 (zeros 16) 0 r1) 8 r2 = two_words r1 r2.
Proof.
  unfold store_little_u64, two_words. change toLE with le_bytes.
  pose proof (le_bytes_length 8 r1) as H1. pose proof (le_bytes_length 8 r2) as H2.
  destruct (le_bytes 8 r1) as [|x0 [|x1 [|x2 [|x3 [|x4 [|x5 [|x6 [|x7 [|x8 t]]]]]]]]]; try discriminate H1.
  destruct (le_bytes 8 r2) as [|y0 [|y1 [|y2 [|y3 [|y4 [|y5 [|y6 [|y7 [|y8 t]]]]]]]]]; try discriminate H2.
  reflexivity.
Qed.
Lemma run_twice pf ops : forall s rs s', run (xx64 pf) s (doubled ops) = Ok (rs, s') -> run (xxhash_128 pf) s ops = Ok (pairs rs, s').
Proof.
  induction ops as [|[p n|] t IH]; intros s rs s' E.
  - cbn in E. injection E as <- <-. reflexivity.
  - cbn [doubled flat_map app run] in E |- *. cbn [h_update xxhash_128]. unfold xx64 in E.
    destruct (h_update (xx64_class (2^64) pf) s p n) as [s1| | |]; cbn [bind] in E |- *; try discriminate. now apply IH.
  - cbn [doubled flat_map app run] in E |- *. cbn [h_result xxhash_128]. unfold twice_result. unfold xx64 in E.
    destruct (h_result (xx64_class (2^64) pf) s) as [[r1 s1]| | |]; cbn [bind] in E |- *; try discriminate.
    destruct (h_result (xx64_class (2^64) pf) s1) as [[r2 s2]| | |]; cbn [bind] in E |- *; try discriminate.
    destruct (run (xx64_class (2^64) pf) s2 (flat_map _ t)) as [[rs2 s3]| | |] eqn:E2; cbn [bind] in E; try discriminate.
    injection E as <- <-. cbv zeta. rewrite store_two. rewrite (IH _ _ _ E2). reflexivity.
Qed.
Lemma session_twice pf c ops rs : session (xx64 pf) c (doubled ops) = Ok rs -> session (xxhash_128 pf) c ops = Ok (pairs rs).
Proof.
  intros E. apply session_inv in E. destruct E as (s & E). unfold exec in E. unfold session.
  change (construct (xxhash_128 pf) c) with (construct (xx64 pf) c).
  destruct (construct (xx64 pf) c) as [s0| | |]; cbn [bind] in E |- *; try discriminate.
  rewrite (run_twice _ _ _ _ _ E). reflexivity.
Qed.
Lemma doubled_valid nul ops : Forall (valid_op nul) ops -> Forall (valid_op nul) (doubled ops).
Proof. induction 1 as [|[p n|] t H HT IH]; cbn [doubled flat_map app]; auto. Qed.
Fixpoint spread (segs : list (list N)) : list (list N) :=
  match segs with [] => [] | [d] => [d] | d :: t => d :: [] :: spread t end.
Lemma doubled_segments ops : forall acc, segments acc (doubled ops) = spread (segments acc ops).
Proof.
  induction ops as [|[p n|] t IH]; intros acc; cbn [doubled flat_map app segments]; auto.
  change (flat_map _ t) with (doubled t). rewrite IH. pose proof (segments_nonempty [] t) as HN.
  destruct (segments [] t) as [|d t']; [easy|reflexivity].
Qed.
(* a platform as an environment *)
Definition pf_env (pf : plat) : env :=
  {| e_impl := {| im_pf := pf; im_psz := I64; im_null := true; im_down := false; im_nan := fun b => b |};
     e_cw := 2^64; e_junk := fun k => repeat 0 k |}.
Lemma pf_env_valid pf : valid_env (pf_env pf).
Proof. split; [right; reflexivity|]. intros k. apply repeat_length. Qed.
Lemma xx64_algorithm pf : hash_algorithm (xx64 pf) true.
Proof. exact (proj1 (C45_library (pf_env pf) Axx64 (pf_env_valid pf) ltac:(discriminate))). Qed.
Lemma pairs_ok rs : Forall (fun d => bytes d /\ length d = 16%nat) (pairs rs).
Proof.
  assert (H : forall n rs, (length rs <= n)%nat -> Forall (fun d => bytes d /\ length d = 16%nat) (pairs rs)).
  { clear. induction n as [|n IH]; intros [|r1 [|r2 t]] HL; cbn [length] in HL; try lia; try constructor.
    - split; [apply bytes_app; split; apply le_bytes_bytes|]. unfold two_words. rewrite app_length. change toLE with le_bytes. now rewrite !le_bytes_length.
    - apply IH. lia. }
  now apply (H (length rs)).
Qed.

(* xxhash_128 meets the requirements for hash algorithms; its results are 16 bytes *)
Theorem C48_algorithm pf : hash_algorithm (xxhash_128 pf) true /\
  all_results (xxhash_128 pf) true (fun d => bytes d /\ length d = 16%nat).
Proof.
  pose proof (xx64_algorithm pf) as HA.
  assert (HS : forall c ops, valid_ctor c -> Forall (valid_op true) ops -> exists rs, session (xx64 pf) c (doubled ops) = Ok rs /\
    session (xxhash_128 pf) c ops = Ok (pairs rs)).
  { intros c ops HC HV. destruct (al_runs _ _ HA c _ HC (doubled_valid _ _ HV)) as (rs & E). exists rs. split; [exact E|now apply session_twice]. }
  split; [constructor|].
  - intros c ops HC HV. destruct (HS c ops HC HV) as (rs & _ & E). eauto.
  - intros c o1 o2 HC V1 V2 ES. destruct (HS c o1 HC V1) as (r1 & E1 & F1). destruct (HS c o2 HC V2) as (r2 & E2 & F2).
    rewrite F1, F2. rewrite (al_parts _ _ HA c _ (doubled o2) HC (doubled_valid _ _ V1) (doubled_valid _ _ V2)) in E1 by (rewrite !doubled_segments; now rewrite ES).
    rewrite E1 in E2. now injection E2 as ->.
  - intros ops HV. destruct (HS (CSeed 0) ops eq_refl HV) as (r1 & E1 & F1). destruct (HS CDefault ops I HV) as (r2 & E2 & F2).
    rewrite F1, F2. rewrite (al_zero _ _ HA _ (doubled_valid _ _ HV)) in E1. rewrite E1 in E2. now injection E2 as ->.
  - intros p ops HP HV. destruct (HS (CBytes p 0) ops HP HV) as (r1 & E1 & F1). destruct (HS CDefault ops I HV) as (r2 & E2 & F2).
    rewrite F1, F2. rewrite (al_null _ _ HA _ _ HP (doubled_valid _ _ HV)) in E1. rewrite E1 in E2. now injection E2 as ->.
  - intros c ops rs HC HV E. destruct (HS c ops HC HV) as (r1 & _ & F1). rewrite F1 in E. injection E as <-. apply pairs_ok.
Qed.

(* its value: XXH64 of the message, and the second result of xxhash_64, little-endian *)
Definition ops_of (cs : list (ptr * nat)) : list op := map (fun x => OUpdate (fst x) (snd x)) cs.
Lemma ops_of_steps cs : map step_of (ops_of cs ++ [OResult]) = hash_pieces cs.
Proof. unfold ops_of, hash_pieces, updates. rewrite map_app, map_map. reflexivity. Qed.
Theorem C48_value pf s cs : s < 2^64 -> valid_pieces Axx64 cs -> N.of_nat (length (fed cs)) < 2^64 ->
  exists r2, session (xx64 pf) (CSeed s) (ops_of cs ++ [OResult; OResult]) = Ok [XXH64 s (fed cs); r2] /\
    session (xxhash_128 pf) (CSeed s) (ops_of cs ++ [OResult]) = Ok [toLE 8 (XXH64 s (fed cs)) ++ toLE 8 r2].
Proof.
  intros HS HP HL. pose proof (C09_xxh64 (pf_env pf) le_flavor s cs (pf_env_valid pf) HP HS HL) as E.
  rewrite <- ops_of_steps in E. unfold runs in E. rewrite program_ops in E.
  change (pk_h (pack (pf_env pf) Axx64)) with (xx64 pf) in E.
  destruct (session (xx64 pf) (CSeed s) (ops_of cs ++ [OResult])) as [rs| | |] eqn:ES; cbn [bind] in E; try discriminate.
  destruct rs as [|r [|? ?]]; cbn in E; try discriminate. injection E as ->.
  assert (HV : Forall (valid_op true) (ops_of cs ++ [OResult; OResult])).
  { apply Forall_app. split; [|repeat constructor]. unfold ops_of. apply Forall_map. eapply Forall_impl; [|exact HP]. intros [p n]. trivial. }
  destruct (al_runs _ _ (xx64_algorithm pf) (CSeed s) _ HS HV) as (rs & E2).
  apply session_inv in ES. destruct ES as (s1 & ES).
  replace (ops_of cs ++ [OResult; OResult]) with ((ops_of cs ++ [OResult]) ++ [OResult]) in E2 |- * by now rewrite <- app_assoc.
  pose proof E2 as E3. rewrite (session_app _ _ _ _ _ [OResult] ES) in E3. cbn [run bind] in E3.
  destruct (h_result (xx64 pf) s1) as [[r2 s2]| | |]; cbn [bind] in E3; try discriminate. injection E3 as <-.
  exists r2. split; [exact E2|]. apply (session_twice pf (CSeed s) (ops_of cs ++ [OResult]) [XXH64 s (fed cs); r2]).
  refine (eq_trans _ E2). f_equal. unfold doubled. rewrite flat_map_app. rewrite <- app_assoc. f_equal.
  unfold ops_of. clear. induction cs as [|x cs IH]; [reflexivity|]. cbn [map flat_map app]. now rewrite IH.
Qed.
(* the example's main(): seed 43 and "The quick brown fox jumps over the lazy dog" *)
Definition fox_dog : list N := [84; 104; 101; 32; 113; 117; 105; 99; 107; 32; 98; 114; 111; 119; 110; 32; 102; 111; 120; 32; 106; 117; 109; 112; 115; 32; 111; 118; 101; 114; 32; 116; 104; 101; 32; 108; 97; 122; 121; 32; 100; 111; 103].
Example C48_value_ex pf : exists r2, session (xxhash_128 pf) (CSeed 43) (ops_of [(Ptr fox_dog, 43%nat)] ++ [OResult]) = Ok [toLE 8 (XXH64 43 fox_dog) ++ toLE 8 r2].
Proof.
  destruct (C48_value pf 43 [(Ptr fox_dog, 43%nat)]) as (r2 & _ & E).
  - reflexivity. - constructor; [|constructor]. split; [cbn; lia|repeat constructor]. - reflexivity.
  - exists r2. exact E.
Qed.
(* hash_append with xxhash_128: equal values, at any place of any program, give the same results *)
Theorem C48_equal_values pf f c pre t v1 v2 post :
  uvalid true (e_impl (pf_env pf)) c (pre ++ [SAppend t v1] ++ post) -> uvalid true (e_impl (pf_env pf)) c (pre ++ [SAppend t v2] ++ post) ->
  equal t v1 v2 -> exists rs,
  uruns (xxhash_128 pf) RDigest (e_impl (pf_env pf)) f c (pre ++ [SAppend t v1] ++ post) = Ok rs /\
  uruns (xxhash_128 pf) RDigest (e_impl (pf_env pf)) f c (pre ++ [SAppend t v2] ++ post) = Ok rs.
Proof.
  intros V1 V2 EQ. destruct (C48_algorithm pf) as [HA HR].
  apply (C45_equal_values (xxhash_128 pf) true RDigest (e_impl (pf_env pf)) f c pre t v1 v2 post HA); try assumption; [|reflexivity].
  intros c' ops rs HC HV E. eapply Forall_impl; [|exact (HR c' ops rs HC HV E)]. intros d [H1 H2]. split; [exact H1|]. rewrite H2. lia.
Qed.
(* a double and a bool: 0.0 and -0.0 are equal *)
Example C48_equal_values_ex pf : exists rs,
  uruns (xxhash_128 pf) RDigest (e_impl (pf_env pf)) le_flavor (CSeed 43) ([SUpdate (Ptr [1; 2]) 2; SResult] ++ [SAppend (TTuple [TFlt64; TBool]) (VList [VInt 0; VInt 1])] ++ [SResult]) = Ok rs /\
  uruns (xxhash_128 pf) RDigest (e_impl (pf_env pf)) le_flavor (CSeed 43) ([SUpdate (Ptr [1; 2]) 2; SResult] ++ [SAppend (TTuple [TFlt64; TBool]) (VList [VInt (2^63); VInt 1])] ++ [SResult]) = Ok rs.
Proof.
  assert (H : forall z, (0 <= z < 2^64)%Z -> uvalid true (e_impl (pf_env pf)) (CSeed 43) ([SUpdate (Ptr [1; 2]) 2; SResult] ++ [SAppend (TTuple [TFlt64; TBool]) (VList [VInt z; VInt 1])] ++ [SResult])).
  { intros z Hz. split; [reflexivity|]. cbn [app]. constructor; [split; [cbn; lia|repeat constructor]|]. constructor; [exact I|]. constructor; [|repeat constructor].
    split; [cbn; repeat split; lia|]. intros _. left. reflexivity. }
  apply C48_equal_values; try (apply H; lia). cbn [equal]. split; [|split; [reflexivity|exact I]]. split; [|split]; [| |right; split; reflexivity]; (intros X; vm_compute in X; discriminate).
Qed.

(* ------------------------------------------------------------------ C49 *)
(* the contents of a file: what is read before the end of the file; None after a read error *)
Fixpoint contents (reads : list fread) : option (list N) :=
  match reads with
  | [] => Some []
  | FError :: _ => None
  | FData [] :: _ => Some []
  | FData l :: t => match contents t with Some l' => Some (l ++ l') | None => None end
  end.
(* fread( buffer, 1, 4096, f ) gives at most 4096 bytes *)
Definition valid_reads (reads : list fread) : Prop :=
  Forall (fun r => match r with FData l => bytes l /\ (length l <= buffer_size)%nat | FError => True end) reads.

Fixpoint loop_ops (buffer : list N) (reads : list fread) : list op :=
  match reads with
  | FData (x :: l) :: t => OUpdate (Ptr (splice buffer 0 (x :: l))) (length (x :: l)) :: loop_ops (splice buffer 0 (x :: l)) t
  | _ => []
  end.
Lemma splice_front buffer l : (length l <= length buffer)%nat -> firstn (length l) (splice buffer 0 l) = l.
Proof. intros H. unfold splice. cbn [firstn app]. rewrite firstn_app, firstn_all, Nat.sub_diag. apply app_nil_r. Qed.
Lemma splice_bytes buffer l : bytes buffer -> bytes l -> bytes (splice buffer 0 l).
Proof. intros H1 H2. unfold splice. cbn [firstn app]. apply bytes_app. split; [exact H2|now apply bytes_skipn]. Qed.
Lemma loop_run h reads : valid_reads reads -> forall s buffer, length buffer = buffer_size -> bytes buffer ->
  sum_loop h s buffer reads = ('(_, s') <- run h s (loop_ops buffer reads) ;; Ok (match contents reads with Some _ => Some s' | None => None end)) /\
  Forall (valid_op false) (loop_ops buffer reads) /\ no_results (loop_ops buffer reads) /\
  (forall l, contents reads = Some l -> bytes_fed (loop_ops buffer reads) = l).
Proof.
  induction 1 as [|[[|x l]|] t H HT IH]; intros s buffer HL HB.
  - cbn. repeat split; try constructor. intros l E. now injection E as <-.
  - cbn. repeat split; try constructor. intros l E. now injection E as <-.
  - destruct H as [Hb Hl]. set (d := x :: l) in *.
    assert (HL' : length (splice buffer 0 d) = buffer_size) by (rewrite splice_length; cbn [Nat.add]; lia).
    assert (HB' : bytes (splice buffer 0 d)) by now apply splice_bytes.
    change (loop_ops buffer (FData d :: t)) with (OUpdate (Ptr (splice buffer 0 d)) (length d) :: loop_ops (splice buffer 0 d) t).
    change (contents (FData d :: t)) with (match contents t with Some l' => Some (d ++ l') | None => None end).
    change (sum_loop h s buffer (FData d :: t)) with (s1 <- h_update h s (Ptr (splice buffer 0 d)) (length d) ;; sum_loop h s1 (splice buffer 0 d) t).
    cbn [run]. split; [|split; [|split]].
    + destruct (h_update h s (Ptr (splice buffer 0 d)) (length d)) as [s1| | |]; cbn [bind]; auto.
      rewrite (proj1 (IH s1 _ HL' HB')). destruct (run h s1 _) as [[rs s2]| | |]; cbn [bind]; auto. destruct (contents t); reflexivity.
    + constructor; [|apply (IH s _ HL' HB')]. split; [lia|exact HB'].
    + constructor; [discriminate|apply (IH s _ HL' HB')].
    + intros l0 E. destruct (contents t) as [l'|] eqn:EC; [|discriminate]. injection E as <-.
      cbn [bytes_fed flat_map data]. rewrite splice_front by lia.
      change (x :: l ++ l') with (d ++ l'). apply (f_equal (fun z => d ++ z)). apply (IH s _ HL' HB'). reflexivity.
  - cbn. repeat split; try constructor. discriminate.
Qed.
Lemma valid_op_weaken nul o : valid_op false o -> valid_op nul o.
Proof. destruct o as [[|l] n|]; cbn; trivial. intros [H _]. discriminate. Qed.

(* The line printed for a file is the published hash of its contents in hexadecimal, " *" and the
   name; nothing is printed after a read error.  [short]: fewer than 2^64 bits. *)
Definition sum_line (m : md_alg) (fn : list N) (reads : list fread) : list N :=
  match contents reads with
  | Some l => hex (std_hash m l) ++ [32; 42] ++ fn ++ [10]
  | None => []
  end.
Definition short_file (m : md_alg) (reads : list fread) : Prop :=
  forall l, contents reads = Some l -> block_size m = 128%nat -> short l.
Lemma std_bytes m l : (block_size m = 128%nat -> short l) -> bytes (std_hash m l).
Proof. intros H. rewrite <- hash_of_std by exact H. apply hash_bytes. Qed.
Theorem C49_file e m fn reads : valid_env e -> bytes (e_junk e buffer_size) -> valid_reads reads -> short_file m reads ->
  sum_file e m fn reads = Ok (sum_line m fn reads).
Proof.
  intros HE HJ HR HS. unfold sum_file, sum_line. cbv zeta. set (h := pk_h (pack e (Amd m))).
  destruct HE as [HE1 HE2]. assert (HE : valid_env e) by (split; assumption).
  destruct (loop_run h reads HR (h_init h) (e_junk e buffer_size) (HE2 _) HJ) as (EL & HV & HN & HC). rewrite EL. clear EL.
  assert (HV' : Forall (valid_op (nul_md m)) (loop_ops (e_junk e buffer_size) reads ++ [OResult])).
  { apply Forall_app. split; [|repeat constructor]. eapply Forall_impl; [|exact HV]. intros o. apply valid_op_weaken. }
  destruct (session_library e (Amd m) CDefault _ HE ltac:(discriminate) I HV') as (rs & E & M). fold h in E.
  rewrite (segments_result _ _ [] (bytes_fed (loop_ops (e_junk e buffer_size) reads))) in M by now apply segments_fed.
  cbn [app] in M. change (aseg _ _ _ [bytes_fed (loop_ops (e_junk e buffer_size) reads); []]) with [RDigest (hash_of m (bytes_fed (loop_ops (e_junk e buffer_size) reads)))] in M.
  apply session_inv in E. destruct E as (s2 & E). rewrite exec_app in E. unfold exec in E. cbn [construct bind] in E.
  destruct (run h (h_init h) (loop_ops (e_junk e buffer_size) reads)) as [[r1 s1]| | |]; cbn [bind] in E |- *; try discriminate.
  destruct (contents reads) as [l|] eqn:EC; [|reflexivity]. specialize (HC l eq_refl). rewrite HC in M.
  cbn [run bind] in E. destruct (h_result h s1) as [[r s3]| | |]; cbn [bind] in E |- *; try discriminate. injection E as E _.
  assert (ER : pk_out (pack e (Amd m)) r = RDigest (hash_of m l)).
  { subst rs. rewrite map_app in M. destruct r1 as [|y r1]; cbn [map app] in M; [now injection M|].
    exfalso. apply (f_equal (@length _)) in M. cbn [length] in M. rewrite app_length in M. cbn [map length] in M. lia. }
  rewrite ER. rewrite C36_to_string by (apply hash_bytes || apply HE2). cbn [bind].
  rewrite hash_of_std by exact (HS l EC). reflexivity.
Qed.

(* The files of the command line, in order; files that cannot be opened or read have no line and do
   not affect the others *)
Definition sum_lines (m : md_alg) (args : list (list N * file)) : list N :=
  concat (map (fun a => match snd a with Some reads => sum_line m (fst a) reads | None => [] end) args).
Definition valid_args (m : md_alg) (args : list (list N * file)) : Prop :=
  Forall (fun a => match snd a with Some reads => valid_reads reads /\ short_file m reads | None => True end) args.
Lemma sum_files_ok e m args : valid_env e -> bytes (e_junk e buffer_size) -> valid_args m args -> sum_files e m args = Ok (sum_lines m args).
Proof.
  intros HE HJ HA. induction HA as [|[fn [reads|]] args H HA IH]; [reflexivity| |].
  - destruct H as [H1 H2]. cbn [sum_files]. rewrite C49_file by assumption. cbn [bind]. rewrite IH. reflexivity.
  - exact IH.
Qed.
Theorem C49_md5sum e args : valid_env e -> bytes (e_junk e buffer_size) -> valid_args Amd5 args -> md5sum e args = Ok (sum_lines Amd5 args).
Proof. apply sum_files_ok. Qed.

(* hash2sum: the first argument selects the hash; unknown names print nothing and exit with 1 *)
From Coq Require Import String.
Definition tool_name (m : md_alg) : string :=
  match m with
  | Amd5 => "md5_128" | Asha1 => "sha1_160" | Asha256 => "sha2_256" | Asha224 => "sha2_224" | Asha512 => "sha2_512"
  | Asha384 => "sha2_384" | Asha512_256 => "sha2_512_256" | Asha512_224 => "sha2_512_224" | Armd160 => "ripemd_160" | Armd128 => "ripemd_128"
  end.
Lemma leqb_eq a : forall b, leqb a b = true <-> a = b.
Proof.
  induction a as [|x a IH]; intros [|y b]; cbn [leqb]; split; intros H; try discriminate; try reflexivity.
  - apply andb_true_iff in H. destruct H as [H1 H2]. apply N.eqb_eq in H1. apply IH in H2. now subst.
  - injection H as -> ->. apply andb_true_iff. split; [apply N.eqb_refl|now apply IH].
Qed.
Theorem C49_hash2sum e m args : valid_env e -> bytes (e_junk e buffer_size) -> valid_args m args ->
  hash2sum e (Some (codes (tool_name m), args)) = Ok (sum_lines m args, 0).
Proof.
  intros HE HJ HA. pose proof (sum_files_ok e m args HE HJ HA) as E. unfold hash2sum, hashes, names.
  destruct m; cbn -[sum_files sum_lines]; rewrite E; cbn [bind]; rewrite app_nil_r; reflexivity.
Qed.
Theorem C49_unknown e name args : (forall m, name <> codes (tool_name m)) -> hash2sum e (Some (name, args)) = Ok ([], 1).
Proof.
  intros HN. unfold hash2sum.
  assert (HL : forall m, leqb name (codes (tool_name m)) = false).
  { intros m. destruct (leqb name (codes (tool_name m))) eqn:E; [|reflexivity]. apply leqb_eq in E. now apply HN in E. }
  unfold hashes, names. cbn [map for_each].
  rewrite (HL Amd5 : leqb name (codes "md5_128") = false), (HL Asha1 : leqb name (codes "sha1_160") = false),
    (HL Asha256 : leqb name (codes "sha2_256") = false), (HL Asha224 : leqb name (codes "sha2_224") = false),
    (HL Asha512 : leqb name (codes "sha2_512") = false), (HL Asha384 : leqb name (codes "sha2_384") = false),
    (HL Asha512_256 : leqb name (codes "sha2_512_256") = false), (HL Asha512_224 : leqb name (codes "sha2_512_224") = false),
    (HL Armd160 : leqb name (codes "ripemd_160") = false), (HL Armd128 : leqb name (codes "ripemd_128") = false).
  reflexivity.
Qed.

Definition read_ok (r : fread) : bool := match r with FData l => forallb (fun x => x <? 256) l && (N.of_nat (List.length l) <=? 4096) | FError => true end.
Lemma reads_ok reads : forallb read_ok reads = true -> valid_reads reads.
Proof.
  intros H. apply Forall_forall. intros r Hr. rewrite forallb_forall in H. specialize (H r Hr). destruct r as [l|]; [|exact I].
  cbn [read_ok] in H. apply andb_true_iff in H. destruct H as [H1 H2]. rewrite forallb_forall in H1. split.
  - apply Forall_forall. intros x Hx. specialize (H1 x Hx). now apply N.ltb_lt in H1.
  - apply N.leb_le in H2. unfold buffer_size. lia.
Qed.
(* md5sum of a file "abc", read as "ab", "c", and of a file that cannot be opened *)
Example C49_md5sum_ex : md5sum env_pc [(codes "x", None); (codes "f", Some [FData [97; 98]; FData [99]])] =
  Ok (codes "900150983cd24fb0d6963f7d28e17f72 *f" ++ [10]).
Proof.
  rewrite C49_md5sum.
  - vm_compute. reflexivity.
  - exact env_pc_valid.
  - apply Forall_forall. intros x Hx. apply repeat_spec in Hx. now subst x.
  - constructor; [exact I|]. constructor; [|constructor]. split.
    + now apply reads_ok.
    + intros l _ H. discriminate.
Qed.
Example C49_hash2sum_ex : hash2sum env_be (Some (codes "sha1_160", [(codes "f", Some [FData [97; 98; 99]; FData []]); (codes "g", Some [FData [1]; FError])])) =
  Ok (codes "a9993e364706816aba3e25717850c26c9cd0d89d *f" ++ [10], 0).
Proof.
  rewrite (C49_hash2sum env_be Asha1).
  - vm_compute. reflexivity.
  - exact env_be_valid.
  - apply Forall_forall. intros x Hx. apply repeat_spec in Hx. now subst x.
  - repeat (constructor; [split; [now apply reads_ok|intros l _ H; discriminate]|]). constructor.
Qed.

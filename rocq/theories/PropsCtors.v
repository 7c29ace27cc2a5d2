(* The documented effects of the constructors that take a seed (doc/hash2/reference/md5.adoc:66, 81,
   siphash.adoc:74, 157, xxhash.adoc:74, 157, fnv1a.adoc:66, 78), as programs. *)
From Verif Require Import Base BaseFacts SpecCommon Hasher GenBlk Types ModelResult ModelAppend SpecAppend
  Behaves Instances ProofRuns PropsHistory Samples PropsAlg PropsSeeds ProofSip ProofXxh ProofMurmur ProofSpooky ProofFnv.
Open Scope N_scope.

(* Construction with c is construction with c0 followed by the calls pre: whatever program follows,
   it returns the same results (those of pre itself apart). *)
Definition as_if (e : env) (a : alg) (c c0 : ctor) (pre : list ustep) : Prop :=
  forall f xs, valid_program e a c xs -> room e a c xs -> room e a c0 (pre ++ xs) ->
  exists rs skipped, runs e a f c xs = Ok rs /\ runs e a f c0 (pre ++ xs) = Ok (skipped ++ rs) /\ length skipped = results_in pre.

Lemma as_if_state e a c c0 pre : valid_env e -> valid_program e a c0 pre ->
  (forall f, state e a f c0 pre = mc_start (machine_of (e_cw e) a) c) -> as_if e a c c0 pre.
Proof.
  intros HE HV HS f xs V R R0. exists (expected e a f c xs), (expected e a f c0 pre).
  assert (V0 : valid_program e a c0 (pre ++ xs)).
  { destruct HV as [A B], V as [_ D]. split; [exact A|]. apply Forall_app. now split. }
  split; [now apply runs_expected|]. split.
  - rewrite runs_expected by assumption. unfold expected at 1. rewrite aprun_app.
    specialize (HS f). unfold state in HS. rewrite HS. reflexivity.
  - unfold expected. apply aprun_length.
Qed.

Lemma arg_nul b p n : (0 < n)%nat -> valid_arg true p n -> valid_arg b p n.
Proof. intros H. destruct p; cbn; [lia|trivial]. Qed.

Lemma sip64_bytes_start p n : n <> 16%nat -> n <> 0%nat -> sip64_start (CBytes p n) = snd (sip_ar SpecSip.F64 (SpecSip.SipInit SpecSip.F64 0 0, 0, data p n)).
Proof. intros A B. unfold sip64_start. now rewrite (proj2 (Nat.eqb_neq _ _) A), (proj2 (Nat.eqb_neq _ _) B). Qed.
Lemma sip32_bytes_start p n : n <> 8%nat -> n <> 0%nat -> sip32_start (CBytes p n) = snd (sip_ar SpecSip.F32 (SpecSip.SipInit SpecSip.F32 0 0, 0, data p n)).
Proof. intros A B. unfold sip32_start. now rewrite (proj2 (Nat.eqb_neq _ _) A), (proj2 (Nat.eqb_neq _ _) B). Qed.

(* the algorithms whose byte seed constructor is documented as update(p, n); result() *)
Definition seeded_by_update (a : alg) (n : nat) : Prop :=
  match a with
  | Amd _ | Axx32 | Axx64 => True
  | Asip64 => n <> 16%nat
  | Asip32 => n <> 8%nat
  | _ => False
  end.
Theorem C68_bytes e a p n : valid_env e -> seeded_by_update a n -> (0 < n)%nat -> valid_arg true p n ->
  as_if e a (CBytes p n) CDefault [SUpdate p n; SResult].
Proof.
  intros HE HA Hn HV. apply as_if_state; [exact HE| |].
  - split; [exact I|]. constructor; [apply arg_nul; assumption|]. constructor; [exact I|constructor].
  - intros f. unfold state. cbn [asteps]. destruct n as [|n]; [lia|]. 
    destruct a as [m|m| | | | | | | | | ]; try contradiction; cbn [seeded_by_update] in HA.
    + reflexivity.
    + cbn [machine_of blk_machine mc_start mc_au mc_ar]. rewrite sip64_bytes_start by lia. reflexivity.
    + cbn [machine_of blk_machine mc_start mc_au mc_ar]. rewrite sip32_bytes_start by lia. reflexivity.
    + reflexivity.
    + reflexivity.
Qed.
(* integer seeds of md5, sha1, sha2 and ripemd *)
Theorem C68_integers e m n : valid_env e -> 0 < n < 2^64 ->
  as_if e (Amd m) (CSeed n) CDefault [SUpdate (Ptr (toLE 8 n)) 8; SResult].
Proof.
  intros HE Hn. apply as_if_state; [exact HE| |].
  - split; [exact I|]. constructor; [exact (toLE_ctor 8 n)|]. constructor; [exact I|constructor].
  - intros f. unfold state. cbn [asteps machine_of md_machine mc_start mc_au mc_ar fst snd vstart app].
    rewrite (proj2 (N.eqb_neq n 0)) by lia. change (Ptr (toLE 8 n)) with (le8 n). rewrite le8_data. reflexivity.
Qed.
Theorem C68_fnv e a : a = Afnv32 \/ a = Afnv64 -> valid_env e ->
  (forall p n, valid_arg true p n -> as_if e a (CBytes p n) CDefault [SUpdate p n]) /\
  (forall n, 0 < n < 2^64 -> as_if e a (CSeed n) CDefault [SUpdate (Ptr (toLE 8 n)) 8]).
Proof.
  intros HA HE. split.
  - intros p n HV. apply as_if_state; [exact HE| |].
    + split; [exact I|]. constructor; [destruct HA as [-> | ->]; exact HV|constructor].
    + intros f. destruct HA as [-> | ->]; reflexivity.
  - intros n Hn. apply as_if_state; [exact HE| |].
    + split; [exact I|]. constructor; [destruct HA as [-> | ->]; exact (toLE_ctor 8 n)|constructor].
    + intros f. assert (E : fnv_start (CSeed n) = data (Ptr (toLE 8 n)) 8).
      { cbn [fnv_start]. rewrite (proj2 (N.eqb_neq n 0)) by lia. change (Ptr (toLE 8 n)) with (le8 n). rewrite le8_data. reflexivity. }
      destruct HA as [-> | ->]; symmetry; exact E.
Qed.
(* murmur3 and spooky2 (not documented): the first 4 (16) bytes are the seed, the others are fed *)
Theorem C68_murmur32 e l n : valid_env e -> (4 < n <= length l)%nat -> bytes l ->
  as_if e Amur32 (CBytes (Ptr l) n) (CBytes (Ptr l) 4) [SUpdate (Ptr (skipn 4 l)) (n - 4); SResult].
Proof.
  intros HE Hn HB. apply as_if_state; [exact HE| |].
  - split; [split; [lia|exact HB]|]. constructor; [split; [rewrite skipn_length; lia|apply bytes_skipn; exact HB]|]. constructor; [exact I|constructor].
  - intros f. unfold state. cbn [asteps machine_of blk_machine mc_start mc_au mc_ar fst snd ab_au app mur32_start data Nat.leb].
    destruct (Nat.leb_spec n 4); [lia|]. unfold data. rewrite skipn_firstn_comm, firstn_firstn, Nat.min_l by lia. reflexivity.
Qed.
Theorem C68_murmur128 e l n : valid_env e -> (16 < n <= length l)%nat -> bytes l ->
  as_if e Amur128 (CBytes (Ptr l) n) (CBytes (Ptr l) 16) [SUpdate (Ptr (skipn 16 l)) (n - 16); SResult].
Proof.
  intros HE Hn HB. apply as_if_state; [exact HE| |].
  - split; [split; [lia|exact HB]|]. constructor; [split; [rewrite skipn_length; lia|apply bytes_skipn; exact HB]|]. constructor; [exact I|constructor].
  - intros f. unfold state. cbn [asteps machine_of blk_machine mc_start mc_au mc_ar fst snd ab_au app mur128_start data Nat.leb].
    destruct (Nat.leb_spec n 8); [lia|]. destruct (Nat.leb_spec n 16); [lia|]. unfold data.
    rewrite !skipn_firstn_comm, !firstn_firstn, !Nat.min_l by lia. reflexivity.
Qed.
Theorem C68_spooky e l n : valid_env e -> (16 < n <= length l)%nat -> bytes l ->
  as_if e Aspooky (CBytes (Ptr l) n) (CBytes (Ptr l) 16) [SUpdate (Ptr (skipn 16 l)) (n - 16); SResult].
Proof.
  intros HE Hn HB. apply as_if_state; [exact HE| |].
  - split; [split; [lia|exact HB]|]. constructor; [split; [rewrite skipn_length; lia|apply bytes_skipn; exact HB]|]. constructor; [exact I|constructor].
  - intros f. unfold state. cbn [asteps machine_of blk_machine mc_start mc_au mc_ar fst snd ab_au app sp_start data Nat.leb].
    destruct (Nat.leb_spec n 16); [lia|]. unfold data.
    rewrite !skipn_firstn_comm, !firstn_firstn, !Nat.min_l by lia. reflexivity.
Qed.

(* The hypotheses are met: seeds of 3 and 20 bytes, an integer seed, and the sample program (Samples.v) *)
Lemma sample_as_if e a c c0 pre : valid_env e -> im_psz (e_impl e) = I64 -> valid_ctor c -> room e a c sample -> room e a c0 (pre ++ sample) ->
  as_if e a c c0 pre -> exists rs skipped, runs e a le_flavor c sample = Ok rs /\
    runs e a le_flavor c0 (pre ++ sample) = Ok (skipped ++ rs) /\ length skipped = results_in pre.
Proof. intros HE HP HC R R0 H. apply H; trivial. apply steps_valid; trivial. exact sample_ok. Qed.
Definition seed20 : list N := [1; 2; 3; 4; 5; 6; 7; 8; 9; 10; 11; 12; 13; 14; 15; 16; 17; 18; 19; 20].
Lemma seed20_bytes : bytes seed20.
Proof. repeat constructor; cbn; lia. Qed.
Example C68_bytes_ex : seeded_by_update Asip64 20 /\ valid_arg true (Ptr seed20) 20 /\
  exists rs skipped, runs env_pc Asip64 le_flavor (CBytes (Ptr seed20) 20) sample = Ok rs /\
    runs env_pc Asip64 le_flavor CDefault ([SUpdate (Ptr seed20) 20; SResult] ++ sample) = Ok (skipped ++ rs) /\ length skipped = 1%nat.
Proof.
  assert (V : valid_arg true (Ptr seed20) 20) by (split; [apply le_n|exact seed20_bytes]).
  assert (S : seeded_by_update Asip64 20) by discriminate.
  split; [exact S|]. split; [exact V|].
  apply (sample_as_if env_pc Asip64 (CBytes (Ptr seed20) 20) CDefault [SUpdate (Ptr seed20) 20; SResult] env_pc_valid eq_refl V I I).
  apply C68_bytes; [exact env_pc_valid|exact S|lia|exact V].
Qed.
Example C68_spooky_ex : exists rs skipped, runs env_pc Aspooky le_flavor (CBytes (Ptr seed20) 20) sample = Ok rs /\
    runs env_pc Aspooky le_flavor (CBytes (Ptr seed20) 16) ([SUpdate (Ptr (skipn 16 seed20)) 4; SResult] ++ sample) = Ok (skipped ++ rs) /\ length skipped = 1%nat.
Proof.
  assert (V : valid_arg true (Ptr seed20) 20) by (split; [apply le_n|exact seed20_bytes]).
  apply (sample_as_if env_pc Aspooky (CBytes (Ptr seed20) 20) (CBytes (Ptr seed20) 16) [SUpdate (Ptr (skipn 16 seed20)) (20 - 16); SResult] env_pc_valid eq_refl V); [reflexivity|reflexivity|].
  apply C68_spooky; [exact env_pc_valid|cbn; lia|exact seed20_bytes].
Qed.
(* and the equation is not trivial: the result skipped is the one of the default object, not of the seeded one *)
Example C68_integers_ex : exists r1 r2, runs env_pc (Amd Amd5) le_flavor (CSeed 7) [SResult] = Ok [r2] /\
  runs env_pc (Amd Amd5) le_flavor CDefault [SUpdate (Ptr (toLE 8 7)) 8; SResult; SResult] = Ok [r1; r2] /\ r1 <> r2.
Proof.
  assert (D : exists d2, runs env_pc (Amd Amd5) le_flavor (CSeed 7) [SResult] = Ok [RDigest d2] /\
              exists d1, runs env_pc (Amd Amd5) le_flavor CDefault [SUpdate (Ptr (toLE 8 7)) 8; SResult; SResult] = Ok [RDigest d1; RDigest d2] /\ hd 0 d1 <> hd 0 d2).
  { eexists. split; [vm_compute; reflexivity|]. eexists. split; [vm_compute; reflexivity|]. cbv [hd]. discriminate. }
  destruct D as (d2 & A & d1 & B & C). exists (RDigest d1), (RDigest d2). split; [exact A|]. split; [exact B|]. intros X. apply C. now injection X as ->.
Qed.

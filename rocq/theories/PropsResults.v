(* What result() does to the object and to later results (C19, C20, C21, C22, C23, C39). *)
From Verif Require Import Base BaseFacts SpecCommon Gen Hasher GenBlk Types ModelResult ModelAppend SpecAppend
  Behaves Instances ProofRuns PropsHistory PropsAlg ProofObj Samples.
From Verif Require Import SpecMd5 SpecSha1 SpecRipemd SpecSha2 SpecSip SpecXxh SpecFnv SpecMurmur SpecSpooky SpecHmac.
From Verif Require Import ModelMd5 ModelSha1 ModelRipemd ModelSha2 ModelSip ModelXxh ModelFnv ModelMurmur ModelSpooky ModelHmac.
From Verif Require Import ProofMd5 ProofSha1 ProofRipemd ProofSha2 ProofSip ProofXxh ProofFnv ProofFnvPeriod
  ProofMurmur ProofMurmurDistinct ProofSpooky ProofHmac ProofHmacInst.
Open Scope N_scope.

(* ---------- C20: result() clears the message buffers ---------- *)
Definition all_zero (l : list N) : Prop := Forall (fun b => b = 0) l.
Lemma repeat_zero n : all_zero (repeat 0 n).
Proof. induction n; constructor; auto. Qed.
Lemma cleared_zero B b : cleared B b -> snd b = 0%nat /\ all_zero (fst b).
Proof. intros ->. split; [reflexivity|]. apply repeat_zero. Qed.
Lemma holds_nil B b : holds B b [] -> snd b = 0%nat /\ all_zero (fst b).
Proof. intros (H1 & _ & H2). split; [exact H1|]. rewrite H2. apply repeat_zero. Qed.

Lemma pad_multiple m l : (length (pad_of m l) mod block_of m = 0)%nat.
Proof.
  destruct m; cbn [pad_of block_of].
  - apply (mo_pad _ _ _ _ _ _ _ _ _ _ _ (md5_ok (rt true))).
  - apply (mo_pad _ _ _ _ _ _ _ _ _ _ _ (sha1_ok (rt true))).
  - apply (mo_pad _ _ _ _ _ _ _ _ _ _ _ (rmd128_ok (rt true))).
  - apply (mo_pad _ _ _ _ _ _ _ _ _ _ _ (rmd160_ok (rt true))).
  - apply (mo_pad _ _ _ _ _ _ _ _ _ _ _ (sha2_256_ok (rt true))).
  - apply (mo_pad _ _ _ _ _ _ _ _ _ _ _ (sha2_224_ok (rt true))).
  - apply (mo_pad _ _ _ _ _ _ _ _ _ _ _ (sha2_512_ok (rt true))).
  - apply (mo_pad _ _ _ _ _ _ _ _ _ _ _ (sha2_384_ok (rt true))).
  - apply (mo_pad _ _ _ _ _ _ _ _ _ _ _ (sha2_512_224_ok (rt true))).
  - apply (mo_pad _ _ _ _ _ _ _ _ _ _ _ (sha2_512_256_ok (rt true))).
Qed.
Lemma rest_nil B (l : list N) : (0 < B)%nat -> (length l mod B = 0)%nat -> rest B l = [].
Proof. intros HB H. apply length_zero_iff_nil. rewrite rest_length; assumption. Qed.
Lemma rest_pad m l : rest (block_of m) (pad_of m l) = [].
Proof. apply rest_nil; [destruct m; cbn; lia|apply pad_multiple]. Qed.

Lemma pending_result e a f c xs : zero_filling a = true ->
  Forall (fun p => snd p = []) (pending (e_cw e) a (state e a f c (xs ++ [SResult]))).
Proof.
  unfold state. rewrite asteps_app. cbn [asteps].
  destruct a as [m|m| | | | | | | | | ]; try discriminate; intros _; cbn [pending machine_of mc_ar mc_A md_machine hmac_machine blk_machine snd fst].
  - constructor; [|constructor]. apply rest_pad.
  - constructor; [apply rest_pad|constructor; [apply rest_pad|constructor]].
  - constructor; [|constructor]. destruct (asteps _ _ _ _ _ _) as [[st k] l]. reflexivity.
  - constructor; [|constructor]. destruct (asteps _ _ _ _ _ _) as [[st k] l]. reflexivity.
Qed.
Lemma last_result e a f c xs s' : object e a f c (xs ++ [SResult]) = Ok s' ->
  exists s r, object e a f c xs = Ok s /\ h_result (pk_h (pack e a)) s = Ok (r, s').
Proof.
  unfold object. destruct (construct _ c) as [s0| | | ]; cbn [bind]; try discriminate. rewrite pobj_app.
  destruct (pobj _ _ _ _ s0 xs) as [s| | | ]; cbn [bind]; try discriminate. cbn [pobj].
  destruct (h_result (pk_h (pack e a)) s) as [[r s1]| | | ] eqn:E; cbn [bind]; try discriminate.
  injection 1 as <-. eauto.
Qed.
Lemma room_app e a c xs ys : room e a c (xs ++ ys) -> room e a c xs.
Proof. unfold room. rewrite weight_app. intros H. eapply roomy_mono; [exact H|]. lia. Qed.

Lemma objects_exist e a f c xs : valid_env e -> valid_program e a c xs -> room e a c xs ->
  exists s, object e a f c xs = Ok s.
Proof.
  intros HE HV HR.
  assert (E := runs_expected e a f c xs HE HV HR). unfold object.
  unfold runs, program in E. destruct (construct (pk_h (pack e a)) c) as [s0| | | ]; try discriminate. cbn [bind] in *.
  pose proof (prun_app _ (pk_gir (pack e a)) (e_impl e) f xs [] s0) as P. rewrite app_nil_r in P.
  destruct (prun _ _ _ _ s0 xs) as [rs| | | ]; try discriminate. cbn [bind] in P.
  destruct (pobj _ _ _ _ s0 xs) as [s| | | ]; try discriminate. eauto.
Qed.

Theorem C20_result_clears e a f c xs : valid_env e -> valid_program e a c (xs ++ [SResult]) -> room e a c (xs ++ [SResult]) ->
  exists s, object e a f c (xs ++ [SResult]) = Ok s /\
    Forall (fun b => snd b = 0%nat /\ all_zero (fst b)) (buffers e a s).
Proof.
  intros HE HV HR. destruct (zero_filling a) eqn:Z.
  - destruct (buf_tracks e a Z f c _ HV HR) as (s & E1 & B1). exists s. split; [exact E1|].
    pose proof (pending_result e a f c xs Z) as P. unfold buf_inv in B1. revert P.
    induction B1 as [|b p bs ps H1 B1 IH]; intros P; constructor; inversion P as [|? ? P1 P2]; subst.
    + rewrite P1 in H1. apply (holds_nil _ _ H1).
    + now apply IH.
  - destruct (objects_exist e a f c _ HE HV HR) as (s' & E1). exists s'. split; [exact E1|].
    destruct (last_result e a f c xs s' E1) as (s & r & E2 & E3).
    assert (HV' := valid_app _ _ _ _ _ HV). assert (HR' := room_app _ _ _ _ _ HR).
    assert (L : forall B, tracks e a (len_inv e a B) -> Forall (fun b => length (fst b) = B) (buffers e a s)).
    { intros B T. destruct (T f c xs HV' HR') as (s2 & E4 & L). rewrite E2 in E4. injection E4 as <-. exact L. }
    destruct a as [m|m| | | | | | | | | ]; try discriminate Z; try constructor.
    + specialize (L _ (len_tracks_xx32 e HE)). inversion L; subst. exact (cleared_zero _ _ (xx32_clear _ _ _ _ _ H1 E3)).
    + constructor.
    + specialize (L _ (len_tracks_xx64 e)). inversion L; subst. exact (cleared_zero _ _ (xx64_clear _ _ _ _ _ H1 E3)).
    + constructor.
    + specialize (L _ (len_tracks_mur32 e HE)). inversion L; subst. exact (cleared_zero _ _ (mur32_clear _ _ _ _ H1 E3)).
    + constructor.
    + specialize (L _ (len_tracks_mur128 e HE)). inversion L; subst. exact (cleared_zero _ _ (mur128_clear _ _ _ _ _ H1 E3)).
    + constructor.
    + specialize (L _ (len_tracks_sp e HE)). inversion L; subst. exact (cleared_zero _ _ (sp_clear _ _ _ _ _ H1 E3)).
    + constructor.
Qed.
Example C20_result_clears_ex a : exists s, object env_pc a le_flavor (CSeed 7) (sample ++ [SResult]) = Ok s /\
  Forall (fun b => snd b = 0%nat /\ all_zero (fst b)) (buffers env_pc a s).
Proof.
  apply C20_result_clears; [exact env_pc_valid| |destruct a; try exact I; vm_compute; reflexivity].
  apply steps_valid; [reflexivity|reflexivity|]. apply Forall_app. split; [exact sample_ok|]. repeat constructor.
Qed.
(* md5, sha1, sha2, ripemd, siphash and hmac: nothing but the pending bytes is ever in a buffer *)
Theorem C20_no_stale_bytes e a f c xs : valid_env e -> zero_filling a = true -> valid_program e a c xs -> room e a c xs ->
  exists s, object e a f c xs = Ok s /\
    Forall (fun b => (snd b < length (fst b))%nat /\ all_zero (skipn (snd b) (fst b))) (buffers e a s).
Proof.
  intros HE Z HV HR. destruct (buf_tracks e a Z f c xs HV HR) as (s & E1 & B1). exists s. split; [exact E1|].
  unfold buf_inv in B1. induction B1 as [|b p bs ps H1 B1 IH]; constructor; [|exact IH].
  destruct H1 as (H1 & H2 & H3). rewrite H1, H3. split.
  - rewrite app_length, repeat_length. lia.
  - rewrite skipn_app, skipn_all, Nat.sub_diag. cbn [app skipn]. apply repeat_zero.
Qed.
Example C20_no_stale_bytes_ex : exists s, object env_pc (Amd Asha512) le_flavor (CSeed 7) sample = Ok s /\
  Forall (fun b => (snd b < length (fst b))%nat /\ all_zero (skipn (snd b) (fst b))) (buffers env_pc (Amd Asha512) s).
Proof. apply C20_no_stale_bytes; [exact env_pc_valid|reflexivity|apply sample_valid|exact I]. Qed.

(* ---------- histories of update() and result() ---------- *)
Definition calls (ops : list op) : list ustep :=
  map (fun o => match o with OUpdate p n => SUpdate p n | OResult => SResult end) ops.
Definition valid_calls (a : alg) (ops : list op) : Prop := Forall (valid_op (nul_of a)) ops.

Lemma calls_valid e a c ops : valid_ctor c -> valid_calls a ops -> valid_program e a c (calls ops).
Proof.
  intros HC HV. split; [exact HC|].
  induction HV as [|[p n|] ops H HV IH]; constructor; try exact H; exact IH.
Qed.
Lemma runs_session e a f c ops :
  runs e a f c (calls ops) = (rs <- session (pk_h (pack e a)) c ops ;; Ok (map (pk_out (pack e a)) rs)).
Proof.
  unfold runs, program, session. destruct (construct (pk_h (pack e a)) c) as [s| | | ]; cbn [bind]; try reflexivity.
  assert (H : forall ops s, prun (pk_h (pack e a)) (pk_gir (pack e a)) (e_impl e) f s (calls ops)
              = ('(rs, _) <- run (pk_h (pack e a)) s ops ;; Ok rs)).
  { clear. induction ops as [|[p n|] ops IH]; intros s; cbn [calls map prun run].
    - reflexivity.
    - destruct (h_update _ s p n); cbn [bind]; try reflexivity. apply IH.
    - destruct (h_result _ s) as [[r s1]| | | ]; cbn [bind]; try reflexivity. change (map _ ops) with (calls ops). rewrite IH.
      destruct (run _ s1 ops) as [[rs s2]| | | ]; reflexivity. }
  rewrite H. reflexivity.
Qed.
Lemma aprun_calls {A R} (au : A -> list N -> A) (ar : A -> R * A) g M ops : forall a,
  aprun au ar g M a (calls ops) = fst (arun au ar a ops).
Proof.
  induction ops as [|[p n|] ops IH]; intros a; cbn [calls map aprun arun].
  - reflexivity.
  - apply IH.
  - change (map _ ops) with (calls ops). rewrite IH. destruct (ar a) as [r a1]. cbn [fst snd]. destruct (arun au ar a1 ops). reflexivity.
Qed.

(* ---------- C21: only the bytes between results matter (all algorithms) ---------- *)
(* [segments [] ops]: the concatenation of the bytes fed between consecutive results *)
Theorem C21_segments e a f c ops1 ops2 : valid_env e -> valid_ctor c -> valid_calls a ops1 -> valid_calls a ops2 ->
  room e a c (calls ops1) -> room e a c (calls ops2) -> segments [] ops1 = segments [] ops2 ->
  exists rs, runs e a f c (calls ops1) = Ok rs /\ runs e a f c (calls ops2) = Ok rs.
Proof.
  intros HE HC V1 V2 R1 R2 H. exists (expected e a f c (calls ops1)).
  split; [apply runs_expected; [exact HE|now apply calls_valid|exact R1]|].
  rewrite runs_expected; [|exact HE|now apply calls_valid|exact R2]. f_equal. unfold expected. rewrite !aprun_calls.
  pose proof (fun ops => arun_segments _ (mc_ar (machine_of (e_cw e) a)) (machine_nil (e_cw e) a) (machine_app (e_cw e) a) ops
                (mc_start (machine_of (e_cw e) a) c) []) as E.
  rewrite !machine_nil in E. now rewrite !E, H.
Qed.
(* "ab", result, "c", result *)
Definition calls_ex : list op := [OUpdate (Ptr [97]) 1; OUpdate (Ptr [98]) 1; OResult; OUpdate (Ptr [99]) 1; OResult].
Lemma calls_ex_valid a : valid_calls a calls_ex.
Proof. repeat constructor; cbn; lia. Qed.
Example C21_segments_ex a : exists rs, runs env_be a le_flavor (CSeed 7) (calls calls_ex) = Ok rs /\
  runs env_be a le_flavor (CSeed 7) (calls [OUpdate (Ptr [97; 98; 99]) 2; OResult; OUpdate (Ptr [99]) 1; OResult]) = Ok rs.
Proof.
  apply C21_segments; [exact env_be_valid|reflexivity|apply calls_ex_valid|repeat constructor; cbn; lia| | |reflexivity];
    destruct a; try exact I; vm_compute; reflexivity.
Qed.

(* ---------- C21: the virtual message of md5, sha1, sha2, ripemd ---------- *)
(* The message each result is the digest of: the bytes fed so far, where each earlier result()
   contributes the padding it processed; a seed contributes itself and its padding. *)
Definition std_pad (m : md_alg) : list N -> list N :=
  match m with
  | Amd5 => MD5_pad | Asha1 => SHA1_pad | Armd128 | Armd160 => RMD_pad
  | Asha256 | Asha224 => SpecSha2.pad F256
  | Asha512 | Asha384 | Asha512_224 | Asha512_256 => SpecSha2.pad F512
  end.
Section VirtualMessage.
Variables (pad hash : list N -> list N).
Fixpoint digests (l : list N) (ops : list op) : list (list N) :=
  match ops with
  | [] => []
  | OUpdate p n :: t => digests (l ++ data p n) t
  | OResult :: t => hash l :: digests (pad l) t
  end.
Fixpoint whole_message (l : list N) (ops : list op) : list N :=
  match ops with
  | [] => l
  | OUpdate p n :: t => whole_message (l ++ data p n) t
  | OResult :: t => whole_message (pad l) t
  end.
Definition seed_message (c : ctor) : list N :=
  match c with
  | CDefault => []
  | CSeed n => if n =? 0 then [] else pad (toLE 8 n)
  | CBytes p n => if Nat.eqb n 0 then [] else pad (data p n)
  end.
End VirtualMessage.

Lemma MDpad_le B lb enc l : (length l <= length (MDpad B lb enc l))%nat.
Proof. unfold MDpad. rewrite !app_length. lia. Qed.
Lemma std_pad_le m l : (length l <= length (std_pad m l))%nat.
Proof. destruct m; cbn [std_pad]; apply MDpad_le. Qed.
Lemma whole_le m ops : forall l, (length l <= length (whole_message (std_pad m) l ops))%nat.
Proof.
  induction ops as [|[p n|] ops IH]; intros l; cbn [whole_message]; [lia| |].
  - etransitivity; [|apply IH]. rewrite app_length. lia.
  - etransitivity; [|apply IH]. apply std_pad_le.
Qed.
Lemma pad_of_std m l : (block_size m = 128%nat -> short l) -> pad_of m l = std_pad m l.
Proof.
  destruct m; cbn [pad_of std_pad block_size]; intros HS; try reflexivity; try apply pad256_std; apply pad512_std; now apply HS.
Qed.
Lemma short_le l l' : (length l <= length l')%nat -> short l' -> short l.
Proof. unfold short. lia. Qed.
Lemma digests_std m ops : forall l, (block_size m = 128%nat -> short (whole_message (std_pad m) l ops)) ->
  digests (pad_of m) (hash_of m) l ops = digests (std_pad m) (std_hash m) l ops.
Proof.
  induction ops as [|[p n|] ops IH]; intros l HS; cbn [digests whole_message] in *; [reflexivity|now apply IH|].
  assert (HS' : block_size m = 128%nat -> short l).
  { intros E. eapply short_le; [|now apply HS]. etransitivity; [|apply whole_le]. apply std_pad_le. }
  rewrite pad_of_std, hash_of_std by exact HS'. f_equal. now apply IH.
Qed.
Lemma seed_std m c : (block_size m = 128%nat -> short (seed_message (std_pad m) c)) -> vstart (pad_of m) c = seed_message (std_pad m) c.
Proof.
  intros HS. destruct c as [|n|p n]; cbn [vstart seed_message] in *; [reflexivity| |].
  - destruct (n =? 0); [reflexivity|]. change le_bytes with toLE. apply pad_of_std. intros E.
    eapply short_le; [|now apply HS]. apply std_pad_le.
  - destruct (Nat.eqb n 0); [reflexivity|]. apply pad_of_std. intros E. eapply short_le; [|now apply HS]. apply std_pad_le.
Qed.
Lemma arun_digests pad hash ops : forall l,
  fst (arun (fun l d => l ++ d) (fun l => (RDigest (hash l), pad l)) l ops) = map RDigest (digests pad hash l ops).
Proof.
  induction ops as [|[p n|] ops IH]; intros l; cbn [arun digests map]; [reflexivity|apply IH|].
  specialize (IH (pad l)). destruct (arun _ _ (pad l) ops). cbn [fst] in *. now rewrite IH.
Qed.
Theorem C21_virtual_message e m f c ops : valid_env e -> valid_ctor c -> valid_calls (Amd m) ops ->
  (block_size m = 128%nat -> short (whole_message (std_pad m) (seed_message (std_pad m) c) ops)) ->
  runs e (Amd m) f c (calls ops) = Ok (map RDigest (digests (std_pad m) (std_hash m) (seed_message (std_pad m) c) ops)).
Proof.
  intros HE HC HV HS. rewrite runs_expected; [|exact HE|now apply calls_valid|apply room_any; discriminate].
  f_equal. unfold expected. rewrite aprun_calls. cbn [machine_of md_machine mc_au mc_ar mc_start].
  rewrite arun_digests, seed_std, digests_std; [reflexivity|exact HS|].
  intros E. eapply short_le; [|now apply HS]. apply whole_le.
Qed.
(* the second digest is the hash of the padded message of the first, followed by "c" *)
Example C21_virtual_message_ex : runs env_be (Amd Asha512) le_flavor CDefault (calls calls_ex) =
  Ok [RDigest (SHA512 [97; 98]); RDigest (SHA512 (SpecSha2.pad F512 [97; 98] ++ [99]))].
Proof.
  rewrite (C21_virtual_message env_be Asha512 le_flavor CDefault calls_ex env_be_valid I (calls_ex_valid _)); [reflexivity|].
  intros _. vm_compute. reflexivity.
Qed.

(* ---------- C39: hmac histories ---------- *)
(* inner and outer messages: result() appends the inner digest to the outer message, and the
   paddings to both *)
Fixpoint hmac_digests (pad hash : list N -> list N) (li lo : list N) (ops : list op) : list (list N) :=
  match ops with
  | [] => []
  | OUpdate p n :: t => hmac_digests pad hash (li ++ data p n) lo t
  | OResult :: t => hash (lo ++ hash li) :: hmac_digests pad hash (pad li) (pad (lo ++ hash li)) t
  end.
Fixpoint hmac_messages (pad hash : list N -> list N) (li lo : list N) (ops : list op) : list N * list N :=
  match ops with
  | [] => (li, lo)
  | OUpdate p n :: t => hmac_messages pad hash (li ++ data p n) lo t
  | OResult :: t => hmac_messages pad hash (pad li) (pad (lo ++ hash li)) t
  end.
(* the key of a constructor call *)
Definition key_of (c : ctor) : list N :=
  match c with CDefault => [] | CSeed n => if n =? 0 then [] else toLE 8 n | CBytes p n => data p n end.
Definition xor_key (x : N) (m : md_alg) (k : list N) : list N := map (N.lxor x) (HMAC_key (block_size m) (std_hash m) k).

Lemma messages_le m ops : forall li lo, let r := hmac_messages (std_pad m) (std_hash m) li lo ops in
  (length li <= length (fst r) /\ length lo <= length (snd r))%nat.
Proof.
  induction ops as [|[p n|] ops IH]; intros li lo; cbn [hmac_messages fst snd]; [lia| |].
  - destruct (IH (li ++ data p n) lo) as [H1 H2]. rewrite app_length in H1. cbv zeta in *. lia.
  - destruct (IH (std_pad m li) (std_pad m (lo ++ std_hash m li))) as [H1 H2].
    pose proof (std_pad_le m li). pose proof (std_pad_le m (lo ++ std_hash m li)). rewrite app_length in *. cbv zeta in *. lia.
Qed.
Definition hmac_bounded (m : md_alg) (k : list N) (ops : list op) : Prop :=
  block_size m = 128%nat -> short k /\
    let r := hmac_messages (std_pad m) (std_hash m) (xor_key 0x36 m k) (xor_key 0x5C m k) ops in short (fst r) /\ short (snd r).
Lemma hmac_digests_std m ops : forall li lo,
  (block_size m = 128%nat -> let r := hmac_messages (std_pad m) (std_hash m) li lo ops in short (fst r) /\ short (snd r)) ->
  hmac_digests (pad_of m) (hash_of m) li lo ops = hmac_digests (std_pad m) (std_hash m) li lo ops.
Proof.
  induction ops as [|[p n|] ops IH]; intros li lo HS; cbn [hmac_digests hmac_messages] in *; [reflexivity|now apply IH|].
  pose proof (messages_le m ops (std_pad m li) (std_pad m (lo ++ std_hash m li))) as [L1 L2].
  assert (HI : block_size m = 128%nat -> short li).
  { intros E. destruct (HS E) as [H1 H2]. eapply short_le; [|exact H1]. etransitivity; [|exact L1]. apply std_pad_le. }
  rewrite (hash_of_std m li) by exact HI.
  assert (HO : block_size m = 128%nat -> short (lo ++ std_hash m li)).
  { intros E. destruct (HS E) as [H1 H2]. eapply short_le; [|exact H2]. etransitivity; [|exact L2]. apply std_pad_le. }
  rewrite (hash_of_std m _ HO), (pad_of_std m _ HO), (pad_of_std m _ HI). f_equal. now apply IH.
Qed.
Lemma arun_hmac pad hash ops : forall li lo,
  fst (arun (fun a d => (fst a ++ d, snd a))
     (fun a : list N * list N => (RDigest (hash (snd a ++ hash (fst a))), (pad (fst a), pad (snd a ++ hash (fst a))))) (li, lo) ops)
  = map RDigest (hmac_digests pad hash li lo ops).
Proof.
  induction ops as [|[p n|] ops IH]; intros li lo; cbn [arun hmac_digests map fst snd]; [reflexivity|apply IH|].
  specialize (IH (pad li) (pad (lo ++ hash li))). destruct (arun _ _ (pad li, _) ops). cbn [fst] in *. now rewrite IH.
Qed.
Theorem C39_hmac_history e m f c ops : valid_env e -> valid_ctor c -> valid_calls (Ahmac m) ops ->
  hmac_bounded m (key_of c) ops ->
  runs e (Ahmac m) f c (calls ops)
  = Ok (map RDigest (hmac_digests (std_pad m) (std_hash m) (xor_key 0x36 m (key_of c)) (xor_key 0x5C m (key_of c)) ops)).
Proof.
  intros HE HC HV HS. rewrite runs_expected; [|exact HE|now apply calls_valid|apply room_any; discriminate].
  f_equal. unfold expected. rewrite aprun_calls. cbn [machine_of hmac_machine mc_au mc_ar mc_start].
  rewrite arun_hmac. f_equal. change (hkey c) with (key_of c).
  assert (EK : HMAC_key (block_of m) (hash_of m) (key_of c) = HMAC_key (block_size m) (std_hash m) (key_of c)).
  { change (block_of m) with (block_size m). unfold HMAC_key.
    rewrite hash_of_std; [reflexivity|]. intros E. now apply HS. }
  unfold HMAC_ikey, HMAC_okey. rewrite EK. apply hmac_digests_std. intros E. now apply HS.
Qed.
Example C39_hmac_history_ex : exists r1 r2,
  runs env_be (Ahmac Amd5) le_flavor (CSeed 5) (calls calls_ex) = Ok [RDigest r1; RDigest r2] /\
  r1 = HMAC 64 MD5 (toLE 8 5) [97; 98].
Proof.
  do 2 eexists. split.
  - rewrite (C39_hmac_history env_be Amd5 le_flavor (CSeed 5) calls_ex env_be_valid eq_refl (calls_ex_valid _)); [reflexivity|discriminate].
  - vm_compute. reflexivity.
Qed.

(* ---------- C22: consecutive results of fnv1a ---------- *)
Lemma map_inj_NoDup {A B} (g : A -> B) l : (forall x y, g x = g y -> x = y) -> NoDup l -> NoDup (map g l).
Proof. intros Hg. apply FinFun.Injective_map_NoDup. exact Hg. Qed.
Lemma RInt_inj z x y : RInt z x = RInt z y -> x = y.
Proof. now injection 1. Qed.
Lemma RDigest_inj x y : RDigest x = RDigest y -> x = y.
Proof. now injection 1. Qed.
Lemma exec_app h c ops1 ops2 rs s : exec h c ops1 = Ok (rs, s) ->
  exec h c (ops1 ++ ops2) = ('(rs', s') <- run h s ops2 ;; Ok (rs ++ rs', s')).
Proof.
  unfold exec. destruct (construct h c) as [s0| | | ]; cbn [bind]; try discriminate. intros E.
  rewrite run_app, E. reflexivity.
Qed.

(* any history, then k more results: the k results are distinct; after 2^32 (2^64) of them the
   hasher is where it was *)
Theorem C22_fnv32 e f c ops k : valid_env e -> valid_ctor c -> valid_calls Afnv32 ops -> N.of_nat k <= 2^32 ->
  exists rs rs', runs e Afnv32 f c (calls ops) = Ok rs /\
    runs e Afnv32 f c (calls (ops ++ repeat OResult k)) = Ok (rs ++ rs') /\ length rs' = k /\ NoDup rs'.
Proof.
  intros HE HC HV HK. destruct (fnv32_results_distinct (e_pf e) c ops k HC HV HK) as (rs & rs' & s & s' & E1 & E2 & L & D & _).
  exists (map (RInt I32) rs), (map (RInt I32) rs'). rewrite !runs_session.
  assert (S1 := session_ok (pk_h (pack e Afnv32)) c ops rs s E1).
  assert (S2 := session_ok (pk_h (pack e Afnv32)) c (ops ++ repeat OResult k) (rs ++ rs') s' E2).
  rewrite S1, S2. cbn [bind]. split; [reflexivity|]. split; [now rewrite <- map_app|]. split; [now rewrite map_length|].
  apply map_inj_NoDup; [apply RInt_inj|exact D].
Qed.
Example C22_fnv32_ex : exists rs rs', runs env_be Afnv32 le_flavor (CSeed 5) (calls calls_ex) = Ok rs /\
  runs env_be Afnv32 le_flavor (CSeed 5) (calls (calls_ex ++ repeat OResult 1000)) = Ok (rs ++ rs') /\ length rs' = 1000%nat /\ NoDup rs'.
Proof. apply C22_fnv32; [exact env_be_valid|reflexivity|apply calls_ex_valid|vm_compute; discriminate]. Qed.
Theorem C22_fnv64 e f c ops k : valid_env e -> valid_ctor c -> valid_calls Afnv64 ops -> N.of_nat k <= 2^64 ->
  exists rs rs', runs e Afnv64 f c (calls ops) = Ok rs /\
    runs e Afnv64 f c (calls (ops ++ repeat OResult k)) = Ok (rs ++ rs') /\ length rs' = k /\ NoDup rs'.
Proof.
  intros HE HC HV HK. destruct (fnv64_results_distinct (e_pf e) c ops k HC HV HK) as (rs & rs' & s & s' & E1 & E2 & L & D & _).
  exists (map (RInt I64) rs), (map (RInt I64) rs'). rewrite !runs_session.
  assert (S1 := session_ok (pk_h (pack e Afnv64)) c ops rs s E1).
  assert (S2 := session_ok (pk_h (pack e Afnv64)) c (ops ++ repeat OResult k) (rs ++ rs') s' E2).
  rewrite S1, S2. cbn [bind]. split; [reflexivity|]. split; [now rewrite <- map_app|]. split; [now rewrite map_length|].
  apply map_inj_NoDup; [apply RInt_inj|exact D].
Qed.
Example C22_fnv64_ex : exists rs rs', runs env_be Afnv64 le_flavor (CSeed 5) (calls calls_ex) = Ok rs /\
  runs env_be Afnv64 le_flavor (CSeed 5) (calls (calls_ex ++ repeat OResult 1000)) = Ok (rs ++ rs') /\ length rs' = 1000%nat /\ NoDup rs'.
Proof. apply C22_fnv64; [exact env_be_valid|reflexivity|apply calls_ex_valid|vm_compute; discriminate]. Qed.
Lemma same_exec e a f c ops1 ops2 post s rs1 rs2 :
  exec (pk_h (pack e a)) c ops1 = Ok (rs1, s) -> exec (pk_h (pack e a)) c ops2 = Ok (rs2, s) ->
  forall rs, runs e a f c (calls (ops1 ++ post)) = Ok (map (pk_out (pack e a)) rs1 ++ rs) <->
             runs e a f c (calls (ops2 ++ post)) = Ok (map (pk_out (pack e a)) rs2 ++ rs).
Proof.
  intros E1 E2 rs. rewrite !runs_session, !session_exec.
  rewrite (exec_app _ _ _ _ _ _ E1), (exec_app _ _ _ _ _ _ E2).
  destruct (run (pk_h (pack e a)) s post) as [[rs' s']| | | ]; cbn [bind]; try (split; discriminate).
  rewrite !map_app. split; intros H; injection H as H; apply app_inv_head in H; now subst.
Qed.
Theorem C22_fnv32_period e f c ops k post rs : valid_env e -> valid_ctor c -> valid_calls Afnv32 ops -> N.of_nat k = 2^32 ->
  exists rs0 rs', runs e Afnv32 f c (calls ops) = Ok rs0 /\ length rs' = k /\
    (runs e Afnv32 f c (calls (ops ++ post)) = Ok (rs0 ++ rs) <->
     runs e Afnv32 f c (calls ((ops ++ repeat OResult k) ++ post)) = Ok ((rs0 ++ rs') ++ rs)).
Proof.
  intros HE HC HV HK. assert (HK' : N.of_nat k <= 2^32) by (rewrite HK; apply N.le_refl).
  destruct (fnv32_results_distinct (e_pf e) c ops k HC HV HK') as (rs0 & rs' & s & s' & E1 & E2 & L & D & P).
  rewrite (P HK) in E2. clear P HK HK'. exists (map (RInt I32) rs0), (map (RInt I32) rs').
  assert (S1 := session_ok (pk_h (pack e Afnv32)) c ops rs0 s E1). rewrite runs_session, S1. split; [reflexivity|].
  split; [now rewrite map_length|]. rewrite <- map_app.
  exact (same_exec e Afnv32 f c ops (ops ++ repeat OResult k) post s rs0 (rs0 ++ rs') E1 E2 rs).
Qed.
Example C22_fnv32_period_ex : exists k, N.of_nat k = 2^32.
Proof. exists (N.to_nat (2^32)). apply N2Nat.id. Qed.
Theorem C22_fnv64_period e f c ops k post rs : valid_env e -> valid_ctor c -> valid_calls Afnv64 ops -> N.of_nat k = 2^64 ->
  exists rs0 rs', runs e Afnv64 f c (calls ops) = Ok rs0 /\ length rs' = k /\
    (runs e Afnv64 f c (calls (ops ++ post)) = Ok (rs0 ++ rs) <->
     runs e Afnv64 f c (calls ((ops ++ repeat OResult k) ++ post)) = Ok ((rs0 ++ rs') ++ rs)).
Proof.
  intros HE HC HV HK. assert (HK' : N.of_nat k <= 2^64) by (rewrite HK; apply N.le_refl).
  destruct (fnv64_results_distinct (e_pf e) c ops k HC HV HK') as (rs0 & rs' & s & s' & E1 & E2 & L & D & P).
  rewrite (P HK) in E2. clear P HK HK'. exists (map (RInt I64) rs0), (map (RInt I64) rs').
  assert (S1 := session_ok (pk_h (pack e Afnv64)) c ops rs0 s E1). rewrite runs_session, S1. split; [reflexivity|].
  split; [now rewrite map_length|]. rewrite <- map_app.
  exact (same_exec e Afnv64 f c ops (ops ++ repeat OResult k) post s rs0 (rs0 ++ rs') E1 E2 rs).
Qed.
Example C22_fnv64_period_ex : exists k, N.of_nat k = 2^64.
Proof. exists (N.to_nat (2^64)). apply N2Nat.id. Qed.

(* ---------- C23: consecutive results of murmur3 ---------- *)
(* any history whose last bytes (those fed after the last result) are a multiple of 4 (16), then
   up to 2^30 (2^w/16, w the width of size_t) results: they are distinct *)
Theorem C23_murmur32 e f c ops k : valid_env e -> valid_ctor c -> valid_calls Amur32 ops ->
  (length (last (segments [] ops) []) mod 4 = 0)%nat -> N.of_nat k <= 2^30 ->
  exists rs rs', runs e Amur32 f c (calls ops) = Ok rs /\
    runs e Amur32 f c (calls (ops ++ repeat OResult k)) = Ok (rs ++ rs') /\ length rs' = k /\ NoDup rs'.
Proof.
  intros HE HC HV HL HK.
  destruct (mur32_results_distinct (e_cw e) (e_le e) (e_junk e 4) c ops k (proj1 HE) (proj2 HE _) HC HV HL HK) as (rs & rs' & S1 & S2 & L & D).
  exists (map (RInt I32) rs), (map (RInt I32) rs'). rewrite !runs_session.
  change (session (pk_h (pack e Amur32)) c ops = Ok rs) in S1.
  change (session (pk_h (pack e Amur32)) c (ops ++ repeat OResult k) = Ok (rs ++ rs')) in S2.
  rewrite S1, S2. cbn [bind]. split; [reflexivity|]. split; [now rewrite <- map_app|]. split; [now rewrite map_length|].
  apply map_inj_NoDup; [apply RInt_inj|exact D].
Qed.
Example C23_murmur32_ex : exists rs rs', runs env_be Amur32 le_flavor (CSeed 5) (calls [OUpdate (Ptr (repeat 1 16)) 16; OResult; OUpdate (Ptr (repeat 2 16)) 16]) = Ok rs /\
  runs env_be Amur32 le_flavor (CSeed 5) (calls ([OUpdate (Ptr (repeat 1 16)) 16; OResult; OUpdate (Ptr (repeat 2 16)) 16] ++ repeat OResult 1000)) = Ok (rs ++ rs') /\
  length rs' = 1000%nat /\ NoDup rs'.
Proof. apply C23_murmur32; [exact env_be_valid|reflexivity|repeat constructor; cbn; lia|reflexivity|vm_compute; discriminate]. Qed.
Theorem C23_murmur128 e f c ops k : valid_env e -> valid_ctor c -> valid_calls Amur128 ops ->
  (length (last (segments [] ops) []) mod 16 = 0)%nat -> 16 * N.of_nat k <= e_cw e ->
  exists rs rs', runs e Amur128 f c (calls ops) = Ok rs /\
    runs e Amur128 f c (calls (ops ++ repeat OResult k)) = Ok (rs ++ rs') /\ length rs' = k /\ NoDup rs'.
Proof.
  intros HE HC HV HL HK.
  destruct (mur128_results_distinct (e_cw e) (e_le e) (e_junk e 16) c ops k (proj1 HE) (proj2 HE _) HC HV HL HK) as (rs & rs' & S1 & S2 & L & D).
  exists (map RDigest rs), (map RDigest rs'). rewrite !runs_session.
  change (session (pk_h (pack e Amur128)) c ops = Ok rs) in S1.
  change (session (pk_h (pack e Amur128)) c (ops ++ repeat OResult k) = Ok (rs ++ rs')) in S2.
  rewrite S1, S2. cbn [bind]. split; [reflexivity|]. split; [now rewrite <- map_app|]. split; [now rewrite map_length|].
  apply map_inj_NoDup; [apply RDigest_inj|exact D].
Qed.
Example C23_murmur128_ex : exists rs rs', runs env_be Amur128 le_flavor (CSeed 5) (calls [OUpdate (Ptr (repeat 1 16)) 16; OResult; OUpdate (Ptr (repeat 2 16)) 16]) = Ok rs /\
  runs env_be Amur128 le_flavor (CSeed 5) (calls ([OUpdate (Ptr (repeat 1 16)) 16; OResult; OUpdate (Ptr (repeat 2 16)) 16] ++ repeat OResult 1000)) = Ok (rs ++ rs') /\
  length rs' = 1000%nat /\ NoDup rs'.
Proof. apply C23_murmur128; [exact env_be_valid|reflexivity|repeat constructor; cbn; lia|reflexivity|vm_compute; discriminate]. Qed.
(* the alignment is needed: with three pending bytes the first result can come back *)
Theorem C23_murmur32_unaligned_refuted e f : valid_env e ->
  exists rs r, runs e Amur32 f CDefault (calls (OUpdate (Ptr [0x85; 0xFD; 0x95]) 3 :: repeat OResult 126)) = Ok rs /\
    nth_error rs 0 = Some r /\ nth_error rs 125 = Some r.
Proof.
  intros HE. destruct (mur32_results_repeat (e_cw e) (e_le e) (e_junk e 4) (proj1 HE) (proj2 HE _)) as (rs & S1 & N1 & N2).
  destruct (nth_error rs 0) as [r|] eqn:E; [|easy]. exists (map (RInt I32) rs), (RInt I32 r). rewrite runs_session.
  change (session (pk_h (pack e Amur32)) CDefault (OUpdate (Ptr [0x85; 0xFD; 0x95]) 3 :: repeat OResult 126) = Ok rs) in S1.
  rewrite S1. split; [reflexivity|]. split; [exact (map_nth_error (RInt I32) 0 rs E)|exact (map_nth_error (RInt I32) 125 rs (eq_sym N1))].
Qed.
Theorem C23_murmur128_unaligned_refuted e f : valid_env e ->
  exists rs r, runs e Amur128 f CDefault (calls (OUpdate (Ptr mur128_rep_msg) 15 :: repeat OResult 387)) = Ok rs /\
    nth_error rs 0 = Some r /\ nth_error rs 386 = Some r.
Proof.
  intros HE. destruct (mur128_results_repeat (e_cw e) (e_le e) (e_junk e 16) (proj1 HE) (proj2 HE _)) as (rs & S1 & N1 & N2).
  destruct (nth_error rs 0) as [r|] eqn:E; [|easy]. exists (map RDigest rs), (RDigest r). rewrite runs_session.
  change (session (pk_h (pack e Amur128)) CDefault (OUpdate (Ptr mur128_rep_msg) 15 :: repeat OResult 387) = Ok rs) in S1.
  rewrite S1. split; [reflexivity|]. split; [exact (map_nth_error RDigest 0 rs E)|exact (map_nth_error RDigest 386 rs (eq_sym N1))].
Qed.

(* ---------- C19: update( nullptr, 0 ) of sha2 ---------- *)
(* With bytes pending, the sha2 classes pass the null pointer to std::memcpy: undefined behaviour
   at run time (p_cx = false). *)
Lemma sha256_null pf s : p_cx pf = false -> (0 < b_m s)%nat -> N.of_nat (b_m s) = b_n s mod 64 ->
  sha256_update pf s Null 0 = UB.
Proof.
  intros HX HM HN. unfold sha256_update. rewrite <- HN, N.eqb_refl. cbn [assert_ bind]. cbv zeta.
  rewrite (proj2 (Nat.ltb_lt 0 (b_m s)) HM).
  replace (if (0 <? 64 - b_m s)%nat then 0%nat else (64 - b_m s)%nat) with 0%nat by (destruct (Nat.ltb_spec 0 (64 - b_m s)); lia).
  unfold memcpy. rewrite HX. cbn [negb]. unfold std_memcpy. cbn [memread].
  destruct (b_m s + 0 <=? length (b_buf s))%nat; reflexivity.
Qed.
Lemma sha512_null pf s : p_cx pf = false -> (0 < b_m s)%nat -> N.of_nat (b_m s) = b_n s mod 128 ->
  sha512_update pf s Null 0 = UB.
Proof.
  intros HX HM HN. unfold sha512_update. rewrite <- HN, N.eqb_refl. cbn [assert_ bind]. cbv zeta.
  rewrite (proj2 (Nat.ltb_lt 0 (b_m s)) HM).
  replace (if (0 <? 128 - b_m s)%nat then 0%nat else (128 - b_m s)%nat) with 0%nat by (destruct (Nat.ltb_spec 0 (128 - b_m s)); lia).
  unfold memcpy. rewrite HX. cbn [negb]. unfold std_memcpy. cbn [memread].
  destruct (b_m s + 0 <=? length (b_buf s))%nat; reflexivity.
Qed.
Lemma vfinal_mod pad B segs : (forall l, (length (pad l) mod B = 0)%nat) -> (0 < B)%nat -> forall l,
  (length l mod B = 0)%nat -> (length (vfinal pad l segs) mod B = length (last segs []) mod B)%nat.
Proof.
  intros HP HB. induction segs as [|d t IH]; intros l HL; cbn [vfinal last].
  - rewrite HL. symmetry. apply Nat.mod_0_l. lia.
  - destruct t as [|d2 t].
    + rewrite app_length. rewrite Nat.add_mod, HL by lia. cbn [Nat.add]. apply Nat.mod_mod. lia.
    + rewrite IH by apply HP. reflexivity.
Qed.
Lemma vstart_mod pad B c : (forall l, (length (pad l) mod B = 0)%nat) -> (0 < B)%nat -> (length (vstart pad c) mod B = 0)%nat.
Proof.
  intros HP HB. destruct c as [|n|p n]; cbn [vstart]; [now apply Nat.mod_0_l; lia| |].
  - destruct (n =? 0); [now apply Nat.mod_0_l; lia|apply HP].
  - destruct (Nat.eqb n 0); [now apply Nat.mod_0_l; lia|apply HP].
Qed.
Lemma md_pending nul St B pad H init seedf bytesf updf resf c ops :
  md_ok St (list N) B nul pad H init seedf bytesf updf resf -> (0 < B)%nat -> 2^64 mod N.of_nat B = 0 ->
  valid_ctor c -> Forall (valid_op nul) ops -> (length (last (segments [] ops) []) mod B <> 0)%nat ->
  exists rs s, exec (Build_hasher (bst St) (list N) init seedf bytesf updf resf) c ops = Ok (rs, s) /\
    (0 < b_m s)%nat /\ N.of_nat (b_m s) = b_n s mod N.of_nat B.
Proof.
  intros MO HB HD HC HV HL. destruct (mo_exec _ _ _ _ _ _ _ _ _ _ _ MO c ops HC HV) as (s & E & Hm & Hn & _).
  do 2 eexists. split; [exact E|].
  assert (M : (length (vfinal pad (vstart pad c) (segments [] ops)) mod B = length (last (segments [] ops) []) mod B)%nat).
  { apply vfinal_mod; [apply (mo_pad _ _ _ _ _ _ _ _ _ _ _ MO)|exact HB|]. apply vstart_mod; [apply (mo_pad _ _ _ _ _ _ _ _ _ _ _ MO)|exact HB]. }
  rewrite Hm, Hn, M. split; [lia|]. rewrite <- M.
  set (x := length (vfinal pad (vstart pad c) (segments [] ops))). rewrite Nat2N.inj_mod by lia.
  symmetry. apply N.mod_divide in HD; [|lia]. destruct HD as [q HD]. rewrite HD.
  assert (q <> 0) by (intros ->; rewrite N.mul_0_l in HD; discriminate HD).
  rewrite (N.mul_comm q). rewrite N.mod_mul_r by lia.
  rewrite (N.mul_comm (N.of_nat B)), N.mod_add by lia. apply N.mod_mod. lia.
Qed.
Theorem C19_sha2_null_refuted e m f c ops : nul_md m = false -> p_cx (e_pf e) = false -> valid_ctor c ->
  valid_calls (Amd m) ops -> (length (last (segments [] ops) []) mod block_size m <> 0)%nat ->
  runs e (Amd m) f c (calls (ops ++ [OUpdate Null 0])) = UB.
Proof.
  intros HM HX HC HV HL. rewrite runs_session, session_exec.
  assert (G : forall h, (exists rs s, exec h c ops = Ok (rs, s) /\ h_update h s Null 0 = UB) ->
            exec h c (ops ++ [OUpdate Null 0]) = UB).
  { intros h (rs & s & E & U). rewrite (exec_app _ _ _ _ _ _ E). cbn [run]. rewrite U. reflexivity. }
  rewrite G; [reflexivity|]. unfold valid_calls in HV. cbn [nul_of] in HV. rewrite HM in HV.
  destruct m; try discriminate HM; cbn [block_size] in HL.
  - destruct (md_pending _ _ _ _ _ _ _ _ _ _ c ops (sha2_256_ok (e_pf e)) ltac:(lia) eq_refl HC HV HL) as (rs & s & E & H1 & H2).
    exists rs, s. split; [exact E|]. now apply sha256_null.
  - destruct (md_pending _ _ _ _ _ _ _ _ _ _ c ops (sha2_224_ok (e_pf e)) ltac:(lia) eq_refl HC HV HL) as (rs & s & E & H1 & H2).
    exists rs, s. split; [exact E|]. now apply sha256_null.
  - destruct (md_pending _ _ _ _ _ _ _ _ _ _ c ops (sha2_512_ok (e_pf e)) ltac:(lia) eq_refl HC HV HL) as (rs & s & E & H1 & H2).
    exists rs, s. split; [exact E|]. now apply sha512_null.
  - destruct (md_pending _ _ _ _ _ _ _ _ _ _ c ops (sha2_384_ok (e_pf e)) ltac:(lia) eq_refl HC HV HL) as (rs & s & E & H1 & H2).
    exists rs, s. split; [exact E|]. now apply sha512_null.
  - destruct (md_pending _ _ _ _ _ _ _ _ _ _ c ops (sha2_512_224_ok (e_pf e)) ltac:(lia) eq_refl HC HV HL) as (rs & s & E & H1 & H2).
    exists rs, s. split; [exact E|]. now apply sha512_null.
  - destruct (md_pending _ _ _ _ _ _ _ _ _ _ c ops (sha2_512_256_ok (e_pf e)) ltac:(lia) eq_refl HC HV HL) as (rs & s & E & H1 & H2).
    exists rs, s. split; [exact E|]. now apply sha512_null.
Qed.
Example C19_sha2_null_ex f : runs env_pc (Amd Asha256) f CDefault (calls [OUpdate (Ptr [97]) 1; OUpdate Null 0]) = UB.
Proof.
  apply (C19_sha2_null_refuted env_pc Asha256 f CDefault [OUpdate (Ptr [97]) 1]); [reflexivity|reflexivity|exact I| |discriminate].
  repeat constructor.
Qed.
(* e.g. one byte, then update( nullptr, 0 ) *)
Example C19_sha2_null_example e f : p_cx (e_pf e) = false ->
  runs e (Amd Asha256) f CDefault (calls [OUpdate (Ptr [0x61]) 1; OUpdate Null 0]) = UB.
Proof.
  intros HX. apply (C19_sha2_null_refuted e Asha256 f CDefault [OUpdate (Ptr [0x61]) 1]); try reflexivity; try exact HX.
  - repeat constructor.
  - discriminate.
Qed.

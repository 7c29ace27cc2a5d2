(* sha1_160: instance of the generic theory; transform() is the SHA-1 compression function. *)
From Verif Require Import Base BaseFacts SpecCommon Gen Hasher GenMD Words ModelSha1 SpecSha1.
Open Scope N_scope.

Definition sha1_regs (r : nat) : reg5 * reg5 * reg5 * reg5 * reg5 :=
  match r with
  | 0%nat => (qA, qB, qC, qD, qE) | 1%nat => (qE, qA, qB, qC, qD)
  | 2%nat => (qD, qE, qA, qB, qC) | 3%nat => (qC, qD, qE, qA, qB)
  | _ => (qB, qC, qD, qE, qA)
  end.
Definition sha1_mk (i : nat) : sha1_ins :=
  let '(a, b, c, d, e) := sha1_regs (i mod 5) in
  (if Nat.ltb i 16 then SR1 else
   match (i / 20)%nat with 0%nat => SR2 | 1%nat => SR3 | 2%nat => SR4 | _ => SR5 end) a b c d e i.
Lemma sha1_program_ok : sha1_program = map sha1_mk (seq 0 80).
Proof. vm_compute. reflexivity. Qed.

Definition sha1_view (i : nat) (v : sha1_st) : SHA1_word :=
  let '(a, b, c, d, e) := sha1_regs (i mod 5) in
  (get5 v a, get5 v b, get5 v c, get5 v d, get5 v e).

Definition sha1_fK (q : nat) : (N -> N -> N -> N) * N :=
  match q with
  | 0%nat => (sha1_f1, 0x5A827999) | 1%nat => (sha1_f3, 0x6ED9EBA1)
  | 2%nat => (sha1_f4, 0x8F1BBCDC) | _ => (sha1_f5, 0xCA62C1D6)
  end.
Definition sha1_sem (v : sha1_st) (i : nat) (wi : N) : sha1_st :=
  let '(a, b, c, d, e) := sha1_regs (i mod 5) in
  sha1_step v a b c d e (fst (sha1_fK (i / 20))) (snd (sha1_fK (i / 20))) wi.

Lemma sha1_K_ok i : (i < 80)%nat -> SHA1_K i = snd (sha1_fK (i / 20)).
Proof.
  intros H. unfold SHA1_K. assert (Hq : (i / 20 < 4)%nat) by (apply Nat.div_lt_upper_bound; lia).
  generalize dependent (i / 20)%nat. intros q Hq.
  destruct q as [|[|[|[|q]]]]; try (exfalso; lia); vm_compute; reflexivity.
Qed.

Lemma sha1_sim W i v : (i < 80)%nat ->
  sha1_view (1 + i)%nat (sha1_sem v i (nth i W 0)) = SHA1_step W (sha1_view i v) i.
Proof.
  intros Hi. unfold SHA1_step. rewrite sha1_K_ok by assumption.
  unfold sha1_view, sha1_sem, SHA1_f, sha1_step.
  generalize (nth i W 0). intros wi.
  rewrite <- (Nat.add_mod_idemp_r 1 i) by discriminate.
  assert (Hr : (i mod 5 < 5)%nat) by (apply Nat.mod_upper_bound; discriminate).
  assert (Hq : (i / 20 < 4)%nat) by (apply Nat.div_lt_upper_bound; lia).
  generalize dependent (i mod 5)%nat. generalize dependent (i / 20)%nat. clear Hi i.
  intros q Hq r Hr. destruct v as [[[[a b] c] d] e].
  assert (AR : forall x f k w e, add32 e (add32 (add32 (add32 x f) k) w)
     = ADD 32 (ADD 32 (ADD 32 (ADD 32 x f) e) w) k).
  { intros. change add32 with (ADD 32). add_norm. }
  destruct q as [|[|[|[|q]]]]; try (exfalso; lia);
  destruct r as [|[|[|[|[|r]]]]]; try (exfalso; lia);
  cbn [sha1_regs sha1_fK fst snd get5 set5 Nat.add Nat.modulo Nat.divmod Nat.sub];
  rewrite AR, !rotl32_ROTL by reflexivity; reflexivity.
Qed.

(* ---------- the message schedule array ---------- *)
Definition sha1_wf (W : list N) : N :=
  let t := length W in
  ROTL 32 1 (N.lxor (N.lxor (N.lxor (nth (t - 3) W 0) (nth (t - 8) W 0)) (nth (t - 14) W 0)) (nth (t - 16) W 0)).
Lemma SHA1_extend_ext n W : SHA1_extend n W = ext sha1_wf n W.
Proof. reflexivity. Qed.

Lemma nth_firstn_lt (W : list N) i j : (j < i)%nat -> nth j (firstn i W) 0 = nth j W 0.
Proof.
  intros H. destruct (Nat.lt_ge_cases j (length W)) as [Hj|Hj].
  - rewrite <- (firstn_skipn i W) at 2. rewrite app_nth1; [reflexivity|]. rewrite firstn_length. lia.
  - rewrite !nth_overflow; [reflexivity|lia|rewrite firstn_length; lia].
Qed.

Section Block.
Variable l : list N.
Hypothesis HL : (64 <= length l)%nat.
Hypothesis Hb : bytes l.
Let W0 := map BE (chunks 4 (firstn 64 l)).
Variable W : list N.
Hypothesis W_eq : W = ext sha1_wf 64 W0.
Lemma W0_length : length W0 = 16%nat.
Proof. apply (block_words_length 4 16); [lia|]. rewrite firstn_length_le; lia. Qed.
Lemma W_length : length W = 80%nat.
Proof. rewrite W_eq, ext_length, W0_length. reflexivity. Qed.

Lemma W_old i : (i < 16)%nat ->
  nth_error W i = Some (be_val (firstn 4 (skipn (i * 4) l))).
Proof.
  intros Hi. rewrite W_eq.
  rewrite ext_old by (rewrite W0_length; lia).
  unfold W0. rewrite (chunks_seq 4 ltac:(lia) 16) by (rewrite firstn_length_le; lia).
  rewrite map_map, nth_error_map.
  rewrite (nth_error_nth' _ 0%nat) by (rewrite seq_length; lia). cbn [option_map].
  rewrite seq_nth by lia. cbn [Nat.add]. rewrite firstn_skipn_firstn by lia. reflexivity.
Qed.

Lemma W_new i : (16 <= i < 80)%nat -> nth_error W i =
  Some (ROTL 32 1 (N.lxor (N.lxor (N.lxor (nth (i - 3) W 0) (nth (i - 8) W 0)) (nth (i - 14) W 0)) (nth (i - 16) W 0))).
Proof.
  intros Hi. rewrite W_eq at 1.
  replace i with (length W0 + (i - 16))%nat at 1 by (rewrite W0_length; lia).
  rewrite ext_next by lia. rewrite W0_length. replace (16 + (i - 16))%nat with i by lia.
  rewrite <- W_eq.
  unfold sha1_wf. rewrite (firstn_length_le W (n:=i)) by (rewrite W_length; lia).
  rewrite !nth_firstn_lt by lia. reflexivity.
Qed.

Lemma nth_W i : (i < 80)%nat -> nth_error W i = Some (nth i W 0).
Proof. intros H. apply nth_error_nth'. rewrite W_length. exact H. Qed.

Lemma sha1_W_ok i : (16 <= i < 80)%nat ->
  sha1_W (firstn i W ++ zeros (80 - i)) i = Ok (nth i W 0, firstn (S i) W ++ zeros (80 - S i)).
Proof.
  intros Hi. unfold sha1_W, arr_get.
  replace (Nat.ltb i 16) with false by (symmetry; apply Nat.ltb_ge; lia).
  pose proof W_length as WL.
  rewrite !arr_part_get by lia. cbn [bind].
  rewrite rotl32_ROTL by reflexivity. pose proof (W_new i Hi) as Wn.
  rewrite (arr_part_store W 80 i _ WL Wn). cbn [bind].
  rewrite nth_W in Wn by lia. injection Wn as Wn. rewrite <- Wn. reflexivity.
Qed.

Lemma sha1_exec_ok v i : (i < 80)%nat ->
  sha1_exec (Ptr l) (v, firstn i W ++ zeros (80 - i)) (sha1_mk i)
  = Ok (sha1_sem v i (nth i W 0), firstn (S i) W ++ zeros (80 - S i)).
Proof.
  intros Hi. pose proof W_length as WL.
  unfold sha1_mk, sha1_sem. destruct (sha1_regs (i mod 5)) as [[[[a b] c] d] e].
  destruct (Nat.ltb_spec i 16) as [H|H].
  - unfold sha1_exec. rewrite padd_ok by lia. cbn [bind].
    rewrite read32be_ok; [|rewrite skipn_length; lia|now apply bytes_skipn]. cbn [bind].
    pose proof (W_old i H) as Wo.
    rewrite (arr_part_store W 80 i _ WL Wo). cbn [bind].
    unfold arr_get. rewrite arr_part_get by lia. cbn [bind].
    replace (i / 20)%nat with 0%nat by (symmetry; apply Nat.div_small; lia). reflexivity.
  - assert (Hq : (i / 20 < 4)%nat) by (apply Nat.div_lt_upper_bound; lia).
    pose proof (sha1_W_ok i (conj H Hi)) as E.
    destruct (i / 20)%nat as [|[|[|[|q]]]]; try (exfalso; lia);
    unfold sha1_exec; rewrite E; reflexivity.
Qed.

Lemma sha1_run_ok k : forall i v, (i + k <= 80)%nat ->
  sha1_run (Ptr l) (map sha1_mk (seq i k)) (v, firstn i W ++ zeros (80 - i))
  = Ok (fold_left (fun v i => sha1_sem v i (nth i W 0)) (seq i k) v, firstn (i + k) W ++ zeros (80 - (i + k))).
Proof.
  induction k as [|k IH]; intros i v H.
  - cbn. rewrite Nat.add_0_r. reflexivity.
  - cbn [seq map sha1_run fold_left]. rewrite sha1_exec_ok by lia. cbn [bind].
    rewrite IH by lia. replace (S i + k)%nat with (i + S k)%nat by lia. reflexivity.
Qed.

Lemma sha1_fold_ok st : fold_left (fun v i => sha1_sem v i (nth i W 0)) (seq 0 80) st
            = fold_left (SHA1_step W) (seq 0 80) st.
Proof.
  pose proof (fold_sim (fun v i => sha1_sem v i (nth i W 0)) (SHA1_step W) sha1_view 80
      (fun i s => sha1_sim W i s) 80 0 st (le_n _)) as Sim.
  assert (V : forall v, sha1_view 0 v = v /\ sha1_view 80 v = v).
  { intros [[[[? ?] ?] ?] ?]. split; reflexivity. }
  rewrite (proj1 (V st)), (proj2 (V _)) in Sim. exact Sim.
Qed.
End Block.

Lemma sha1_transform_ok pf st l : (64 <= length l)%nat -> bytes l ->
  sha1_transform pf st (Ptr l) = Ok (SHA1_compress st (firstn 64 l)).
Proof.
  intros HL Hb. unfold sha1_transform, SHA1_compress. rewrite sha1_program_ok.
  assert (EW : SHA1_W (firstn 64 l) = ext sha1_wf 64 (map BE (chunks 4 (firstn 64 l))))
    by exact (SHA1_extend_ext 64 _).
  revert EW. generalize (SHA1_W (firstn 64 l)) as W. intros W EW.
  pose proof (sha1_run_ok l HL Hb W EW 80 0 st (le_n _)) as E. cbn [firstn app] in E.
  change (80 - 0)%nat with 80%nat in E. rewrite E. cbn [bind].
  rewrite sha1_fold_ok. destruct (fold_left (SHA1_step W) (seq 0 80) st) as [[[[a b] c] d] e].
  destruct st as [[[[s0 s1] s2] s3] s4]. reflexivity.
Qed.


(* ---------- the class ---------- *)
Definition sha1_class (pf : plat) : hasher :=
  {| h_S := bst sha1_st; h_R := list N; h_init := sha1_init;
     h_seed := sha1_seed pf; h_bytes := sha1_bytes pf;
     h_update := sha1_update pf; h_result := sha1_result pf |}.

Definition sha1_bl pf (st : sha1_st) (p : ptr) (n : nat) := sha1_blocks pf n st p n.
Definition sha1_bits (n : N) : list N := be_bytes 8 (mul64 n 8).

Lemma sha1_update_gen pf :
  sha1_update pf = gen_update sha1_st 64 true true (2^64) pf (sha1_transform pf) (sha1_bl pf).
Proof. reflexivity. Qed.

Lemma sha1_result_gen pf s :
  sha1_result pf s =
  gen_result sha1_st 64 8 true true pf (sha1_transform pf) (sha1_bl pf) sha1_bits (list N) SHA1_out s.
Proof.
  unfold sha1_result, gen_result, sha1_bits. rewrite <- sha1_update_gen, write64be_ok.
  change (N.of_nat 64) with 64. destruct (assert_ _); try reflexivity. cbn [bind].
  change (64 - 8)%nat with 56%nat. change (64 + 56)%nat with 120%nat. change (64 - 1)%nat with 63%nat.
  destruct (sha1_update pf s _ _) as [s1| | |]; try reflexivity. cbn [bind].
  destruct (sha1_update pf s1 _ _) as [s2| | |]; try reflexivity. cbn [bind].
  destruct (assert_ _); try reflexivity. cbn [bind].
  destruct (b_st s2) as [[[[h0 h1] h2] h3] h4]. unfold SHA1_out. cbn [map concat].
  rewrite !write32be_ok, app_nil_r. reflexivity.
Qed.

Lemma sha1_blocks_w pf fuel : forall st p n,
  sha1_blocks pf fuel st p n = wblocks sha1_st 64 (sha1_transform pf) fuel st p n.
Proof.
  induction fuel as [|fuel IH]; intros st p n; [reflexivity|].
  cbn [sha1_blocks wblocks]. destruct (Nat.leb 64 n); [|reflexivity].
  destruct (sha1_transform pf st p); try reflexivity. cbn [bind].
  destruct (padd p 64); try reflexivity. cbn [bind]. apply IH.
Qed.

Lemma sha1_bl_ok pf st l n : (n <= length l)%nat -> bytes l ->
  sha1_bl pf st (Ptr l) n =
  Ok (fold_left SHA1_compress (chunks 64 (firstn n l)) st, Ptr (skipn (64 * (n / 64)) l), (n mod 64)%nat).
Proof.
  intros Hn Hl. unfold sha1_bl. rewrite sha1_blocks_w.
  apply wblocks_ok; [lia| |lia|assumption|assumption]. intros. now apply sha1_transform_ok.
Qed.

Theorem sha1_ok pf : md_ok sha1_st (list N) 64 true SHA1_pad SHA1
  sha1_init (sha1_seed pf) (sha1_bytes pf) (sha1_update pf) (sha1_result pf).
Proof.
  eapply (md_ok_intro sha1_st 64 8 true true pf (sha1_transform pf) (sha1_bl pf) SHA1_compress sha1_bits (list N) SHA1_out) with (iv := SHA1_IV).
  - lia.
  - lia.
  - apply cnt_ok_64.
  - intros. now apply sha1_transform_ok.
  - intros. now apply sha1_bl_ok.
  - intros v. split; [apply be_bytes_bytes|apply be_bytes_length].
  - reflexivity.
  - apply sha1_update_gen.
  - apply sha1_result_gen.
  - intros n. unfold sha1_seed. rewrite write64le_ok. reflexivity.
  - reflexivity.
  - intros l. unfold padm, SHA1_pad, MDpad, sha1_bits. rewrite be64_bits. reflexivity.
  - reflexivity.
Qed.

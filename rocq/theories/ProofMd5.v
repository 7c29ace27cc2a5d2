(* md5_128: the class is an instance of the generic Merkle-Damgard theory, and its
   transform() is the compression function of RFC 1321. *)
From Verif Require Import Base BaseFacts SpecCommon Gen Hasher GenMD Words ModelMd5 SpecMd5.
Open Scope N_scope.

(* ---------- transform ---------- *)
Definition md5_regs (r : nat) : reg4 * reg4 * reg4 * reg4 :=
  match r with
  | 0%nat => (rA, rB, rC, rD) | 1%nat => (rD, rA, rB, rC)
  | 2%nat => (rC, rD, rA, rB) | _ => (rB, rC, rD, rA)
  end.
Definition md5_mk (i : nat) : md5_ins :=
  let '(a, b, c, d) := md5_regs (i mod 4) in
  let ins := match (i / 16)%nat with 0%nat => FF | 1%nat => GG | 2%nat => HH | _ => II end in
  ins a b c d (MD5_k i) (MD5_s i) (nth i MD5_T 0).

Lemma md5_program_ok : md5_program = map md5_mk (seq 0 64).
Proof. vm_compute. reflexivity. Qed.

Definition md5_view (i : nat) (v : md5_st) : MD5_word :=
  let '(a, b, c, d) := md5_regs (i mod 4) in (get4 v a, get4 v b, get4 v c, get4 v d).

Lemma md5_s_range i : (i < 64)%nat -> 0 < MD5_s i /\ MD5_s i < 32.
Proof.
  intros H. assert (HA : forallb (fun i => (0 <? MD5_s i) && (MD5_s i <? 32)) (seq 0 64) = true)
    by (vm_compute; reflexivity).
  rewrite forallb_forall in HA. specialize (HA i). rewrite in_seq in HA.
  apply andb_prop in HA; [|lia]. destruct HA as [A1 A2].
  split; now apply N.ltb_lt.
Qed.

Lemma md5_step_arith f a b c d x s ac : 0 < s -> s < 32 ->
  md5_step f a b c d x s ac =
  ADD 32 b (ROTL 32 s (ADD 32 (ADD 32 (ADD 32 a (f b c d)) x) ac)).
Proof.
  intros H1 H2. unfold md5_step. cbv zeta. rewrite rotl32_ROTL by assumption. change add32 with (ADD 32).
  rewrite (ADD_comm 32 _ b). rewrite !ADD_assoc. reflexivity.
Qed.

Lemma md5_sim x i v : (i < 64)%nat ->
  md5_view (1 + i)%nat (md5_exec x v (md5_mk i)) = MD5_step x (md5_view i v) i.
Proof.
  intros Hi. destruct (md5_s_range i Hi) as [S1 S2].
  unfold md5_view, md5_mk, MD5_step, MD5_F.
  generalize (MD5_k i) (nth i MD5_T 0) (MD5_s i) S1 S2. clear S1 S2. intros k T s S1 S2.
  rewrite <- (Nat.add_mod_idemp_r 1 i) by discriminate.
  assert (Hr : (i mod 4 < 4)%nat) by (apply Nat.mod_upper_bound; discriminate).
  assert (Hq : (i / 16 < 4)%nat) by (apply Nat.div_lt_upper_bound; lia).
  generalize dependent (i mod 4)%nat. generalize dependent (i / 16)%nat. clear Hi i.
  intros q Hq r Hr. destruct v as [[[a b] c] d].
  destruct q as [|[|[|[|q]]]]; try (exfalso; lia);
  destruct r as [|[|[|[|r]]]]; try (exfalso; lia);
  cbn [md5_regs md5_exec get4 set4 Nat.add Nat.modulo Nat.divmod Nat.sub fst snd];
  rewrite md5_step_arith by assumption; reflexivity.
Qed.

Lemma md5_transform_ok pf st l : (64 <= length l)%nat -> bytes l ->
  md5_transform pf st (Ptr l) = Ok (MD5_compress st (firstn 64 l)).
Proof.
  intros HL HB. unfold md5_transform, MD5_compress.
  rewrite (words_of_block (read32le pf) LE 4 16); [|lia|apply read32le_ok|lia|assumption].
  cbn [bind]. change (16 * 4)%nat with 64%nat.
  set (X := map LE (chunks 4 (firstn 64 l))).
  rewrite md5_program_ok, fold_left_map.
  assert (E : fold_left (fun v i => md5_exec X v (md5_mk i)) (seq 0 64) st
            = fold_left (MD5_step X) (seq 0 64) st).
  { pose proof (fold_sim (fun v i => md5_exec X v (md5_mk i)) (MD5_step X) md5_view 64
      (fun i s => md5_sim X i s) 64 0 st (le_n 64)) as Sim.
    assert (V : forall v, md5_view 0 v = v /\ md5_view 64 v = v).
    { intros [[[? ?] ?] ?]. split; reflexivity. }
    rewrite (proj1 (V st)), (proj2 (V _)) in Sim. exact Sim. }
  rewrite E. destruct (fold_left (MD5_step X) (seq 0 64) st) as [[[a b] c] d].
  destruct st as [[[s0 s1] s2] s3]. reflexivity.
Qed.

(* ---------- the class ---------- *)
Definition md5_class (pf : plat) : hasher :=
  {| h_S := bst md5_st; h_R := list N; h_init := md5_init;
     h_seed := md5_seed pf; h_bytes := md5_bytes pf;
     h_update := md5_update pf; h_result := md5_result pf |}.

Definition md5_bl pf (st : md5_st) (p : ptr) (n : nat) := md5_blocks pf n st p n.
Definition md5_bits (n : N) : list N := le_bytes 8 (mul64 n 8).

Lemma md5_update_gen pf :
  md5_update pf = gen_update md5_st 64 true true (2^64) pf (md5_transform pf) (md5_bl pf).
Proof. reflexivity. Qed.

Lemma md5_result_gen pf s :
  md5_result pf s =
  gen_result md5_st 64 8 true true pf (md5_transform pf) (md5_bl pf) md5_bits (list N) MD5_out s.
Proof.
  unfold md5_result, gen_result, md5_bits. rewrite <- md5_update_gen, write64le_ok.
  change (N.of_nat 64) with 64. destruct (assert_ _); try reflexivity. cbn [bind].
  change (64 - 8)%nat with 56%nat. change (64 + 56)%nat with 120%nat. change (64 - 1)%nat with 63%nat.
  destruct (md5_update pf s _ _) as [s1| | |]; try reflexivity. cbn [bind].
  destruct (md5_update pf s1 _ _) as [s2| | |]; try reflexivity. cbn [bind].
  destruct (assert_ _); try reflexivity. cbn [bind].
  destruct (b_st s2) as [[[h0 h1] h2] h3]. unfold MD5_out. cbn [map concat].
  rewrite !write32le_ok, app_nil_r. reflexivity.
Qed.

Lemma md5_blocks_w pf fuel : forall st p n,
  md5_blocks pf fuel st p n = wblocks md5_st 64 (md5_transform pf) fuel st p n.
Proof.
  induction fuel as [|fuel IH]; intros st p n; [reflexivity|].
  cbn [md5_blocks wblocks]. destruct (Nat.leb 64 n); [|reflexivity].
  destruct (md5_transform pf st p); try reflexivity. cbn [bind].
  destruct (padd p 64); try reflexivity. cbn [bind]. apply IH.
Qed.

Lemma md5_bl_ok pf st l n : (n <= length l)%nat -> bytes l ->
  md5_bl pf st (Ptr l) n =
  Ok (fold_left MD5_compress (chunks 64 (firstn n l)) st, Ptr (skipn (64 * (n / 64)) l), (n mod 64)%nat).
Proof.
  intros Hn Hl. unfold md5_bl. rewrite md5_blocks_w.
  apply wblocks_ok; [lia| |lia|assumption|assumption]. intros. now apply md5_transform_ok.
Qed.

Theorem md5_ok pf : md_ok md5_st (list N) 64 true MD5_pad MD5
  md5_init (md5_seed pf) (md5_bytes pf) (md5_update pf) (md5_result pf).
Proof.
  eapply (md_ok_intro md5_st 64 8 true true pf (md5_transform pf) (md5_bl pf) MD5_compress md5_bits (list N) MD5_out) with (iv := MD5_IV).
  - lia.
  - lia.
  - apply cnt_ok_64.
  - intros. now apply md5_transform_ok.
  - intros. now apply md5_bl_ok.
  - intros v. split; [apply le_bytes_bytes|apply le_bytes_length].
  - reflexivity.
  - apply md5_update_gen.
  - apply md5_result_gen.
  - intros n. unfold md5_seed. rewrite write64le_ok. reflexivity.
  - reflexivity.
  - intros l. unfold padm, MD5_pad, MDpad, md5_bits. rewrite le64_bits. reflexivity.
  - reflexivity.
Qed.

(* Consecutive results of murmur3: pairwise distinct from aligned states; the counterexample
   for unaligned ones. *)
From Verif Require Import Base BaseFacts SpecCommon Gen Hasher GenMD Words Loops GenBlk Bits ModelMurmur SpecMurmur ProofMurmur.
Open Scope N_scope.

Lemma fmix32_inj a b : a < 2^32 -> b < 2^32 -> fmix32 a = fmix32 b -> a = b.
Proof.
  intros Ha Hb E. unfold fmix32 in E. cbv zeta in E.
  apply xorshift_inj in E; [|reflexivity].
  apply (mul_inj 32 _ 0x7ed1b41d) in E; [|reflexivity| |]; try (apply lxor_lt; [|apply shiftr_lt]; apply MUL_lt').
  apply xorshift_inj in E; [|reflexivity].
  apply (mul_inj 32 _ 0xa5cb9243) in E; [|reflexivity| |]; try (apply lxor_lt; [|apply shiftr_lt]; assumption).
  apply xorshift_inj in E; [exact E|reflexivity].
Qed.
Lemma fmix64_inj a b : a < 2^64 -> b < 2^64 -> fmix64 a = fmix64 b -> a = b.
Proof.
  intros Ha Hb E. unfold fmix64 in E. cbv zeta in E.
  apply xorshift_inj in E; [|reflexivity].
  apply (mul_inj 64 _ 0x9cb4b2f8129337db) in E; [|reflexivity| |]; try (apply lxor_lt; [|apply shiftr_lt]; apply MUL_lt').
  apply xorshift_inj in E; [|reflexivity].
  apply (mul_inj 64 _ 0x4f74430c22a54005) in E; [|reflexivity| |]; try (apply lxor_lt; [|apply shiftr_lt]; assumption).
  apply xorshift_inj in E; [exact E|reflexivity].
Qed.
Lemma fmix64_lt a : a < 2^64 -> fmix64 a < 2^64.
Proof. intros Ha. unfold fmix64. cbv zeta. apply lxor_lt; [|apply shiftr_lt]; apply MUL_lt'. Qed.

Lemma arun_app {A R} (au : A -> list N -> A) (ar : A -> R * A) o1 : forall o2 a,
  arun au ar a (o1 ++ o2)
  = (fst (arun au ar a o1) ++ fst (arun au ar (snd (arun au ar a o1)) o2),
     snd (arun au ar (snd (arun au ar a o1)) o2)).
Proof.
  induction o1 as [|[p n|] o1 IH]; intros o2 a.
  - cbn [app arun fst snd]. now destruct (arun au ar a o2).
  - cbn [app arun]. apply IH.
  - cbn [app arun]. destruct (ar a) as [r a']. rewrite IH.
    destruct (arun au ar a' o1) as [rs a'']. reflexivity.
Qed.
Section Gm.
Variables (St R : Type) (B : nat) (blk : St -> list N -> St) (final : St -> N -> list N -> R) (cw : N).
Hypothesis HB : (0 < B)%nat.
Definition g_ar (a : ast St) : R * ast St :=
  let '(st, c, l) := a in
  let v := fold_left blk (chunks B l) st in
  (final v ((c + N.of_nat (length l)) mod cw) (rest B l),
   (v, c + N.of_nat (length l + (B - length l mod B)), [])).

Lemma g_results k : forall v c,
  fst (arun ab_au g_ar (v, c, []) (repeat OResult k))
  = map (fun i => final v ((c + N.of_nat (B * i)) mod cw) []) (seq 0 k).
Proof.
  induction k as [|k IH]; intros v c; [reflexivity|].
  cbn [repeat arun seq map]. unfold g_ar at 1. cbn [length].
  rewrite (chunks_short B HB []) by (cbn; lia). rewrite (rest_short B []) by (cbn; lia). cbn [fold_left].
  specialize (IH v (c + N.of_nat (0 + (B - 0 mod B)))).
  destruct (arun ab_au g_ar (v, c + N.of_nat (0 + (B - 0 mod B)), []) (repeat OResult k)) as [rs a].
  cbn [fst] in *. rewrite IH. f_equal.
  - rewrite Nat.mul_0_r. reflexivity.
  - rewrite <- seq_shift, map_map. apply map_ext. intros i. do 2 f_equal.
    rewrite Nat.mod_0_l by lia. lia.
Qed.
Lemma g_results_l st c l k : (length l mod B = 0)%nat ->
  fst (arun ab_au g_ar (st, c, l) (repeat OResult k))
  = map (fun i => final (fold_left blk (chunks B l) st) ((c + N.of_nat (length l) + N.of_nat (B * i)) mod cw) []) (seq 0 k).
Proof.
  intros Hl. destruct k as [|k]; [reflexivity|]. rewrite <- g_results.
  cbn [repeat arun]. unfold g_ar at 1 3. cbn [length].
  rewrite (chunks_short B HB []) by (cbn; lia). rewrite (rest_short B []) by (cbn; lia). cbn [fold_left].
  assert (E : rest B l = []) by (apply length_zero_iff_nil; rewrite rest_length; assumption).
  rewrite E, Hl, Nat.mod_0_l by lia. rewrite N.add_0_r.
  replace (c + N.of_nat (length l) + N.of_nat (0 + (B - 0))) with (c + N.of_nat (length l + (B - 0))) by lia.
  destruct (arun ab_au g_ar _ (repeat OResult k)). reflexivity.
Qed.

(* the pending bytes are the last segment *)
Lemma g_pending ops : forall st c l acc, exists st' c',
  snd (arun ab_au g_ar (st, c, l ++ acc) ops)
  = (st', c', match segments acc ops with [d] => l ++ d | ds => last ds [] end).
Proof.
  induction ops as [|[p n|] ops IH]; intros st c l acc.
  - exists st, c. reflexivity.
  - cbn [arun segments ab_au]. rewrite <- app_assoc. apply IH.
  - cbn [arun segments]. unfold g_ar at 1.
    destruct (IH (fold_left blk (chunks B (l ++ acc)) st)
                 (c + N.of_nat (length (l ++ acc) + (B - length (l ++ acc) mod B))) [] []) as (st' & c' & E).
    cbn [app] in E.
    destruct (arun ab_au g_ar (_, _, []) ops) as [rs a]. cbn [snd] in *. exists st', c'. rewrite E. f_equal.
    pose proof (segments_nonempty [] ops) as NE.
    destruct (segments [] ops) as [|d [|d2 ds]]; [easy|reflexivity|reflexivity].
Qed.
Lemma g_pending0 st c ops : exists st' c',
  snd (arun ab_au g_ar (st, c, []) ops) = (st', c', last (segments [] ops) []).
Proof.
  destruct (g_pending ops st c [] []) as (st' & c' & E). exists st', c'. cbn [app] in E. rewrite E. f_equal.
  pose proof (segments_nonempty [] ops) as NE.
  destruct (segments [] ops) as [|d [|d2 ds]]; [easy|reflexivity|reflexivity].
Qed.
(* an invariant of the chaining value *)
Lemma g_inv (P : St -> Prop) (HP : forall s d, P s -> P (blk s d)) ops : forall st c l,
  P st -> P (fst (fst (snd (arun ab_au g_ar (st, c, l) ops)))).
Proof.
  assert (HF : forall ds s, P s -> P (fold_left blk ds s)).
  { induction ds as [|d ds IH]; intros s Hs; [exact Hs|]. cbn [fold_left]. apply IH, HP, Hs. }
  induction ops as [|[p n|] ops IH]; intros st c l Hst.
  - exact Hst.
  - cbn [arun ab_au]. apply IH, Hst.
  - cbn [arun]. unfold g_ar at 1.
    specialize (IH (fold_left blk (chunks B l) st) (c + N.of_nat (length l + (B - length l mod B))) []
      (HF _ _ Hst)).
    destruct (arun ab_au g_ar _ ops) as [rs a]. exact IH.
Qed.

Lemma g_distinct (P : St -> Prop) W v c k : W <> 0 -> cw <> 0 -> P v ->
  (forall v n n', P v -> n < cw -> n' < cw -> final v n [] = final v n' [] -> n mod W = n' mod W) ->
  cw mod W = 0 -> N.of_nat (B * k) <= W ->
  NoDup (map (fun i => final v ((c + N.of_nat (B * i)) mod cw) []) (seq 0 k)).
Proof.
  intros HW Hcw HP HI Hdiv Hk. apply NoDup_nth_error. intros i j Hi Hij. rewrite map_length, seq_length in Hi.
  destruct (Nat.lt_ge_cases j k) as [Hj|Hj].
  - rewrite !nth_error_map in Hij.
    rewrite !(nth_error_nth' (seq 0 k) 0%nat) in Hij by (rewrite seq_length; assumption).
    rewrite !seq_nth in Hij by assumption. cbn [option_map Nat.add] in Hij. injection Hij as Hij.
    apply HI in Hij; [|exact HP|now apply N.mod_lt|now apply N.mod_lt].
    rewrite !mod_mod_dvd in Hij by assumption.
    assert (G : forall a b, (a < k)%nat -> (b < k)%nat -> (c + N.of_nat (B * a)) mod W = (c + N.of_nat (B * b)) mod W -> (a <= b)%nat).
    { intros a b Ha Hb E. destruct (Nat.le_gt_cases a b) as [|Hba]; [assumption|exfalso].
      set (x := c + N.of_nat (B * b)) in *.
      replace (c + N.of_nat (B * a)) with (x + N.of_nat (B * (a - b))) in E by (unfold x; nia).
      assert (H1 : 0 < N.of_nat (B * (a - b)) < W) by nia.
      set (d := N.of_nat (B * (a - b))) in *. clearbody d x.
      pose proof (N.div_mod (x + d) W HW) as D1. pose proof (N.div_mod x W HW) as D2. rewrite E in D1.
      assert (D3 : W * (x / W) + d = W * ((x + d) / W)) by lia.
      assert (x / W < (x + d) / W) by nia. nia. }
    pose proof (G i j Hi Hj Hij). pose proof (G j i Hj Hi (eq_sym Hij)). lia.
  - exfalso. rewrite (proj2 (nth_error_None (map _ _) j)) in Hij by (rewrite map_length, seq_length; lia).
    apply nth_error_None in Hij. rewrite map_length, seq_length in Hij. lia.
Qed.
End Gm.

(* ------------------------------------------------------------------ murmur3_32 *)
Lemma mur32_final_inj v n n' : v < 2^32 -> Mur32_final v n [] = Mur32_final v n' [] -> n mod 2^32 = n' mod 2^32.
Proof.
  intros Hv E. unfold Mur32_final in E. change (Mur32_k (LE [])) with 0 in E. rewrite N.lxor_0_r in E.
  assert (L : forall m, m mod 2^32 < 2^32) by (intros m; apply N.mod_lt; discriminate).
  apply fmix32_inj in E; [|apply lxor_lt; [exact Hv|apply L]|apply lxor_lt; [exact Hv|apply L]].
  now apply lxor_inj_l in E.
Qed.
Lemma mur32_start_lt cw c : valid_ctor c -> exists st c0, mur32_start cw c = (st, c0, []) /\ st < 2^32.
Proof.
  intros HC. destruct c as [|n|p n]; cbn [mur32_start valid_ctor] in *.
  - do 2 eexists. split; [reflexivity|]. reflexivity.
  - do 2 eexists. split; [reflexivity|]. destruct (N.eqb_spec (n / 2^32) 0) as [E|E].
    + apply N.div_small_iff in E; [exact E|discriminate].
    + apply ADD_lt'.
  - pose proof (valid_data _ _ _ HC) as [Hb Hl]. cbv zeta.
    assert (LL : forall l, bytes l -> (length l <= 4)%nat -> LE l < 2^32).
    { intros l Hbl Hll. change LE with le_val. pose proof (le_val_bound l Hbl) as Hv.
      assert (256 ^ N.of_nat (length l) <= 256 ^ 4) by (apply N.pow_le_mono_r; lia).
      change (256^4) with (2^32) in *. lia. }
    destruct (Nat.leb_spec n 4) as [H|H].
    + do 2 eexists. split; [reflexivity|]. apply LL; [exact Hb|lia].
    + unfold mur32_ar. cbn [snd]. do 2 eexists. split; [reflexivity|].
      assert (G : forall ds s, s < 2^32 -> fold_left Mur32_block ds s < 2^32).
      { induction ds as [|d ds IH]; intros s Hs; [exact Hs|]. cbn [fold_left]. apply IH, ADD_lt'. }
      apply G, LL; [now apply bytes_firstn|]. rewrite firstn_length. lia.
Qed.

Theorem mur32_results_distinct cw le junk c ops k :
  cw = 2^32 \/ cw = 2^64 -> length junk = 4%nat -> valid_ctor c -> Forall (valid_op true) ops ->
  (length (last (segments [] ops) []) mod 4 = 0)%nat -> N.of_nat k <= 2^30 ->
  exists rs rs', session (mur32_class cw le junk) c ops = Ok rs /\
    session (mur32_class cw le junk) c (ops ++ repeat OResult k) = Ok (rs ++ rs') /\
    length rs' = k /\ NoDup rs'.
Proof.
  intros Hcw HJ HC HO HL Hk.
  assert (HO2 : Forall (valid_op true) (ops ++ repeat OResult k)).
  { apply Forall_app. split; [exact HO|]. apply Forall_forall. intros o Ho. apply repeat_spec in Ho. now subst. }
  pose proof (mur32_exec cw Hcw le junk c ops HJ HC HO) as (s1 & E1 & _).
  pose proof (mur32_exec cw Hcw le junk c (ops ++ repeat OResult k) HJ HC HO2) as (s2 & E2 & _).
  pose proof (mur32_refines cw Hcw le junk) as RF.
  pose proof (arun_segments ab_au (mur32_ar cw) (rf_nil _ _ _ _ _ _ _ RF) (rf_app _ _ _ _ _ _ _ RF)) as AS.
  rewrite <- AS, (rf_nil _ _ _ _ _ _ _ RF) in E1. rewrite <- AS, (rf_nil _ _ _ _ _ _ _ RF) in E2.
  rewrite arun_app in E2. cbn [fst] in E2.
  exists (fst (arun ab_au (mur32_ar cw) (mur32_start cw c) ops)).
  exists (fst (arun ab_au (mur32_ar cw) (snd (arun ab_au (mur32_ar cw) (mur32_start cw c) ops)) (repeat OResult k))).
  split; [exact (session_ok _ _ _ _ _ E1)|]. split; [exact (session_ok _ _ _ _ _ E2)|].
  destruct (mur32_start_lt cw c HC) as (st & c0 & -> & Hst).
  change (mur32_ar cw) with (g_ar N N 4 Mur32_block Mur32_final cw).
  destruct (g_pending0 N N 4 Mur32_block Mur32_final cw st c0 ops) as (st' & c' & E').
  pose proof (g_inv N N 4 Mur32_block Mur32_final cw (fun s => s < 2^32) (fun s d _ => ADD_lt' 32 _ _) ops st c0 [] Hst) as Hinv.
  rewrite E' in *. cbn [fst] in Hinv. set (l := last (segments [] ops) []) in *.
  rewrite g_results_l by (lia || exact HL). split; [now rewrite map_length, seq_length|].
  apply (g_distinct N N 4 Mur32_block Mur32_final cw ltac:(lia) (fun s => s < 2^32) (2^32)).
  - discriminate.
  - destruct Hcw as [-> | ->]; discriminate.
  - assert (G : forall ds s, s < 2^32 -> fold_left Mur32_block ds s < 2^32).
    { induction ds as [|d ds IH]; intros s Hs; [exact Hs|]. cbn [fold_left]. apply IH, ADD_lt'. }
    apply G, Hinv.
  - intros v n n' Hv _ _. now apply mur32_final_inj.
  - destruct Hcw as [-> | ->]; reflexivity.
  - change (2^32) with (4 * 2^30). lia.
Qed.

(* Unaligned pending bytes: the three bytes 0x85 0xFD 0x95 make the first result equal to the
   126th (a result may coincide with a later one). *)
Theorem mur32_results_repeat cw le junk : cw = 2^32 \/ cw = 2^64 -> length junk = 4%nat ->
  exists rs, session (mur32_class cw le junk) CDefault
      (OUpdate (Ptr [0x85; 0xFD; 0x95]) 3 :: repeat OResult 126) = Ok rs /\
    nth_error rs 0 = nth_error rs 125 /\ nth_error rs 0 <> None.
Proof.
  intros Hcw HJ.
  assert (HO : Forall (valid_op true) (OUpdate (Ptr [0x85; 0xFD; 0x95]) 3 :: repeat OResult 126)).
  { constructor; [split; [cbn; lia|repeat constructor]|].
    apply Forall_forall. intros o Ho. apply repeat_spec in Ho. now subst. }
  pose proof (mur32_exec cw Hcw le junk CDefault _ HJ I HO) as (s & E & _).
  eexists. split; [exact (session_ok _ _ _ _ _ E)|].
  destruct Hcw as [-> | ->]; vm_compute; split; congruence.
Qed.

(* ------------------------------------------------------------------ murmur3_128 *)
Lemma app_inj_len {A} (a b c d : list A) : length a = length c -> a ++ b = c ++ d -> a = c /\ b = d.
Proof.
  revert c; induction a as [|x a IH]; intros [|y c] HL E; try discriminate; [now split|].
  cbn [app length] in *. injection E as -> E. destruct (IH c ltac:(lia) E) as [-> ->]. now split.
Qed.
Lemma mur128_final_inj h1 h2 n n' : h1 < 2^64 -> h2 < 2^64 -> n < 2^64 -> n' < 2^64 ->
  Mur128_final (h1, h2) n [] = Mur128_final (h1, h2) n' [] -> n = n'.
Proof.
  intros H1 H2 Hn Hn' E. unfold Mur128_final in E. cbv zeta in E.
  change (Mur128_k2 (LE (skipn 8 []))) with 0 in E. change (Mur128_k1 (LE (firstn 8 []))) with 0 in E.
  rewrite !N.lxor_0_r in E.
  assert (X1 : N.lxor h2 n < 2^64) by now apply lxor_lt.
  assert (X2 : N.lxor h2 n' < 2^64) by now apply lxor_lt.
  set (a := ADD 64 (N.lxor h1 n) (N.lxor h2 n)) in *. set (a' := ADD 64 (N.lxor h1 n') (N.lxor h2 n')) in *.
  assert (La : a < 2^64) by apply ADD_lt'. assert (La' : a' < 2^64) by apply ADD_lt'. clearbody a a'.
  set (b := ADD 64 (N.lxor h2 n) a) in *. set (b' := ADD 64 (N.lxor h2 n') a') in *.
  assert (Lb : b < 2^64) by apply ADD_lt'. assert (Lb' : b' < 2^64) by apply ADD_lt'.
  apply app_inj_len in E; [|change toLE with le_bytes; now rewrite !le_bytes_length].
  destruct E as [E1 E2]. change toLE with le_bytes in *.
  assert (T : forall u v, u < 2^64 -> v < 2^64 -> le_bytes 8 u = le_bytes 8 v -> u = v).
  { intros u v Hu Hv. now apply le_bytes_inj. }
  apply T in E1; [|apply ADD_lt'|apply ADD_lt']. apply T in E2; [|apply ADD_lt'|apply ADD_lt'].
  rewrite E1 in E2. apply add_inj_r in E2; [|now apply fmix64_lt|now apply fmix64_lt].
  rewrite E2 in E1. apply add_inj_r in E1; [|now apply fmix64_lt|now apply fmix64_lt].
  apply fmix64_inj in E1; [|assumption|assumption]. apply fmix64_inj in E2; [|assumption|assumption].
  subst a'. unfold b, b' in E2. apply add_inj_r in E2; [|assumption|assumption].
  now apply lxor_inj_l in E2.
Qed.
Definition lt2 (s : N * N) : Prop := fst s < 2^64 /\ snd s < 2^64.
Lemma mur128_block_lt s d : lt2 (Mur128_block s d).
Proof. destruct s as [h1 h2]. unfold Mur128_block. cbv zeta. split; apply ADD_lt'. Qed.
Lemma mur128_fold_lt ds : forall s, lt2 s -> lt2 (fold_left Mur128_block ds s).
Proof. induction ds as [|d ds IH]; intros s Hs; [exact Hs|]. cbn [fold_left]. apply IH, mur128_block_lt. Qed.
Lemma mur128_start_lt cw c : valid_ctor c -> exists st c0, mur128_start cw c = (st, c0, []) /\ lt2 st.
Proof.
  intros HC. destruct c as [|n|p n]; cbn [mur128_start valid_ctor] in *.
  - do 2 eexists. split; [reflexivity|]. split; reflexivity.
  - do 2 eexists. split; [reflexivity|]. split; assumption.
  - pose proof (valid_data _ _ _ HC) as [Hb Hl]. cbv zeta.
    assert (LL : forall l, bytes l -> (length l <= 8)%nat -> LE l < 2^64).
    { intros l Hbl Hll. change LE with le_val. pose proof (le_val_bound l Hbl) as Hv.
      assert (256 ^ N.of_nat (length l) <= 256 ^ 8) by (apply N.pow_le_mono_r; lia).
      change (256^8) with (2^64) in *. lia. }
    destruct (Nat.leb_spec n 8) as [H|H]; [|destruct (Nat.leb_spec n 16) as [H'|H']].
    + do 2 eexists. split; [reflexivity|]. split; apply LL; assumption || (cbn [fst snd]; lia).
    + do 2 eexists. split; [reflexivity|].
      split; cbn [fst snd]; apply LL; try (now apply bytes_firstn); try (now apply bytes_skipn);
        rewrite ?firstn_length, ?skipn_length; lia.
    + unfold mur128_ar. cbn [snd]. do 2 eexists. split; [reflexivity|]. apply mur128_fold_lt.
      split; cbn [fst snd]; apply LL; try (now apply bytes_firstn); try (now apply bytes_firstn, bytes_skipn);
        rewrite ?firstn_length, ?skipn_length; lia.
Qed.

Theorem mur128_results_distinct cw le junk c ops k :
  cw = 2^32 \/ cw = 2^64 -> length junk = 16%nat -> valid_ctor c -> Forall (valid_op true) ops ->
  (length (last (segments [] ops) []) mod 16 = 0)%nat -> 16 * N.of_nat k <= cw ->
  exists rs rs', session (mur128_class cw le junk) c ops = Ok rs /\
    session (mur128_class cw le junk) c (ops ++ repeat OResult k) = Ok (rs ++ rs') /\
    length rs' = k /\ NoDup rs'.
Proof.
  intros Hcw HJ HC HO HL Hk.
  assert (HO2 : Forall (valid_op true) (ops ++ repeat OResult k)).
  { apply Forall_app. split; [exact HO|]. apply Forall_forall. intros o Ho. apply repeat_spec in Ho. now subst. }
  pose proof (mur128_exec cw Hcw le junk c ops HJ HC HO) as (s1 & E1 & _).
  pose proof (mur128_exec cw Hcw le junk c (ops ++ repeat OResult k) HJ HC HO2) as (s2 & E2 & _).
  pose proof (mur128_refines cw Hcw le junk) as RF.
  pose proof (arun_segments ab_au (mur128_ar cw) (rf_nil _ _ _ _ _ _ _ RF) (rf_app _ _ _ _ _ _ _ RF)) as AS.
  rewrite <- AS, (rf_nil _ _ _ _ _ _ _ RF) in E1. rewrite <- AS, (rf_nil _ _ _ _ _ _ _ RF) in E2.
  rewrite arun_app in E2. cbn [fst] in E2.
  exists (fst (arun ab_au (mur128_ar cw) (mur128_start cw c) ops)).
  exists (fst (arun ab_au (mur128_ar cw) (snd (arun ab_au (mur128_ar cw) (mur128_start cw c) ops)) (repeat OResult k))).
  split; [exact (session_ok _ _ _ _ _ E1)|]. split; [exact (session_ok _ _ _ _ _ E2)|].
  destruct (mur128_start_lt cw c HC) as (st & c0 & -> & Hst).
  change (mur128_ar cw) with (g_ar (N * N) (list N) 16 Mur128_block Mur128_final cw).
  destruct (g_pending0 (N * N) (list N) 16 Mur128_block Mur128_final cw st c0 ops) as (st' & c' & E').
  pose proof (g_inv (N * N) (list N) 16 Mur128_block Mur128_final cw lt2 (fun s d _ => mur128_block_lt s d) ops st c0 [] Hst) as Hinv.
  rewrite E' in *. cbn [fst] in Hinv. set (l := last (segments [] ops) []) in *.
  rewrite g_results_l by (lia || exact HL). split; [now rewrite map_length, seq_length|].
  assert (C0 : cw <> 0) by (destruct Hcw as [-> | ->]; discriminate).
  apply (g_distinct (N * N) (list N) 16 Mur128_block Mur128_final cw ltac:(lia) lt2 cw).
  - exact C0.
  - exact C0.
  - now apply mur128_fold_lt.
  - intros [v1 v2] n n' [Hv1 Hv2] Hn Hn' E. cbn [fst snd] in *. f_equal.
    apply (mur128_final_inj v1 v2); try assumption; eapply N.lt_le_trans; try eassumption;
      destruct Hcw as [-> | ->]; discriminate.
  - now apply N.mod_same.
  - lia.
Qed.

(* Unaligned pending bytes: a 15-byte message whose first result equals its 387th. *)
Definition mur128_rep_msg : list N := [0xF3; 0x61; 0xC3; 0x00; 0x60; 0x93; 0x65; 0x1E; 0x87; 0x79; 0x52; 0x97; 0xC9; 0x90; 0x26].
Theorem mur128_results_repeat cw le junk : cw = 2^32 \/ cw = 2^64 -> length junk = 16%nat ->
  exists rs, session (mur128_class cw le junk) CDefault
      (OUpdate (Ptr mur128_rep_msg) 15 :: repeat OResult 387) = Ok rs /\
    nth_error rs 0 = nth_error rs 386 /\ nth_error rs 0 <> None.
Proof.
  intros Hcw HJ.
  assert (HO : Forall (valid_op true) (OUpdate (Ptr mur128_rep_msg) 15 :: repeat OResult 387)).
  { constructor; [split; [cbn; lia|repeat constructor]|].
    apply Forall_forall. intros o Ho. apply repeat_spec in Ho. now subst. }
  pose proof (mur128_exec cw Hcw le junk CDefault _ HJ I HO) as (s & E & _).
  eexists. split; [exact (session_ok _ _ _ _ _ E)|].
  destruct Hcw as [-> | ->]; vm_compute; split; congruence.
Qed.

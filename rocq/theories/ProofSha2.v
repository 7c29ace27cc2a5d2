(* The SHA-2 classes: instances of the generic theory; transform() is the FIPS 180-4
   compression function. *)
From Verif Require Import Base BaseFacts SpecCommon Gen Hasher GenMD Words ModelSha2 SpecSha2.
Open Scope N_scope.

Lemma wloop_ok f W n cnt : forall a,
  length W = n -> (a + cnt <= n)%nat ->
  (forall t, (a <= t < a + cnt)%nat -> f (firstn t W ++ zeros (n - t)) t = Ok (nth t W 0)) ->
  wloop f a cnt (firstn a W ++ zeros (n - a))
  = Ok (firstn (a + cnt) W ++ zeros (n - (a + cnt))).
Proof.
  induction cnt as [|cnt IH]; intros a HL Hle Hf.
  - cbn [wloop]. rewrite Nat.add_0_r. reflexivity.
  - cbn [wloop]. rewrite Hf by lia. cbn [bind].
    rewrite (arr_part_store W n a (nth a W 0) HL) by (apply nth_error_nth'; lia). cbn [bind].
    rewrite IH; [|assumption|lia|intros; apply Hf; lia].
    replace (S a + cnt)%nat with (a + S cnt)%nat by lia. reflexivity.
Qed.

Lemma aget_part W n t j : (j < t)%nat -> (t <= length W)%nat ->
  aget (firstn t W ++ zeros n) j = Ok (nth j W 0).
Proof. intros H1 H2. unfold aget. now rewrite arr_part_get. Qed.
Lemma aget_ok W j : (j < length W)%nat -> aget W j = Ok (nth j W 0).
Proof. intros H. unfold aget. now rewrite (nth_error_nth' W 0 H). Qed.

Lemma nth_firstn_lt2 (W : list N) i j : (j < i)%nat -> nth j (firstn i W) 0 = nth j W 0.
Proof.
  intros H. destruct (Nat.lt_ge_cases j (length W)) as [Hj|Hj].
  - rewrite <- (firstn_skipn i W) at 2. rewrite app_nth1; [reflexivity|]. rewrite firstn_length. lia.
  - rewrite !nth_overflow; [reflexivity|lia|rewrite firstn_length; lia].
Qed.

Lemma be_bytes_split k1 k2 v :
  be_bytes (k1 + k2) v = be_bytes k2 (v / 256 ^ N.of_nat k1) ++ be_bytes k1 v.
Proof.
  unfold be_bytes. rewrite <- rev_app_distr. f_equal.
  revert v; induction k1 as [|k IH]; intros v.
  - cbn [Nat.add le_bytes app N.of_nat]. now rewrite N.pow_0_r, N.div_1_r.
  - cbn [Nat.add le_bytes app]. f_equal. rewrite IH.
    rewrite Nat2N.inj_succ, N.pow_succ_r', N.div_div by (try apply N.pow_nonzero; discriminate). reflexivity.
Qed.
Lemma be_bytes_mod k v : be_bytes k (v mod 256 ^ N.of_nat k) = be_bytes k v.
Proof. unfold be_bytes. now rewrite le_bytes_mod. Qed.

(* ------------------------------------------------------------------ the 256 family *)
Lemma K256_eq : K F256 = sha256_K.
Proof. vm_compute. reflexivity. Qed.
Definition comp256 := compress_with F256 sha256_K.
Lemma comp256_eq st b : comp256 st b = compress F256 st b.
Proof. unfold comp256, compress. now rewrite K256_eq. Qed.

Definition wf256 (W : list N) : N :=
  let t := length W in
  ADD 32 (ADD 32 (ADD 32 (sigma F256 (s1 F256) (nth (t - 2) W 0)) (nth (t - 7) W 0))
    (sigma F256 (s0 F256) (nth (t - 15) W 0))) (nth (t - 16) W 0).
Lemma extend256_ext n W : extend F256 n W = ext wf256 n W.
Proof. reflexivity. Qed.

Section Block256.
Variable l : list N.
Hypothesis HL : (64 <= length l)%nat.
Hypothesis Hb : bytes l.
Let W0 := map BE (chunks 4 (firstn 64 l)).
Variable W : list N.
Hypothesis W_eq : W = ext wf256 48 W0.

Lemma W0_len256 : length W0 = 16%nat.
Proof. apply (block_words_length 4 16); [lia|]. rewrite firstn_length_le; lia. Qed.
Lemma W_len256 : length W = 64%nat.
Proof. rewrite W_eq, ext_length, W0_len256. reflexivity. Qed.

Lemma W_old256 i : (i < 16)%nat -> nth i W 0 = be_val (firstn 4 (skipn (i * 4) l)).
Proof.
  intros Hi. apply nth_error_nth. rewrite W_eq.
  rewrite ext_old by (rewrite W0_len256; lia).
  unfold W0. rewrite (chunks_seq 4 ltac:(lia) 16) by (rewrite firstn_length_le; lia).
  rewrite map_map, nth_error_map.
  rewrite (nth_error_nth' _ 0%nat) by (rewrite seq_length; lia). cbn [option_map].
  rewrite seq_nth by lia. cbn [Nat.add]. rewrite firstn_skipn_firstn by lia. reflexivity.
Qed.

Lemma W_new256 i : (16 <= i < 64)%nat -> nth i W 0 =
  ADD 32 (ADD 32 (ADD 32 (sigma F256 (s1 F256) (nth (i - 2) W 0)) (nth (i - 7) W 0))
    (sigma F256 (s0 F256) (nth (i - 15) W 0))) (nth (i - 16) W 0).
Proof.
  intros Hi. apply nth_error_nth. rewrite W_eq at 1.
  replace i with (length W0 + (i - 16))%nat at 1 by (rewrite W0_len256; lia).
  rewrite ext_next by lia. rewrite W0_len256. replace (16 + (i - 16))%nat with i by lia.
  rewrite <- W_eq.
  unfold wf256. rewrite (firstn_length_le W (n:=i)) by (rewrite W_len256; lia).
  rewrite !nth_firstn_lt2 by lia. reflexivity.
Qed.

Lemma rounds256_ok k : forall t v, (t + k <= 64)%nat ->
  sha256_rounds W t k v = Ok (fold_left (step F256 sha256_K W) (seq t k) v).
Proof.
  induction k as [|k IH]; intros t v Hk; [reflexivity|].
  cbn [sha256_rounds seq fold_left].
  assert (E : sha256_round W v t = Ok (step F256 sha256_K W v t)).
  { unfold sha256_round. destruct v as [[[[[[[a b] c] d] e] f] g] h].
    rewrite aget_ok by (change (length sha256_K) with 64%nat; lia). cbn [bind].
    rewrite aget_ok by (rewrite W_len256; lia). cbn [bind].
    unfold sha256_Sigma0, sha256_Sigma1. rewrite !rotr32_ROTR by reflexivity. reflexivity. }
  rewrite E. cbn [bind]. apply IH. lia.
Qed.

Lemma load256_ok : wloop (fun _ t => q <- padd (Ptr l) (t * 4) ;; read32be q) 0 16 (zeros 64)
  = Ok (firstn 16 W ++ zeros (64 - 16)).
Proof.
  apply (wloop_ok (fun _ t => q <- padd (Ptr l) (t * 4) ;; read32be q) W 64 16 0).
  - apply W_len256.
  - lia.
  - intros t Ht. rewrite padd_ok by lia. cbn [bind].
    rewrite read32be_ok; [|rewrite skipn_length; lia|now apply bytes_skipn].
    rewrite W_old256 by lia. reflexivity.
Qed.

Lemma sched256_ok : wloop (fun W t =>
         w2 <- aget W (t - 2) ;; w7 <- aget W (t - 7) ;;
         w15 <- aget W (t - 15) ;; w16 <- aget W (t - 16) ;;
         Ok (add32 (add32 (add32 (sha256_sigma1 w2) w7) (sha256_sigma0 w15)) w16)) 16 48
      (firstn 16 W ++ zeros (64 - 16)) = Ok W.
Proof.
  rewrite (wloop_ok _ W 64 48 16).
  - change (16 + 48)%nat with 64%nat. rewrite Nat.sub_diag, firstn_all2 by (rewrite W_len256; lia).
    now rewrite app_nil_r.
  - apply W_len256.
  - lia.
  - intros t Ht. pose proof W_len256 as WL. rewrite !aget_part by lia. cbn [bind].
    unfold sha256_sigma0, sha256_sigma1. rewrite !rotr32_ROTR by reflexivity.
    rewrite (W_new256 t) by lia. reflexivity.
Qed.
End Block256.

Lemma sha256_transform_ok pf st l : (64 <= length l)%nat -> bytes l ->
  sha256_transform pf st (Ptr l) = Ok (comp256 st (firstn 64 l)).
Proof.
  intros HL Hb. unfold sha256_transform, comp256, compress_with.
  assert (EW : schedule F256 (firstn 64 l) = ext wf256 48 (map BE (chunks 4 (firstn 64 l))))
    by exact (extend256_ext 48 _).
  revert EW. generalize (schedule F256 (firstn 64 l)) as W. intros W EW.
  rewrite (load256_ok l HL Hb W EW). cbn [bind].
  rewrite (sched256_ok l HL W EW). cbn [bind].
  rewrite (rounds256_ok l HL W EW 64 0 st (le_n _)). cbn [bind].
  change (rounds F256) with 64%nat.
  destruct (fold_left (step F256 sha256_K W) (seq 0 64) st) as [[[[[[[a b] c] d] e] f] g] h].
  destruct st as [[[[[[[t0 t1] t2] t3] t4] t5] t6] t7]. reflexivity.
Qed.

Definition sha256_bl pf (st : sha256_st) (p : ptr) (n : nat) := sha256_blocks pf n st p n.

Lemma sha256_update_gen pf :
  sha256_update pf = gen_update sha256_st 64 false true (2^64) pf (sha256_transform pf) (sha256_bl pf).
Proof. reflexivity. Qed.

Lemma sha256_blocks_w pf fuel : forall st p n,
  sha256_blocks pf fuel st p n = wblocks sha256_st 64 (sha256_transform pf) fuel st p n.
Proof.
  induction fuel as [|fuel IH]; intros st p n; [reflexivity|].
  cbn [sha256_blocks wblocks]. destruct (Nat.leb 64 n); [|reflexivity].
  destruct (sha256_transform pf st p); try reflexivity. cbn [bind].
  destruct (padd p 64); try reflexivity. cbn [bind]. apply IH.
Qed.

Lemma sha256_bl_ok pf st l n : (n <= length l)%nat -> bytes l ->
  sha256_bl pf st (Ptr l) n =
  Ok (fold_left comp256 (chunks 64 (firstn n l)) st, Ptr (skipn (64 * (n / 64)) l), (n mod 64)%nat).
Proof.
  intros Hn Hl. unfold sha256_bl. rewrite sha256_blocks_w.
  apply wblocks_ok; [lia| |lia|assumption|assumption]. intros. now apply sha256_transform_ok.
Qed.
Definition sha256_bits (n : N) : list N := be_bytes 8 (mul64 n 8).
Lemma sha256_bits_ok v : bytes (sha256_bits v) /\ length (sha256_bits v) = 8%nat.
Proof.
  unfold sha256_bits. split; [apply be_bytes_bytes|rewrite ?app_length, be_bytes_length; reflexivity].
Qed.

(* the FIPS padding with the length field as the code writes it *)
Definition pad256 (l : list N) : list N := MDpad 64 8 (fun b => toBE 8 b) l.
Lemma pad256_ok l : padm 64 8 sha256_bits l = pad256 l.
Proof. unfold padm, pad256, MDpad, sha256_bits. rewrite be64_bits. reflexivity. Qed.

Lemma fold_comp256 bs st : fold_left comp256 bs st = fold_left (compress F256) bs st.
Proof. apply fold_left_ext. intros. apply comp256_eq. Qed.

Lemma pad256_std l : pad256 l = pad F256 l.
Proof. reflexivity. Qed.

(* ------------------------------------------------------------------ the 512 family *)
Lemma K512_eq : K F512 = sha512_K.
Proof. vm_compute. reflexivity. Qed.
Definition comp512 := compress_with F512 sha512_K.
Lemma comp512_eq st b : comp512 st b = compress F512 st b.
Proof. unfold comp512, compress. now rewrite K512_eq. Qed.

Definition wf512 (W : list N) : N :=
  let t := length W in
  ADD 64 (ADD 64 (ADD 64 (sigma F512 (s1 F512) (nth (t - 2) W 0)) (nth (t - 7) W 0))
    (sigma F512 (s0 F512) (nth (t - 15) W 0))) (nth (t - 16) W 0).
Lemma extend512_ext n W : extend F512 n W = ext wf512 n W.
Proof. reflexivity. Qed.

Section Block512.
Variable l : list N.
Hypothesis HL : (128 <= length l)%nat.
Hypothesis Hb : bytes l.
Let W0 := map BE (chunks 8 (firstn 128 l)).
Variable W : list N.
Hypothesis W_eq : W = ext wf512 64 W0.

Lemma W0_len512 : length W0 = 16%nat.
Proof. apply (block_words_length 8 16); [lia|]. rewrite firstn_length_le; lia. Qed.
Lemma W_len512 : length W = 80%nat.
Proof. rewrite W_eq, ext_length, W0_len512. reflexivity. Qed.

Lemma W_old512 i : (i < 16)%nat -> nth i W 0 = be_val (firstn 8 (skipn (i * 8) l)).
Proof.
  intros Hi. apply nth_error_nth. rewrite W_eq.
  rewrite ext_old by (rewrite W0_len512; lia).
  unfold W0. rewrite (chunks_seq 8 ltac:(lia) 16) by (rewrite firstn_length_le; lia).
  rewrite map_map, nth_error_map.
  rewrite (nth_error_nth' _ 0%nat) by (rewrite seq_length; lia). cbn [option_map].
  rewrite seq_nth by lia. cbn [Nat.add]. rewrite firstn_skipn_firstn by lia. reflexivity.
Qed.

Lemma W_new512 i : (16 <= i < 80)%nat -> nth i W 0 =
  ADD 64 (ADD 64 (ADD 64 (sigma F512 (s1 F512) (nth (i - 2) W 0)) (nth (i - 7) W 0))
    (sigma F512 (s0 F512) (nth (i - 15) W 0))) (nth (i - 16) W 0).
Proof.
  intros Hi. apply nth_error_nth. rewrite W_eq at 1.
  replace i with (length W0 + (i - 16))%nat at 1 by (rewrite W0_len512; lia).
  rewrite ext_next by lia. rewrite W0_len512. replace (16 + (i - 16))%nat with i by lia.
  rewrite <- W_eq.
  unfold wf512. rewrite (firstn_length_le W (n:=i)) by (rewrite W_len512; lia).
  rewrite !nth_firstn_lt2 by lia. reflexivity.
Qed.

Lemma rounds512_ok k : forall t v, (t + k <= 80)%nat ->
  sha512_rounds W t k v = Ok (fold_left (step F512 sha512_K W) (seq t k) v).
Proof.
  induction k as [|k IH]; intros t v Hk; [reflexivity|].
  cbn [sha512_rounds seq fold_left].
  assert (E : sha512_round W v t = Ok (step F512 sha512_K W v t)).
  { unfold sha512_round. destruct v as [[[[[[[a b] c] d] e] f] g] h].
    rewrite aget_ok by (change (length sha512_K) with 80%nat; lia). cbn [bind].
    rewrite aget_ok by (rewrite W_len512; lia). cbn [bind].
    unfold sha512_Sigma0, sha512_Sigma1. rewrite !rotr64_ROTR by reflexivity. reflexivity. }
  rewrite E. cbn [bind]. apply IH. lia.
Qed.

Lemma load512_ok : wloop (fun _ t => q <- padd (Ptr l) (t * 8) ;; read64be q) 0 16 (zeros 80)
  = Ok (firstn 16 W ++ zeros (80 - 16)).
Proof.
  apply (wloop_ok (fun _ t => q <- padd (Ptr l) (t * 8) ;; read64be q) W 80 16 0).
  - apply W_len512.
  - lia.
  - intros t Ht. rewrite padd_ok by lia. cbn [bind].
    rewrite read64be_ok; [|rewrite skipn_length; lia|now apply bytes_skipn].
    rewrite W_old512 by lia. reflexivity.
Qed.

Lemma sched512_ok : wloop (fun W t =>
         w2 <- aget W (t - 2) ;; w7 <- aget W (t - 7) ;;
         w15 <- aget W (t - 15) ;; w16 <- aget W (t - 16) ;;
         Ok (add64 (add64 (add64 (sha512_sigma1 w2) w7) (sha512_sigma0 w15)) w16)) 16 64
      (firstn 16 W ++ zeros (80 - 16)) = Ok W.
Proof.
  rewrite (wloop_ok _ W 80 64 16).
  - change (16 + 64)%nat with 80%nat. rewrite Nat.sub_diag, firstn_all2 by (rewrite W_len512; lia).
    now rewrite app_nil_r.
  - apply W_len512.
  - lia.
  - intros t Ht. pose proof W_len512 as WL. rewrite !aget_part by lia. cbn [bind].
    unfold sha512_sigma0, sha512_sigma1. rewrite !rotr64_ROTR by reflexivity.
    rewrite (W_new512 t) by lia. reflexivity.
Qed.
End Block512.

Lemma sha512_transform_ok pf st l : (128 <= length l)%nat -> bytes l ->
  sha512_transform pf st (Ptr l) = Ok (comp512 st (firstn 128 l)).
Proof.
  intros HL Hb. unfold sha512_transform, comp512, compress_with.
  assert (EW : schedule F512 (firstn 128 l) = ext wf512 64 (map BE (chunks 8 (firstn 128 l))))
    by exact (extend512_ext 64 _).
  revert EW. generalize (schedule F512 (firstn 128 l)) as W. intros W EW.
  rewrite (load512_ok l HL Hb W EW). cbn [bind].
  rewrite (sched512_ok l HL W EW). cbn [bind].
  rewrite (rounds512_ok l HL W EW 80 0 st (le_n _)). cbn [bind].
  change (rounds F512) with 80%nat.
  destruct (fold_left (step F512 sha512_K W) (seq 0 80) st) as [[[[[[[a b] c] d] e] f] g] h].
  destruct st as [[[[[[[t0 t1] t2] t3] t4] t5] t6] t7]. reflexivity.
Qed.

Definition sha512_bl pf (st : sha512_st) (p : ptr) (n : nat) := sha512_blocks pf n st p n.

Lemma sha512_update_gen pf :
  sha512_update pf = gen_update sha512_st 128 false true (2^64) pf (sha512_transform pf) (sha512_bl pf).
Proof. reflexivity. Qed.

Lemma sha512_blocks_w pf fuel : forall st p n,
  sha512_blocks pf fuel st p n = wblocks sha512_st 128 (sha512_transform pf) fuel st p n.
Proof.
  induction fuel as [|fuel IH]; intros st p n; [reflexivity|].
  cbn [sha512_blocks wblocks]. destruct (Nat.leb 128 n); [|reflexivity].
  destruct (sha512_transform pf st p); try reflexivity. cbn [bind].
  destruct (padd p 128); try reflexivity. cbn [bind]. apply IH.
Qed.

Lemma sha512_bl_ok pf st l n : (n <= length l)%nat -> bytes l ->
  sha512_bl pf st (Ptr l) n =
  Ok (fold_left comp512 (chunks 128 (firstn n l)) st, Ptr (skipn (128 * (n / 128)) l), (n mod 128)%nat).
Proof.
  intros Hn Hl. unfold sha512_bl. rewrite sha512_blocks_w.
  apply wblocks_ok; [lia| |lia|assumption|assumption]. intros. now apply sha512_transform_ok.
Qed.
Definition sha512_bits (n : N) : list N := zeros 8 ++ be_bytes 8 (mul64 n 8).
Lemma sha512_bits_ok v : bytes (sha512_bits v) /\ length (sha512_bits v) = 16%nat.
Proof.
  unfold sha512_bits. split; [apply bytes_app; split; [apply bytes_zeros|apply be_bytes_bytes]|rewrite ?app_length, be_bytes_length; reflexivity].
Qed.

(* the FIPS padding with the length field as the code writes it *)
Definition pad512 (l : list N) : list N := MDpad 128 16 (fun b => zeros 8 ++ toBE 8 b) l.
Lemma pad512_ok l : padm 128 16 sha512_bits l = pad512 l.
Proof. unfold padm, pad512, MDpad, sha512_bits. rewrite be64_bits. reflexivity. Qed.

Lemma fold_comp512 bs st : fold_left comp512 bs st = fold_left (compress F512) bs st.
Proof. apply fold_left_ext. intros. apply comp512_eq. Qed.

(* below 2^64 bits the length field is the one of the standard *)
Lemma pad512_std l : 8 * N.of_nat (length l) < 2^64 -> pad512 l = pad F512 l.
Proof.
  intros H. unfold pad512, pad, MDpad. change (16 * wb F512)%nat with 128%nat.
  change (2 * wb F512)%nat with 16%nat. do 3 f_equal.
  change toBE with be_bytes. rewrite (be_bytes_split 8 8).
  rewrite (N.div_small _ (256 ^ N.of_nat 8)) by exact H. reflexivity.
Qed.
(* from 2^64 bits on it is not *)
Lemma pad512_std_refuted l : 2^64 <= 8 * N.of_nat (length l) < 2^128 -> pad512 l <> pad F512 l.
Proof.
  intros [H1 H2] E. unfold pad512, pad, MDpad in E. change (16 * wb F512)%nat with 128%nat in E.
  change (2 * wb F512)%nat with 16%nat in E.
  do 3 apply app_inv_head in E. cbv beta in E.
  set (b := 8 * N.of_nat (length l)) in *. clearbody b.
  change toBE with be_bytes in E. rewrite (be_bytes_split 8 8) in E. apply app_inv_tail in E.
  apply (f_equal be_val) in E. rewrite be_val_bytes in E.
  change (be_val (zeros 8)) with 0 in E. change (256 ^ N.of_nat 8) with (2^64) in E.
  rewrite N.mod_small in E.
  - symmetry in E. apply N.div_small_iff in E; [|discriminate]. revert H1. apply N.lt_nge. exact E.
  - apply N.div_lt_upper_bound; [discriminate|]. exact H2.
Qed.

(* ------------------------------------------------------------------ sha2_256 *)
Definition sha2_256_class (pf : plat) : hasher :=
  {| h_S := bst sha256_st; h_R := list N; h_init := sha2_256_init;
     h_seed := sha2_256_seed pf; h_bytes := sha2_256_bytes pf;
     h_update := sha256_update pf; h_result := sha2_256_result pf |}.

Lemma IV256_eq : b_st sha2_256_init = IV256.
Proof. vm_compute. reflexivity. Qed.

(* SHA-256 with the length field as the code writes it *)
Definition SHA256_64 (l : list N) : list N :=
  firstn 32 (out F256 (fold_left (compress F256) (chunks 64 (pad256 l)) IV256)).

Lemma out256_ok h0 h1 h2 h3 h4 h5 h6 h7 :
  concat (map write32be [h0; h1; h2; h3; h4; h5; h6; h7])
  = firstn 32 (out F256 (h0, h1, h2, h3, h4, h5, h6, h7)).
Proof.
  unfold out. cbn [flat_map map concat app]. change toBE with be_bytes. change (wb F256) with 4%nat.
  rewrite !write32be_ok, !app_nil_r, ?app_assoc.
  symmetry. 
  rewrite firstn_all2 by (rewrite !app_length, !be_bytes_length; cbn; lia). reflexivity.
Qed.

Lemma sha2_256_result_gen pf s :
  sha2_256_result pf s =
  gen_result sha256_st 64 8 false false pf (sha256_transform pf) (sha256_bl pf) sha256_bits (list N)
    (fun st => firstn 32 (out F256 st)) s.
Proof.
  unfold sha2_256_result, gen_result, sha256_bits. rewrite <- sha256_update_gen, write64be_ok.
  cbn [bind].
  change (64 - 8)%nat with 56%nat. change (64 - 1)%nat with 63%nat.
  destruct (sha256_update pf s _ _) as [s1| | |]; try reflexivity. cbn [bind].
  destruct (sha256_update pf s1 _ _) as [s2| | |]; try reflexivity. cbn [bind].
  destruct (assert_ _); try reflexivity. cbn [bind].
  destruct (b_st s2) as [[[[[[[h0 h1] h2] h3] h4] h5] h6] h7].
  rewrite <- out256_ok. reflexivity.
Qed.

Theorem sha2_256_ok pf : md_ok sha256_st (list N) 64 false pad256 SHA256_64
  sha2_256_init (sha2_256_seed pf) (sha2_256_bytes pf) (sha256_update pf) (sha2_256_result pf).
Proof.
  eapply (md_ok_intro sha256_st 64 8 false false pf (sha256_transform pf) (sha256_bl pf) comp256
            sha256_bits (list N) (fun st => firstn 32 (out F256 st))) with (iv := b_st sha2_256_init).
  - lia.
  - lia.
  - apply cnt_ok_64.
  - intros. now apply sha256_transform_ok.
  - intros. now apply sha256_bl_ok.
  - apply sha256_bits_ok.
  - reflexivity.
  - apply sha256_update_gen.
  - apply sha2_256_result_gen.
  - intros n. unfold sha2_256_seed. rewrite write64le_ok. reflexivity.
  - reflexivity.
  - apply pad256_ok.
  - intros l. unfold SHA256_64. now rewrite fold_comp256, IV256_eq.
Qed.

(* agreement with the standard *)
Lemma SHA256_64_ok l : SHA256_64 l = SHA256 l.
Proof.
  unfold SHA256_64, SHA256, SHA2. change (16 * wb F256)%nat with 64%nat.
  rewrite <- (pad256_std l). reflexivity.
Qed.

(* ------------------------------------------------------------------ sha2_224 *)
Definition sha2_224_class (pf : plat) : hasher :=
  {| h_S := bst sha256_st; h_R := list N; h_init := sha2_224_init;
     h_seed := sha2_224_seed pf; h_bytes := sha2_224_bytes pf;
     h_update := sha256_update pf; h_result := sha2_224_result pf |}.

Lemma IV224_eq : b_st sha2_224_init = IV224.
Proof. vm_compute. reflexivity. Qed.

(* SHA-224 with the length field as the code writes it *)
Definition SHA224_64 (l : list N) : list N :=
  firstn 28 (out F256 (fold_left (compress F256) (chunks 64 (pad256 l)) IV224)).

Lemma out224_ok h0 h1 h2 h3 h4 h5 h6 h7 :
  concat (map write32be [h0; h1; h2; h3; h4; h5; h6])
  = firstn 28 (out F256 (h0, h1, h2, h3, h4, h5, h6, h7)).
Proof.
  unfold out. cbn [flat_map map concat app]. change toBE with be_bytes. change (wb F256) with 4%nat.
  rewrite !write32be_ok, !app_nil_r, ?app_assoc.
  symmetry. rewrite <- !app_assoc. rewrite (app_assoc (be_bytes 4 h0) (be_bytes 4 h1)). rewrite (app_assoc (_ ++ _) (be_bytes 4 h2)). rewrite (app_assoc (_ ++ _) (be_bytes 4 h3)). rewrite (app_assoc (_ ++ _) (be_bytes 4 h4)). rewrite (app_assoc (_ ++ _) (be_bytes 4 h5)). rewrite (app_assoc (_ ++ _) (be_bytes 4 h6)). 
  rewrite firstn_app_exact by (rewrite !app_length, !be_bytes_length; reflexivity). reflexivity.
Qed.

Lemma sha2_224_result_gen pf s :
  sha2_224_result pf s =
  gen_result sha256_st 64 8 false false pf (sha256_transform pf) (sha256_bl pf) sha256_bits (list N)
    (fun st => firstn 28 (out F256 st)) s.
Proof.
  unfold sha2_224_result, gen_result, sha256_bits. rewrite <- sha256_update_gen, write64be_ok.
  cbn [bind].
  change (64 - 8)%nat with 56%nat. change (64 - 1)%nat with 63%nat.
  destruct (sha256_update pf s _ _) as [s1| | |]; try reflexivity. cbn [bind].
  destruct (sha256_update pf s1 _ _) as [s2| | |]; try reflexivity. cbn [bind].
  destruct (assert_ _); try reflexivity. cbn [bind].
  destruct (b_st s2) as [[[[[[[h0 h1] h2] h3] h4] h5] h6] h7].
  rewrite <- out224_ok. reflexivity.
Qed.

Theorem sha2_224_ok pf : md_ok sha256_st (list N) 64 false pad256 SHA224_64
  sha2_224_init (sha2_224_seed pf) (sha2_224_bytes pf) (sha256_update pf) (sha2_224_result pf).
Proof.
  eapply (md_ok_intro sha256_st 64 8 false false pf (sha256_transform pf) (sha256_bl pf) comp256
            sha256_bits (list N) (fun st => firstn 28 (out F256 st))) with (iv := b_st sha2_224_init).
  - lia.
  - lia.
  - apply cnt_ok_64.
  - intros. now apply sha256_transform_ok.
  - intros. now apply sha256_bl_ok.
  - apply sha256_bits_ok.
  - reflexivity.
  - apply sha256_update_gen.
  - apply sha2_224_result_gen.
  - intros n. unfold sha2_224_seed. rewrite write64le_ok. reflexivity.
  - reflexivity.
  - apply pad256_ok.
  - intros l. unfold SHA224_64. now rewrite fold_comp256, IV224_eq.
Qed.

(* agreement with the standard *)
Lemma SHA224_64_ok l : SHA224_64 l = SHA224 l.
Proof.
  unfold SHA224_64, SHA224, SHA2. change (16 * wb F256)%nat with 64%nat.
  rewrite <- (pad256_std l). reflexivity.
Qed.

(* ------------------------------------------------------------------ sha2_512 *)
Definition sha2_512_class (pf : plat) : hasher :=
  {| h_S := bst sha512_st; h_R := list N; h_init := sha2_512_init;
     h_seed := sha2_512_seed pf; h_bytes := sha2_512_bytes pf;
     h_update := sha512_update pf; h_result := sha2_512_result pf |}.

Lemma IV512_eq : b_st sha2_512_init = IV512.
Proof. vm_compute. reflexivity. Qed.

(* SHA-512 with the length field as the code writes it *)
Definition SHA512_64 (l : list N) : list N :=
  firstn 64 (out F512 (fold_left (compress F512) (chunks 128 (pad512 l)) IV512)).

Lemma out512_ok h0 h1 h2 h3 h4 h5 h6 h7 :
  concat (map write64be [h0; h1; h2; h3; h4; h5; h6; h7])
  = firstn 64 (out F512 (h0, h1, h2, h3, h4, h5, h6, h7)).
Proof.
  unfold out. cbn [flat_map map concat app]. change toBE with be_bytes. change (wb F512) with 8%nat.
  rewrite !write64be_ok, !app_nil_r, ?app_assoc.
  symmetry. 
  rewrite firstn_all2 by (rewrite !app_length, !be_bytes_length; cbn; lia). reflexivity.
Qed.

Lemma sha2_512_result_gen pf s :
  sha2_512_result pf s =
  gen_result sha512_st 128 16 false false pf (sha512_transform pf) (sha512_bl pf) sha512_bits (list N)
    (fun st => firstn 64 (out F512 st)) s.
Proof.
  unfold sha2_512_result, gen_result, sha512_bits. rewrite <- sha512_update_gen, write64be_ok.
  cbn [bind].
  change (128 - 16)%nat with 112%nat. change (128 - 1)%nat with 127%nat.
  destruct (sha512_update pf s _ _) as [s1| | |]; try reflexivity. cbn [bind].
  destruct (sha512_update pf s1 _ _) as [s2| | |]; try reflexivity. cbn [bind].
  destruct (assert_ _); try reflexivity. cbn [bind].
  destruct (b_st s2) as [[[[[[[h0 h1] h2] h3] h4] h5] h6] h7].
  rewrite <- out512_ok. reflexivity.
Qed.

Theorem sha2_512_ok pf : md_ok sha512_st (list N) 128 false pad512 SHA512_64
  sha2_512_init (sha2_512_seed pf) (sha2_512_bytes pf) (sha512_update pf) (sha2_512_result pf).
Proof.
  eapply (md_ok_intro sha512_st 128 16 false false pf (sha512_transform pf) (sha512_bl pf) comp512
            sha512_bits (list N) (fun st => firstn 64 (out F512 st))) with (iv := b_st sha2_512_init).
  - lia.
  - lia.
  - apply cnt_ok_128.
  - intros. now apply sha512_transform_ok.
  - intros. now apply sha512_bl_ok.
  - apply sha512_bits_ok.
  - reflexivity.
  - apply sha512_update_gen.
  - apply sha2_512_result_gen.
  - intros n. unfold sha2_512_seed. rewrite write64le_ok. reflexivity.
  - reflexivity.
  - apply pad512_ok.
  - intros l. unfold SHA512_64. now rewrite fold_comp512, IV512_eq.
Qed.

(* agreement with the standard *)
Lemma SHA512_64_ok l : 8 * N.of_nat (length l) < 2^64 -> SHA512_64 l = SHA512 l.
Proof.
  intros Hlen. unfold SHA512_64, SHA512, SHA2. change (16 * wb F512)%nat with 128%nat.
  rewrite <- (pad512_std l) by exact Hlen. reflexivity.
Qed.

(* ------------------------------------------------------------------ sha2_384 *)
Definition sha2_384_class (pf : plat) : hasher :=
  {| h_S := bst sha512_st; h_R := list N; h_init := sha2_384_init;
     h_seed := sha2_384_seed pf; h_bytes := sha2_384_bytes pf;
     h_update := sha512_update pf; h_result := sha2_384_result pf |}.

Lemma IV384_eq : b_st sha2_384_init = IV384.
Proof. vm_compute. reflexivity. Qed.

(* SHA-384 with the length field as the code writes it *)
Definition SHA384_64 (l : list N) : list N :=
  firstn 48 (out F512 (fold_left (compress F512) (chunks 128 (pad512 l)) IV384)).

Lemma out384_ok h0 h1 h2 h3 h4 h5 h6 h7 :
  concat (map write64be [h0; h1; h2; h3; h4; h5])
  = firstn 48 (out F512 (h0, h1, h2, h3, h4, h5, h6, h7)).
Proof.
  unfold out. cbn [flat_map map concat app]. change toBE with be_bytes. change (wb F512) with 8%nat.
  rewrite !write64be_ok, !app_nil_r, ?app_assoc.
  symmetry. rewrite <- !app_assoc. rewrite (app_assoc (be_bytes 8 h0) (be_bytes 8 h1)). rewrite (app_assoc (_ ++ _) (be_bytes 8 h2)). rewrite (app_assoc (_ ++ _) (be_bytes 8 h3)). rewrite (app_assoc (_ ++ _) (be_bytes 8 h4)). rewrite (app_assoc (_ ++ _) (be_bytes 8 h5)). 
  rewrite firstn_app_exact by (rewrite !app_length, !be_bytes_length; reflexivity). reflexivity.
Qed.

Lemma sha2_384_result_gen pf s :
  sha2_384_result pf s =
  gen_result sha512_st 128 16 false false pf (sha512_transform pf) (sha512_bl pf) sha512_bits (list N)
    (fun st => firstn 48 (out F512 st)) s.
Proof.
  unfold sha2_384_result, gen_result, sha512_bits. rewrite <- sha512_update_gen, write64be_ok.
  cbn [bind].
  change (128 - 16)%nat with 112%nat. change (128 - 1)%nat with 127%nat.
  destruct (sha512_update pf s _ _) as [s1| | |]; try reflexivity. cbn [bind].
  destruct (sha512_update pf s1 _ _) as [s2| | |]; try reflexivity. cbn [bind].
  destruct (assert_ _); try reflexivity. cbn [bind].
  destruct (b_st s2) as [[[[[[[h0 h1] h2] h3] h4] h5] h6] h7].
  rewrite <- out384_ok. reflexivity.
Qed.

Theorem sha2_384_ok pf : md_ok sha512_st (list N) 128 false pad512 SHA384_64
  sha2_384_init (sha2_384_seed pf) (sha2_384_bytes pf) (sha512_update pf) (sha2_384_result pf).
Proof.
  eapply (md_ok_intro sha512_st 128 16 false false pf (sha512_transform pf) (sha512_bl pf) comp512
            sha512_bits (list N) (fun st => firstn 48 (out F512 st))) with (iv := b_st sha2_384_init).
  - lia.
  - lia.
  - apply cnt_ok_128.
  - intros. now apply sha512_transform_ok.
  - intros. now apply sha512_bl_ok.
  - apply sha512_bits_ok.
  - reflexivity.
  - apply sha512_update_gen.
  - apply sha2_384_result_gen.
  - intros n. unfold sha2_384_seed. rewrite write64le_ok. reflexivity.
  - reflexivity.
  - apply pad512_ok.
  - intros l. unfold SHA384_64. now rewrite fold_comp512, IV384_eq.
Qed.

(* agreement with the standard *)
Lemma SHA384_64_ok l : 8 * N.of_nat (length l) < 2^64 -> SHA384_64 l = SHA384 l.
Proof.
  intros Hlen. unfold SHA384_64, SHA384, SHA2. change (16 * wb F512)%nat with 128%nat.
  rewrite <- (pad512_std l) by exact Hlen. reflexivity.
Qed.

(* ------------------------------------------------------------------ sha2_512_224 *)
Definition sha2_512_224_class (pf : plat) : hasher :=
  {| h_S := bst sha512_st; h_R := list N; h_init := sha2_512_224_init;
     h_seed := sha2_512_224_seed pf; h_bytes := sha2_512_224_bytes pf;
     h_update := sha512_update pf; h_result := sha2_512_224_result pf |}.

Lemma IV512_224_eq : b_st sha2_512_224_init = IV512_224.
Proof. vm_compute. reflexivity. Qed.

(* SHA-512_224 with the length field as the code writes it *)
Definition SHA512_224_64 (l : list N) : list N :=
  firstn 28 (out F512 (fold_left (compress F512) (chunks 128 (pad512 l)) IV512_224)).

Lemma out512_224_ok h0 h1 h2 h3 h4 h5 h6 h7 :
  concat (map write64be [h0; h1; h2]) ++ write32be (shr h3 32 mod 2^32)
  = firstn 28 (out F512 (h0, h1, h2, h3, h4, h5, h6, h7)).
Proof.
  unfold out. cbn [flat_map map concat app]. change toBE with be_bytes. change (wb F512) with 8%nat.
  rewrite write32be_ok, !write64be_ok, (be_bytes_mod 4).
  change (be_bytes 8 h3) with (be_bytes (4 + 4) h3). rewrite (be_bytes_split 4 4 h3). unfold shr. rewrite N.shiftr_div_pow2.
  change (256 ^ N.of_nat 4) with (2^32).
  rewrite <- !app_assoc, !app_nil_r, !app_assoc. symmetry. rewrite <- !app_assoc.
  rewrite (app_assoc (be_bytes 8 h0)), (app_assoc (_ ++ _) (be_bytes 8 h2)), (app_assoc (_ ++ _) (be_bytes 4 _)).
  rewrite firstn_app_exact by (rewrite !app_length, !be_bytes_length; reflexivity).
  now rewrite <- !app_assoc.
Qed.

Lemma sha2_512_224_result_gen pf s :
  sha2_512_224_result pf s =
  gen_result sha512_st 128 16 false false pf (sha512_transform pf) (sha512_bl pf) sha512_bits (list N)
    (fun st => firstn 28 (out F512 st)) s.
Proof.
  unfold sha2_512_224_result, gen_result, sha512_bits. rewrite <- sha512_update_gen, write64be_ok.
  cbn [bind].
  change (128 - 16)%nat with 112%nat. change (128 - 1)%nat with 127%nat.
  destruct (sha512_update pf s _ _) as [s1| | |]; try reflexivity. cbn [bind].
  destruct (sha512_update pf s1 _ _) as [s2| | |]; try reflexivity. cbn [bind].
  destruct (assert_ _); try reflexivity. cbn [bind].
  destruct (b_st s2) as [[[[[[[h0 h1] h2] h3] h4] h5] h6] h7].
  rewrite <- out512_224_ok. reflexivity.
Qed.

Theorem sha2_512_224_ok pf : md_ok sha512_st (list N) 128 false pad512 SHA512_224_64
  sha2_512_224_init (sha2_512_224_seed pf) (sha2_512_224_bytes pf) (sha512_update pf) (sha2_512_224_result pf).
Proof.
  eapply (md_ok_intro sha512_st 128 16 false false pf (sha512_transform pf) (sha512_bl pf) comp512
            sha512_bits (list N) (fun st => firstn 28 (out F512 st))) with (iv := b_st sha2_512_224_init).
  - lia.
  - lia.
  - apply cnt_ok_128.
  - intros. now apply sha512_transform_ok.
  - intros. now apply sha512_bl_ok.
  - apply sha512_bits_ok.
  - reflexivity.
  - apply sha512_update_gen.
  - apply sha2_512_224_result_gen.
  - intros n. unfold sha2_512_224_seed. rewrite write64le_ok. reflexivity.
  - reflexivity.
  - apply pad512_ok.
  - intros l. unfold SHA512_224_64. now rewrite fold_comp512, IV512_224_eq.
Qed.

(* agreement with the standard *)
Lemma SHA512_224_64_ok l : 8 * N.of_nat (length l) < 2^64 -> SHA512_224_64 l = SHA512_224 l.
Proof.
  intros Hlen. unfold SHA512_224_64, SHA512_224, SHA2. change (16 * wb F512)%nat with 128%nat.
  rewrite <- (pad512_std l) by exact Hlen. reflexivity.
Qed.

(* ------------------------------------------------------------------ sha2_512_256 *)
Definition sha2_512_256_class (pf : plat) : hasher :=
  {| h_S := bst sha512_st; h_R := list N; h_init := sha2_512_256_init;
     h_seed := sha2_512_256_seed pf; h_bytes := sha2_512_256_bytes pf;
     h_update := sha512_update pf; h_result := sha2_512_256_result pf |}.

Lemma IV512_256_eq : b_st sha2_512_256_init = IV512_256.
Proof. vm_compute. reflexivity. Qed.

(* SHA-512_256 with the length field as the code writes it *)
Definition SHA512_256_64 (l : list N) : list N :=
  firstn 32 (out F512 (fold_left (compress F512) (chunks 128 (pad512 l)) IV512_256)).

Lemma out512_256_ok h0 h1 h2 h3 h4 h5 h6 h7 :
  concat (map write64be [h0; h1; h2; h3])
  = firstn 32 (out F512 (h0, h1, h2, h3, h4, h5, h6, h7)).
Proof.
  unfold out. cbn [flat_map map concat app]. change toBE with be_bytes. change (wb F512) with 8%nat.
  rewrite !write64be_ok, !app_nil_r, ?app_assoc.
  symmetry. rewrite <- !app_assoc. rewrite (app_assoc (be_bytes 8 h0) (be_bytes 8 h1)). rewrite (app_assoc (_ ++ _) (be_bytes 8 h2)). rewrite (app_assoc (_ ++ _) (be_bytes 8 h3)). 
  rewrite firstn_app_exact by (rewrite !app_length, !be_bytes_length; reflexivity). reflexivity.
Qed.

Lemma sha2_512_256_result_gen pf s :
  sha2_512_256_result pf s =
  gen_result sha512_st 128 16 false false pf (sha512_transform pf) (sha512_bl pf) sha512_bits (list N)
    (fun st => firstn 32 (out F512 st)) s.
Proof.
  unfold sha2_512_256_result, gen_result, sha512_bits. rewrite <- sha512_update_gen, write64be_ok.
  cbn [bind].
  change (128 - 16)%nat with 112%nat. change (128 - 1)%nat with 127%nat.
  destruct (sha512_update pf s _ _) as [s1| | |]; try reflexivity. cbn [bind].
  destruct (sha512_update pf s1 _ _) as [s2| | |]; try reflexivity. cbn [bind].
  destruct (assert_ _); try reflexivity. cbn [bind].
  destruct (b_st s2) as [[[[[[[h0 h1] h2] h3] h4] h5] h6] h7].
  rewrite <- out512_256_ok. reflexivity.
Qed.

Theorem sha2_512_256_ok pf : md_ok sha512_st (list N) 128 false pad512 SHA512_256_64
  sha2_512_256_init (sha2_512_256_seed pf) (sha2_512_256_bytes pf) (sha512_update pf) (sha2_512_256_result pf).
Proof.
  eapply (md_ok_intro sha512_st 128 16 false false pf (sha512_transform pf) (sha512_bl pf) comp512
            sha512_bits (list N) (fun st => firstn 32 (out F512 st))) with (iv := b_st sha2_512_256_init).
  - lia.
  - lia.
  - apply cnt_ok_128.
  - intros. now apply sha512_transform_ok.
  - intros. now apply sha512_bl_ok.
  - apply sha512_bits_ok.
  - reflexivity.
  - apply sha512_update_gen.
  - apply sha2_512_256_result_gen.
  - intros n. unfold sha2_512_256_seed. rewrite write64le_ok. reflexivity.
  - reflexivity.
  - apply pad512_ok.
  - intros l. unfold SHA512_256_64. now rewrite fold_comp512, IV512_256_eq.
Qed.

(* agreement with the standard *)
Lemma SHA512_256_64_ok l : 8 * N.of_nat (length l) < 2^64 -> SHA512_256_64 l = SHA512_256 l.
Proof.
  intros Hlen. unfold SHA512_256_64, SHA512_256, SHA2. change (16 * wb F512)%nat with 128%nat.
  rewrite <- (pad512_std l) by exact Hlen. reflexivity.
Qed.

(* murmur3_32 and murmur3_128. *)
From Verif Require Import Base BaseFacts SpecCommon Gen Hasher GenMD Words Loops GenBlk ModelMurmur SpecMurmur.
Open Scope N_scope.

(* ------------------------------------------------------------------ murmur3_32 *)
(* The abstract algorithm.  result() finalizes without changing the chaining value (the bytes
   of an incomplete last block are dropped) and advances the byte count to the next multiple
   of the block size. *)
Definition mur32_ar (cw : N) (a : ast N) : N * ast N :=
  let '(st, c, l) := a in
  let v := fold_left Mur32_block (chunks 4 l) st in
  (Mur32_final v ((c + N.of_nat (length l)) mod cw) (rest 4 l),
   (v, c + N.of_nat (length l + (4 - length l mod 4)), [])).

Definition mur32_start (cw : N) (c : ctor) : ast N :=
  match c with
  | CDefault => (0, 0, [])
  | CSeed n => (if n / 2^32 =? 0 then n else Mur32_block (n mod 2^32) (toLE 4 (n / 2^32)), 0, [])
  | CBytes p n =>
      let d := data p n in
      if Nat.leb n 4 then (LE d, 0, []) else snd (mur32_ar cw (LE (firstn 4 d), 0, skipn 4 d))
  end.

Definition mur32_class (cw : N) (le : bool) (junk : list N) : hasher :=
  {| h_S := bst mur32_st; h_R := N; h_init := mur32_seed junk 0;
     h_seed := fun n => Ok (mur32_seed junk n); h_bytes := mur32_bytes cw le junk;
     h_update := mur32_update cw le; h_result := mur32_result cw |}.

Lemma LE_zeros l k : LE (l ++ zeros k) = LE l.
Proof.
  change LE with le_val. rewrite le_val_app.
  replace (le_val (zeros k)) with 0; [lia|].
  induction k as [|k IH]; [reflexivity|]. change (zeros (S k)) with (0 :: zeros k). cbn [le_val]. lia.
Qed.
Lemma mur32_mix_ok h k blk : LE blk = k -> mur32_mix h k = Mur32_block h blk.
Proof.
  intros <-. unfold mur32_mix, Mur32_block, Mur32_k. cbv zeta.
  rewrite !rotl32_ROTL by reflexivity. unfold add32, mul32, ADD, MUL, w32. reflexivity.
Qed.

Lemma mur32_step_ok le st l : (4 <= length l)%nat -> bytes (firstn 4 l) ->
  mur32_step le st (Ptr l) = Ok (Mur32_block st (firstn 4 l)).
Proof.
  intros HL Hb. unfold mur32_step. rewrite read32le_ok' by assumption. cbn [bind].
  rewrite (mur32_mix_ok _ _ (firstn 4 l)); reflexivity.
Qed.
Lemma mur32_update__floop le k : forall st p,
  mur32_update_ le st p k = floop mur32_st 4 (mur32_step le) st p k.
Proof.
  induction k as [|k IH]; intros st p; [reflexivity|]. cbn [mur32_update_ floop].
  destruct (mur32_step le st p); try reflexivity. cbn [bind].
  destruct (padd p 4); try reflexivity. cbn [bind]. apply IH.
Qed.
Definition mur32_tr le (st : mur32_st) (p : ptr) := mur32_update_ le st p 1.
Definition mur32_bl le (st : mur32_st) (p : ptr) (n : nat) :=
  let k := (n / 4)%nat in
  st <- mur32_update_ le st p k ;; p <- padd p (4 * k) ;; Ok (st, p, (n - 4 * k)%nat).
Lemma mur32_tr_ok le st l : (4 <= length l)%nat -> bytes l ->
  mur32_tr le st (Ptr l) = Ok (Mur32_block st (firstn 4 l)).
Proof.
  intros HL Hb. unfold mur32_tr. cbn [mur32_update_].
  rewrite mur32_step_ok by (assumption || now apply bytes_firstn). cbn [bind].
  rewrite padd_ok by lia. reflexivity.
Qed.
Lemma mur32_bl_ok le st l n : (n <= length l)%nat -> bytes l ->
  mur32_bl le st (Ptr l) n =
  Ok (fold_left Mur32_block (chunks 4 (firstn n l)) st, Ptr (skipn (4 * (n / 4)) l), (n mod 4)%nat).
Proof.
  intros Hn Hl. unfold mur32_bl. cbv zeta. rewrite mur32_update__floop.
  apply (fblocks_ok mur32_st 4 (mur32_step le)); [lia| |assumption|now apply bytes_firstn].
  intros. now apply mur32_step_ok.
Qed.

Lemma mur32_switch_ok r tail : (length r < 4)%nat -> bytes r ->
  mur32_switch (length r) (r ++ tail) = Ok (LE r).
Proof.
  intros H Hb. unfold bytes in Hb. rewrite Forall_forall in Hb.
  destruct r as [|b0 [|b1 [|b2 [|b3 r]]]]; try (cbn in H; lia); cbn [length mur32_switch deref nth_error app bind LE];
    rewrite ?N.shiftl_mul_pow2.
  - reflexivity.
  - f_equal. lia.
  - pose proof (Hb b0 ltac:(cbn; auto)). pose proof (Hb b1 ltac:(cbn; auto)). f_equal.
    change (2^8) with 256. change (2^32) with 4294967296. rewrite N.mod_small by lia. lia.
  - pose proof (Hb b0 ltac:(cbn; auto)). pose proof (Hb b1 ltac:(cbn; auto)). pose proof (Hb b2 ltac:(cbn; auto)). f_equal.
    change (2^8) with 256. change (2^16) with 65536. change (2^32) with 4294967296. rewrite N.mod_small by lia. lia.
Qed.
Lemma mur32_final_ok h k n tail : LE tail = k ->
  (let k := mul32 k mur32_c1 in
   let k := rotl32 k 15 in
   let k := mul32 k mur32_c2 in
   let h := N.lxor h k in
   let h := N.lxor h (n mod 2^32) in
   let h := N.lxor h (shr h 16) in
   let h := mul32 h 0x85ebca6b in
   let h := N.lxor h (shr h 13) in
   let h := mul32 h 0xc2b2ae35 in
   N.lxor h (shr h 16)) = Mur32_final h n tail.
Proof.
  intros <-. unfold Mur32_final, Mur32_k, fmix32. cbv zeta. rewrite !rotl32_ROTL by reflexivity.
  change mul32 with (MUL 32). change shr with (fun a k => SHR k a). cbv beta. reflexivity.
Qed.

(* alignment of the new count *)
Lemma align_mod (B : nat) (c : N) (n : nat) : (0 < B)%nat -> c mod N.of_nat B = 0 ->
  (c + N.of_nat (n + (B - n mod B))) mod N.of_nat B = 0.
Proof.
  intros HB Hc. apply N.mod_divide; [lia|].
  pose proof (Nat.div_mod n B ltac:(lia)) as D.
  pose proof (Nat.mod_upper_bound n B ltac:(lia)) as U.
  apply N.mod_divide in Hc; [|lia]. destruct Hc as [q Hq].
  exists (q + N.of_nat (n / B + 1)). rewrite Hq.
  set (a := (n / B)%nat) in *. set (b := (n mod B)%nat) in *. clearbody a b.
  subst n. rewrite N.mul_add_distr_r, <- Nat2N.inj_mul. f_equal. f_equal. nia.
Qed.

Section C32.
Variable cw : N.
Hypothesis Hcw : cw = 2^32 \/ cw = 2^64.

Lemma mur32_update_gen le s p n :
  mur32_update cw le s p n = gen_update mur32_st 4 true false cw (rt le) (mur32_tr le) (mur32_bl le) s p n.
Proof. reflexivity. Qed.

Notation Rel := (RelB mur32_st 4 false cw Mur32_block).
Notation ok := (okB mur32_st 4 cw).
Lemma mcw32_0 : cw <> 0.
Proof. destruct Hcw as [-> | ->]; discriminate. Qed.
Lemma mur32_ok_true a : ok a.
Proof. destruct a as [[st c] l]. left. destruct Hcw as [-> | ->]; reflexivity. Qed.

Lemma mur32_result_ok a s : Rel a s ->
  exists s', mur32_result cw s = Ok (fst (mur32_ar cw a), s') /\ Rel (snd (mur32_ar cw a)) s'
    /\ b_buf s' = zeros 4.
Proof.
  intros HR. destruct a as [[st c] l]. pose proof HR as (_ & Hc & _).
  destruct (RelB_inv mur32_st 4 false cw Mur32_block ltac:(lia) mcw32_0 st c l s HR (mur32_ok_true _))
    as (Hl & Hst & Hm & Hlt & Hn & HA & HBL & Hf & _).
  unfold mur32_result. change (N.of_nat 4) with 4 in HA. rewrite HA. cbn [assert_ bind].
  rewrite Hm. set (r := rest 4 l) in *.
  assert (Hbuf : b_buf s = r ++ skipn (length r) (b_buf s)) by (rewrite <- Hf at 1; now rewrite firstn_skipn).
  rewrite Hbuf, mur32_switch_ok by (assumption || now apply rest_bytes). cbn [bind]. rewrite <- Hbuf.
  pose proof (mur32_final_ok (b_st s) (LE r) (b_n s) r eq_refl) as EF. cbv zeta in EF. cbv zeta.
  rewrite EF. clear EF.
  change std_memset with (memset (rt true)).
  rewrite memset_ok by lia. cbn [bind].
  rewrite splice_0_all by (rewrite repeat_length; lia).
  unfold mur32_ar. fold r. change mur32_st with N in *. rewrite Hst, Hn.
  set (v := fold_left Mur32_block (chunks 4 l) st). cbn [fst snd].
  eexists. split; [reflexivity|]. split; [|reflexivity].
  rewrite N.add_mod_idemp_l by apply mcw32_0.
  rewrite <- N.add_assoc, <- Nat2N.inj_add.
  assert (Hr : length r = (length l mod 4)%nat) by (apply rest_length; lia).
  rewrite Hr. apply RelB_aligned.
  - lia.
  - apply align_mod; [lia|exact Hc].
  - apply repeat_length.
  - discriminate.
Qed.

Lemma mur32_refines le junk :
  refines (mur32_class cw le junk) true (ast N) ab_au (mur32_ar cw) ok Rel.
Proof.
  eapply (blk_refines mur32_st 4 true false cw (rt le) (mur32_tr le) (mur32_bl le) Mur32_block).
  - lia.
  - apply mcw32_0.
  - intros. now apply mur32_tr_ok.
  - intros. now apply mur32_bl_ok.
  - reflexivity.
  - apply mur32_update_gen.
  - intros a s HR _ _. destruct (mur32_result_ok a s HR) as (s' & E1 & E2 & _). eauto.
Qed.

Lemma mur32_fresh junk h : length junk = 4%nat -> Rel (h, 0, []) (mkB h junk 0 0).
Proof.
  intros HJ. rewrite <- (N.mod_0_l cw) at 2 by apply mcw32_0.
  apply RelB_aligned; [lia|reflexivity|exact HJ|discriminate].
Qed.

Lemma mur32_construct le junk c : length junk = 4%nat -> valid_ctor c ->
  exists s, construct (mur32_class cw le junk) c = Ok s /\ Rel (mur32_start cw c) s.
Proof.
  intros HJ HC. destruct c as [|n|p n]; cbn [construct mur32_start mur32_class h_init h_seed h_bytes].
  - eexists. split; [reflexivity|]. now apply mur32_fresh.
  - eexists. split; [reflexivity|]. unfold mur32_seed. cbn [valid_ctor] in HC. cbv zeta.
    unfold shr. rewrite N.shiftr_div_pow2.
    assert (H1 : n / 2^32 < 2^32) by (apply N.div_lt_upper_bound; [discriminate|exact HC]).
    rewrite (N.mod_small (n / 2^32)) by exact H1.
    destruct (N.eqb_spec (n / 2^32) 0) as [HZ|HZ]; cbn [negb].
    + replace (n mod 2^32) with n by (rewrite (N.div_mod n (2^32)) at 1 by discriminate; rewrite HZ; lia).
      now apply mur32_fresh.
    + rewrite (mur32_mix_ok _ _ (toLE 4 (n / 2^32))); [now apply mur32_fresh|].
      change toLE with le_bytes. change LE with le_val. rewrite le_val_bytes. apply N.mod_small. exact H1.
  - cbn [valid_ctor] in HC. pose proof (valid_data _ _ _ HC) as [Hdb Hdl].
    unfold mur32_bytes. cbv zeta. destruct (Nat.eqb_spec n 0) as [->|H2].
    + cbn [Nat.leb]. eexists. split; [reflexivity|]. destruct (data p 0); [|discriminate]. now apply mur32_fresh.
    + destruct p as [|l]; [destruct HC; lia|]. cbn [valid_arg data] in *. destruct HC as [HC1 HC2].
      destruct (Nat.leb_spec n 4) as [H4|H4].
      * change std_memcpy with (memcpy (rt true)). rewrite memcpy_ok by (cbn [zeros repeat length]; lia). cbn [bind].
        assert (E : splice (zeros 4) 0 (firstn n l) = firstn n l ++ zeros (4 - n)).
        { unfold splice. cbn [firstn app Nat.add]. f_equal. rewrite Hdl. now rewrite skipn_zeros. }
        rewrite E. rewrite read32le_ok'.
        -- cbn [bind]. rewrite firstn_all2 by (rewrite app_length, zeros_length, Hdl; lia).
           eexists. split; [reflexivity|]. change le_val with LE. rewrite LE_zeros. now apply mur32_fresh.
        -- rewrite app_length, zeros_length, Hdl. lia.
        -- apply bytes_firstn, bytes_app. split; [exact Hdb|apply bytes_zeros].
      * rewrite read32le_ok' by (lia || now apply bytes_firstn). cbn [bind].
        rewrite padd_ok by lia. cbn [bind].
        assert (HV : valid_arg true (Ptr (skipn 4 l)) (n - 4)).
        { split; [rewrite skipn_length; lia|now apply bytes_skipn]. }
        destruct (rf_update _ _ _ _ _ _ _ (mur32_refines le junk) _ _ (Ptr (skipn 4 l)) (n - 4)%nat
                   (mur32_fresh junk (le_val (firstn 4 l)) HJ) (mur32_ok_true _) HV (mur32_ok_true _))
          as (s1 & E1 & R1).
        cbn [mur32_class h_update] in E1. change mur32_st with N in *. rewrite E1. cbn [bind].
        destruct (mur32_result_ok _ _ R1) as (s2 & E2 & R2 & _). rewrite E2. cbn [bind].
        exists s2. split; [reflexivity|]. cbn [ab_au data app] in R2.
        rewrite firstn_firstn_le by lia. rewrite skipn_firstn_comm. exact R2.
Qed.

(* every history *)
Theorem mur32_exec le junk c ops : length junk = 4%nat -> valid_ctor c -> Forall (valid_op true) ops ->
  exists s, exec (mur32_class cw le junk) c ops
    = Ok (aseg ab_au (mur32_ar cw) (mur32_start cw c) (segments [] ops), s) /\
    Rel (snd (arun ab_au (mur32_ar cw) (mur32_start cw c) ops)) s.
Proof.
  intros HJ HC HO. apply (refines_exec _ _ _ _ _ _ _ (mur32_refines le junk)).
  - now apply mur32_construct.
  - exact HO.
  - generalize (mur32_start cw c). induction ops as [|[p n|] ops IH]; intros a; cbn [aok];
      (split; [apply mur32_ok_true|]); auto; apply IH; inversion HO; assumption.
Qed.

(* the first result is the published function *)
Theorem mur32_first seed l : N.of_nat (length l) < cw ->
  fst (mur32_ar cw (seed, 0, l)) = MurmurHash3_x86_32 seed l.
Proof.
  intros HL. unfold mur32_ar, MurmurHash3_x86_32. cbn [fst].
  rewrite N.add_0_l, (N.mod_small _ cw) by exact HL. reflexivity.
Qed.
End C32.

(* ------------------------------------------------------------------ murmur3_128 *)
Definition mur128_ar (cw : N) (a : ast (N * N)) : list N * ast (N * N) :=
  let '(st, c, l) := a in
  let v := fold_left Mur128_block (chunks 16 l) st in
  (Mur128_final v ((c + N.of_nat (length l)) mod cw) (rest 16 l),
   (v, c + N.of_nat (length l + (16 - length l mod 16)), [])).

Definition mur128_start (cw : N) (c : ctor) : ast (N * N) :=
  match c with
  | CDefault => ((0, 0), 0, [])
  | CSeed n => ((n, n), 0, [])
  | CBytes p n =>
      let d := data p n in
      if Nat.leb n 8 then ((LE d, LE d), 0, [])
      else if Nat.leb n 16 then ((LE (firstn 8 d), LE (skipn 8 d)), 0, [])
      else snd (mur128_ar cw ((LE (firstn 8 d), LE (firstn 8 (skipn 8 d))), 0, skipn 16 d))
  end.

Definition mur128_class (cw : N) (le : bool) (junk : list N) : hasher :=
  {| h_S := bst mur128_st; h_R := list N; h_init := mur128_seed junk 0;
     h_seed := fun n => Ok (mur128_seed junk n); h_bytes := mur128_bytes cw le junk;
     h_update := mur128_update cw le; h_result := mur128_result cw le |}.

Lemma mur128_step_ok le st l : (16 <= length l)%nat -> bytes (firstn 16 l) ->
  mur128_step le st (Ptr l) = Ok (Mur128_block st (firstn 16 l)).
Proof.
  intros HL Hb. unfold mur128_step. destruct st as [h1 h2].
  rewrite padd_ok by lia. cbn [bind].
  rewrite read64le_ok' by ((rewrite skipn_length; lia) || (eapply bytes_firstn_skipn; [|exact Hb]; lia)). cbn [bind].
  rewrite padd_ok by lia. cbn [bind].
  rewrite read64le_ok' by ((rewrite skipn_length; lia) || (eapply bytes_firstn_skipn; [|exact Hb]; lia)). cbn [bind].
  unfold Mur128_block, Mur128_k1, Mur128_k2. cbv zeta. rewrite !rotl64_ROTL by reflexivity.
  change (skipn 0 l) with l. rewrite firstn_firstn_le by lia. rewrite skipn_firstn_comm.
  change (16 - 8)%nat with 8%nat. change le_val with LE.
  unfold mur128_c1, mur128_c2, add64, mul64, ADD, MUL, w64. reflexivity.
Qed.
Lemma mur128_update__floop le k : forall st p,
  mur128_update_ le st p k = floop mur128_st 16 (mur128_step le) st p k.
Proof.
  induction k as [|k IH]; intros st p; [reflexivity|]. cbn [mur128_update_ floop].
  destruct (mur128_step le st p); try reflexivity. cbn [bind].
  destruct (padd p 16); try reflexivity. cbn [bind]. apply IH.
Qed.
Definition mur128_tr le (st : mur128_st) (p : ptr) := mur128_update_ le st p 1.
Definition mur128_bl le (st : mur128_st) (p : ptr) (n : nat) :=
  let k := (n / 16)%nat in
  st <- mur128_update_ le st p k ;; p <- padd p (16 * k) ;; Ok (st, p, (n - 16 * k)%nat).
Lemma mur128_tr_ok le st l : (16 <= length l)%nat -> bytes l ->
  mur128_tr le st (Ptr l) = Ok (Mur128_block st (firstn 16 l)).
Proof.
  intros HL Hb. unfold mur128_tr. cbn [mur128_update_].
  rewrite mur128_step_ok by (assumption || now apply bytes_firstn). cbn [bind].
  rewrite padd_ok by lia. reflexivity.
Qed.
Lemma mur128_bl_ok le st l n : (n <= length l)%nat -> bytes l ->
  mur128_bl le st (Ptr l) n =
  Ok (fold_left Mur128_block (chunks 16 (firstn n l)) st, Ptr (skipn (16 * (n / 16)) l), (n mod 16)%nat).
Proof.
  intros Hn Hl. unfold mur128_bl. cbv zeta. rewrite mur128_update__floop.
  apply (fblocks_ok mur128_st 16 (mur128_step le)); [lia| |assumption|now apply bytes_firstn].
  intros. now apply mur128_step_ok.
Qed.

Lemma mur128_fmix_ok k : mur128_fmix k = fmix64 k.
Proof. reflexivity. Qed.
Lemma LE_firstn_pad r k j : (j <= length r + k)%nat -> LE (firstn j (r ++ zeros k)) = LE (firstn j r).
Proof.
  intros H. rewrite firstn_app. destruct (Nat.le_gt_cases j (length r)) as [HJ|HJ].
  - replace (j - length r)%nat with 0%nat by lia. cbn [firstn]. now rewrite app_nil_r.
  - rewrite firstn_zeros by lia. apply LE_zeros.
Qed.
Lemma LE_skipn_pad r k j : LE (skipn j (r ++ zeros k)) = LE (skipn j r).
Proof. rewrite skipn_app, skipn_zeros. apply LE_zeros. Qed.
Lemma mur128_final_ok le h1 h2 n tail k1 k2 : LE (firstn 8 tail) = k1 -> LE (skipn 8 tail) = k2 ->
  (let k1 := mul64 k1 mur128_c1 in let k1 := rotl64 k1 31 in let k1 := mul64 k1 mur128_c2 in
  let h1 := N.lxor h1 k1 in
  let k2 := mul64 k2 mur128_c2 in let k2 := rotl64 k2 33 in let k2 := mul64 k2 mur128_c1 in
  let h2 := N.lxor h2 k2 in
  let h1 := N.lxor h1 n in
  let h2 := N.lxor h2 n in
  let h1 := add64 h1 h2 in
  let h2 := add64 h2 h1 in
  let h1 := mur128_fmix h1 in
  let h2 := mur128_fmix h2 in
  let h1 := add64 h1 h2 in
  let h2 := add64 h2 h1 in
  write64le (rt le) h1 ++ write64le (rt le) h2) = Mur128_final (h1, h2) n tail.
Proof.
  intros <- <-. cbv zeta. rewrite (write64le_ok (rt le) (add64 _ (add64 _ _))), write64le_ok.
  change mur128_fmix with fmix64. unfold Mur128_final, Mur128_k1, Mur128_k2. cbv zeta. rewrite !rotl64_ROTL by reflexivity.
  change le_bytes with toLE.
  unfold mur128_c1, mur128_c2, add64, mul64, ADD, MUL, w64. reflexivity.
Qed.

Section C128.
Variable cw : N.
Hypothesis Hcw : cw = 2^32 \/ cw = 2^64.

Lemma mur128_update_gen le s p n :
  mur128_update cw le s p n = gen_update mur128_st 16 true false cw (rt le) (mur128_tr le) (mur128_bl le) s p n.
Proof. reflexivity. Qed.

Notation Rel := (RelB mur128_st 16 false cw Mur128_block).
Notation ok := (okB mur128_st 16 cw).
Lemma mcw128_0 : cw <> 0.
Proof. destruct Hcw as [-> | ->]; discriminate. Qed.
Lemma mur128_ok_true a : ok a.
Proof. destruct a as [[st c] l]. left. destruct Hcw as [-> | ->]; reflexivity. Qed.

Lemma mur128_result_ok le a s : Rel a s ->
  exists s', mur128_result cw le s = Ok (fst (mur128_ar cw a), s') /\ Rel (snd (mur128_ar cw a)) s'
    /\ b_buf s' = zeros 16.
Proof.
  intros HR. destruct a as [[st c] l]. pose proof HR as (_ & Hc & _).
  destruct (RelB_inv mur128_st 16 false cw Mur128_block ltac:(lia) mcw128_0 st c l s HR (mur128_ok_true _))
    as (Hl & Hst & Hm & Hlt & Hn & HA & HBL & Hf & _).
  unfold mur128_result. change (N.of_nat 16) with 16 in HA. rewrite HA. cbn [assert_ bind].
  rewrite Hm. set (r := rest 16 l) in *.
  change std_memset with (memset (rt true)). rewrite memset_ok by lia. cbn [bind].
  assert (Hbuf : splice (b_buf s) (length r) (repeat 0 (16 - length r)) = r ++ zeros (16 - length r)).
  { unfold splice. rewrite Hf, repeat_length. rewrite skipn_all2 by lia. now rewrite app_nil_r. }
  rewrite Hbuf. clear Hbuf.
  assert (Hbr : bytes (r ++ zeros (16 - length r))).
  { apply bytes_app. split; [now apply rest_bytes|apply bytes_zeros]. }
  assert (Hlr : length (r ++ zeros (16 - length r)) = 16%nat) by (rewrite app_length, zeros_length; lia).
  unfold mur128_ar. change mur128_st with (N * N)%type in *. rewrite <- Hst. fold r. destruct (b_st s) as [h1 h2] eqn:Ehs.
  rewrite padd_ok by lia. cbn [bind]. change (skipn 0 (r ++ zeros (16 - length r))) with (r ++ zeros (16 - length r)).
  rewrite read64le_ok' by (lia || now apply bytes_firstn). cbn [bind].
  rewrite padd_ok by lia. cbn [bind].
  rewrite read64le_ok' by ((rewrite skipn_length; lia) || now apply bytes_firstn, bytes_skipn). cbn [bind].
  rewrite (firstn_all2 (skipn 8 (r ++ zeros (16 - length r)))) by (rewrite skipn_length; lia).
  pose proof (mur128_final_ok le h1 h2 (b_n s) r (le_val (firstn 8 (r ++ zeros (16 - length r)))) (le_val (skipn 8 (r ++ zeros (16 - length r))))) as EF.
  specialize (EF ltac:(symmetry; apply LE_firstn_pad; lia) ltac:(symmetry; apply LE_skipn_pad)).
  cbv zeta in EF. cbv zeta.
  rewrite memset_ok by lia. cbn [bind].
  rewrite splice_0_all by (rewrite repeat_length; lia).
  rewrite EF. clear EF. cbn [fst snd].
  rewrite Hn. eexists. split; [reflexivity|]. split; [|reflexivity].
  rewrite N.add_mod_idemp_l by apply mcw128_0.
  rewrite <- N.add_assoc, <- Nat2N.inj_add.
  assert (Hr : length r = (length l mod 16)%nat) by (apply rest_length; lia).
  rewrite Hr. apply RelB_aligned.
  - lia.
  - apply align_mod; [lia|exact Hc].
  - apply repeat_length.
  - discriminate.
Qed.

Lemma mur128_refines le junk :
  refines (mur128_class cw le junk) true (ast (N * N)) ab_au (mur128_ar cw) ok Rel.
Proof.
  eapply (blk_refines mur128_st 16 true false cw (rt le) (mur128_tr le) (mur128_bl le) Mur128_block).
  - lia.
  - apply mcw128_0.
  - intros. now apply mur128_tr_ok.
  - intros. now apply mur128_bl_ok.
  - reflexivity.
  - apply mur128_update_gen.
  - intros a s HR _ _. destruct (mur128_result_ok le a s HR) as (s' & E1 & E2 & _). eauto.
Qed.

Lemma mur128_fresh junk h : length junk = 16%nat -> Rel (h, 0, []) (mkB h junk 0 0).
Proof.
  intros HJ. rewrite <- (N.mod_0_l cw) at 2 by apply mcw128_0.
  apply RelB_aligned; [lia|reflexivity|exact HJ|discriminate].
Qed.

Lemma mur128_construct le junk c : length junk = 16%nat -> valid_ctor c ->
  exists s, construct (mur128_class cw le junk) c = Ok s /\ Rel (mur128_start cw c) s.
Proof.
  intros HJ HC. destruct c as [|n|p n]; cbn [construct mur128_start mur128_class h_init h_seed h_bytes].
  - eexists. split; [reflexivity|]. now apply mur128_fresh.
  - eexists. split; [reflexivity|]. now apply mur128_fresh.
  - cbn [valid_ctor] in HC. pose proof (valid_data _ _ _ HC) as [Hdb Hdl].
    unfold mur128_bytes. cbv zeta. destruct (Nat.eqb_spec n 0) as [->|H2].
    + cbn [Nat.leb]. eexists. split; [reflexivity|]. destruct (data p 0); [|discriminate]. now apply mur128_fresh.
    + destruct p as [|l]; [destruct HC; lia|]. cbn [valid_arg data] in *. destruct HC as [HC1 HC2].
      assert (ES : forall k, (n <= k)%nat -> splice (zeros k) 0 (firstn n l) = firstn n l ++ zeros (k - n)).
      { intros k Hk. unfold splice. cbn [firstn app Nat.add]. f_equal. rewrite Hdl. now rewrite skipn_zeros. }
      assert (EB : forall k, bytes (firstn n l ++ zeros k)).
      { intros k. apply bytes_app. split; [exact Hdb|apply bytes_zeros]. }
      destruct (Nat.leb_spec n 8) as [H4|H4]; [|destruct (Nat.leb_spec n 16) as [H5|H5]].
      * change std_memcpy with (memcpy (rt true)). rewrite memcpy_ok by (rewrite ?zeros_length; lia). cbn [bind].
        rewrite ES by lia. rewrite read64le_ok' by ((rewrite app_length, zeros_length, Hdl; lia) || apply bytes_firstn, EB).
        cbn [bind]. rewrite firstn_all2 by (rewrite app_length, zeros_length, Hdl; lia).
        eexists. split; [reflexivity|]. change le_val with LE. rewrite LE_zeros. now apply mur128_fresh.
      * change std_memcpy with (memcpy (rt true)). rewrite memcpy_ok by (rewrite ?zeros_length; lia). cbn [bind].
        rewrite ES by lia. rewrite padd_ok by (rewrite app_length, zeros_length, Hdl; lia). cbn [bind].
        change (skipn 0 (firstn n l ++ zeros (18 - n))) with (firstn n l ++ zeros (18 - n)).
        rewrite read64le_ok' by ((rewrite app_length, zeros_length, Hdl; lia) || apply bytes_firstn, EB).
        cbn [bind]. rewrite padd_ok by (rewrite app_length, zeros_length, Hdl; lia). cbn [bind].
        rewrite read64le_ok' by ((rewrite skipn_length, app_length, zeros_length, Hdl; lia) || apply bytes_firstn, bytes_skipn, EB).
        cbn [bind]. change le_val with LE.
        rewrite LE_firstn_pad by (rewrite Hdl; lia).
        replace (LE (firstn 8 (skipn 8 (firstn n l ++ zeros (18 - n))))) with (LE (skipn 8 (firstn n l))).
        -- eexists. split; [reflexivity|]. now apply mur128_fresh.
        -- rewrite skipn_app, skipn_zeros. rewrite LE_firstn_pad by (rewrite skipn_length, Hdl; lia).
           rewrite (firstn_all2 (skipn 8 (firstn n l))) by (rewrite skipn_length, Hdl; lia). reflexivity.
      * rewrite padd_ok by lia. cbn [bind]. change (skipn 0 l) with l.
        rewrite read64le_ok' by (lia || now apply bytes_firstn). cbn [bind].
        rewrite padd_ok by lia. cbn [bind].
        rewrite read64le_ok' by ((rewrite skipn_length; lia) || now apply bytes_firstn, bytes_skipn). cbn [bind].
        rewrite padd_ok by lia. cbn [bind].
        assert (HV : valid_arg true (Ptr (skipn 16 l)) (n - 16)).
        { split; [rewrite skipn_length; lia|now apply bytes_skipn]. }
        destruct (rf_update _ _ _ _ _ _ _ (mur128_refines le junk) _ _ (Ptr (skipn 16 l)) (n - 16)%nat
                   (mur128_fresh junk (le_val (firstn 8 l), le_val (firstn 8 (skipn 8 l))) HJ) (mur128_ok_true _) HV (mur128_ok_true _))
          as (s1 & E1 & R1).
        cbn [mur128_class h_update] in E1. change mur128_st with (N * N)%type in *. rewrite E1. cbn [bind].
        destruct (mur128_result_ok le _ _ R1) as (s2 & E2 & R2 & _). rewrite E2. cbn [bind].
        exists s2. split; [reflexivity|]. cbn [ab_au data app] in R2.
        rewrite (firstn_firstn_le 8 n) by lia. rewrite !skipn_firstn_comm.
        rewrite (firstn_firstn_le 8 (n - 8)) by lia. exact R2.
Qed.

(* every history *)
Theorem mur128_exec le junk c ops : length junk = 16%nat -> valid_ctor c -> Forall (valid_op true) ops ->
  exists s, exec (mur128_class cw le junk) c ops
    = Ok (aseg ab_au (mur128_ar cw) (mur128_start cw c) (segments [] ops), s) /\
    Rel (snd (arun ab_au (mur128_ar cw) (mur128_start cw c) ops)) s.
Proof.
  intros HJ HC HO. apply (refines_exec _ _ _ _ _ _ _ (mur128_refines le junk)).
  - now apply mur128_construct.
  - exact HO.
  - generalize (mur128_start cw c). induction ops as [|[p n|] ops IH]; intros a; cbn [aok];
      (split; [apply mur128_ok_true|]); auto; apply IH; inversion HO; assumption.
Qed.
(* the two-seed constructor *)
Theorem mur128_exec2 le junk s1 s2 ops : length junk = 16%nat -> Forall (valid_op true) ops ->
  exists s, run (mur128_class cw le junk) (mur128_seed2 junk s1 s2) ops
    = Ok (aseg ab_au (mur128_ar cw) ((s1, s2), 0, []) (segments [] ops), s) /\
    Rel (snd (arun ab_au (mur128_ar cw) ((s1, s2), 0, []) ops)) s.
Proof.
  intros HJ HO. pose proof (mur128_refines le junk) as RF.
  destruct (run_refines _ _ _ _ _ _ _ RF ops ((s1, s2), 0, []) (mur128_seed2 junk s1 s2)) as (s & E & R).
  - now apply mur128_fresh.
  - exact HO.
  - generalize ((s1, s2), 0, @nil N). clear -HO Hcw. induction ops as [|[p n|] ops IH]; intros a; cbn [aok];
      (split; [apply mur128_ok_true|]); auto; apply IH; inversion HO; assumption.
  - exists s. split; [|exact R]. rewrite E. do 2 f_equal.
    pose proof (arun_segments ab_au (mur128_ar cw) (rf_nil _ _ _ _ _ _ _ RF) (rf_app _ _ _ _ _ _ _ RF) ops ((s1, s2), 0, []) []) as AS.
    rewrite (rf_nil _ _ _ _ _ _ _ RF) in AS. exact AS.
Qed.

(* the first result is the published function *)
Theorem mur128_first s1 s2 l : N.of_nat (length l) < cw ->
  fst (mur128_ar cw ((s1, s2), 0, l)) = MurmurHash3_x64_128 s1 s2 l.
Proof.
  intros HL. unfold mur128_ar, MurmurHash3_x64_128. cbn [fst].
  rewrite N.add_0_l, (N.mod_small _ cw) by exact HL. reflexivity.
Qed.
End C128.

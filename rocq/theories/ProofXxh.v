(* xxhash_32 and xxhash_64. *)
From Verif Require Import Base BaseFacts SpecCommon Gen Hasher GenMD Words Loops GenBlk ModelXxh SpecXxh.
Open Scope N_scope.

(* ------------------------------------------------------------------ xxhash_32 *)
(* The abstract algorithm.  The first result is XXH32; result() then perturbs the
   accumulators and the byte count continues from the next multiple of the stripe size. *)
Definition xx32_acc (v : XXH_acc) (n : N) (tail : list N) : N :=
  let '(v1, v2, v3, v4) := v in
  XXH32_consume (ADD 32 (if n <? 16 then ADD 32 v3 PRIME32_5 else XXH32_converge v) n) tail.
Definition xx32_ar (cw : N) (a : ast XXH_acc) : N * ast XXH_acc :=
  let '(st, c, l) := a in
  let v := fold_left XXH32_stripe (chunks 16 l) st in
  let h := xx32_acc v ((c + N.of_nat (length l)) mod cw) (rest 16 l) in
  let '(v1, v2, v3, v4) := v in
  (XXH32_avalanche h,
   ((add32 v1 h, add32 v2 h, sub32 v3 h, sub32 v4 h),
    c + N.of_nat (length l + (16 - length l mod 16)), [])).

Definition xx32_start (cw : N) (c : ctor) : ast XXH_acc :=
  match c with
  | CDefault => (XXH32_init 0, 0, [])
  | CSeed n =>
      (if n / 2^32 =? 0 then XXH32_init n
       else let '(a1, a2, a3, a4) := XXH32_init (n mod 2^32) in
            let s1 := n / 2^32 in
            (XXH32_round a1 s1, XXH32_round a2 s1, XXH32_round a3 s1, XXH32_round a4 s1), 0, [])
  | CBytes p n =>
      if Nat.eqb n 0 then (XXH32_init 0, 0, [])
      else snd (xx32_ar cw (XXH32_init 0, 0, data p n))
  end.

Definition xx32_class (cw : N) (pf : plat) : hasher :=
  {| h_S := bst xx32_st; h_R := N; h_init := xx32_init;
     h_seed := xx32_seed; h_bytes := xx32_bytes cw pf;
     h_update := xx32_update cw pf; h_result := xx32_result cw pf |}.

Lemma xx32_round_ok a k : xx32_round a k = XXH32_round a k.
Proof. unfold xx32_round, XXH32_round. cbv zeta. rewrite rotl32_ROTL by reflexivity. reflexivity. Qed.

Lemma xx32_step_ok pf st l : (16 <= length l)%nat -> bytes (firstn 16 l) ->
  xx32_step pf st (Ptr l) = Ok (XXH32_stripe st (firstn 16 l)).
Proof.
  intros HL Hb. unfold xx32_step, XXH32_stripe. destruct st as [[[v1 v2] v3] v4].
  rewrite padd_ok by lia. cbn [bind].
  rewrite read32le_ok' by ((rewrite skipn_length; lia) || (eapply bytes_firstn_skipn; [|exact Hb]; lia)). cbn [bind].
  rewrite padd_ok by lia. cbn [bind].
  rewrite read32le_ok' by ((rewrite skipn_length; lia) || (eapply bytes_firstn_skipn; [|exact Hb]; lia)). cbn [bind].
  rewrite padd_ok by lia. cbn [bind].
  rewrite read32le_ok' by ((rewrite skipn_length; lia) || (eapply bytes_firstn_skipn; [|exact Hb]; lia)). cbn [bind].
  rewrite padd_ok by lia. cbn [bind].
  rewrite read32le_ok' by ((rewrite skipn_length; lia) || (eapply bytes_firstn_skipn; [|exact Hb]; lia)). cbn [bind].
  cbv zeta. rewrite !xx32_round_ok. unfold lane32.
  rewrite !firstn_skipn_firstn by (cbn; lia). reflexivity.
Qed.

Lemma xx32_update__floop pf k : forall st p,
  xx32_update_ pf st p k = floop xx32_st 16 (xx32_step pf) st p k.
Proof.
  induction k as [|k IH]; intros st p; [reflexivity|]. cbn [xx32_update_ floop].
  destruct (xx32_step pf st p); try reflexivity. cbn [bind].
  destruct (padd p 16); try reflexivity. cbn [bind]. apply IH.
Qed.

Definition xx32_tr pf (st : xx32_st) (p : ptr) := xx32_update_ pf st p 1.
Definition xx32_bl pf (st : xx32_st) (p : ptr) (n : nat) :=
  let k := (n / 16)%nat in
  st <- xx32_update_ pf st p k ;; p <- padd p (16 * k) ;; Ok (st, p, (n - 16 * k)%nat).
Lemma xx32_tr_ok pf st l : (16 <= length l)%nat -> bytes l ->
  xx32_tr pf st (Ptr l) = Ok (XXH32_stripe st (firstn 16 l)).
Proof.
  intros HL Hb. unfold xx32_tr. cbn [xx32_update_].
  rewrite xx32_step_ok by (assumption || now apply bytes_firstn). cbn [bind].
  rewrite padd_ok by lia. reflexivity.
Qed.
Lemma xx32_bl_ok pf st l n : (n <= length l)%nat -> bytes l ->
  xx32_bl pf st (Ptr l) n =
  Ok (fold_left XXH32_stripe (chunks 16 (firstn n l)) st, Ptr (skipn (16 * (n / 16)) l), (n mod 16)%nat).
Proof.
  intros Hn Hl. unfold xx32_bl. cbv zeta. rewrite xx32_update__floop.
  apply (fblocks_ok xx32_st 16 (xx32_step pf)); [lia| |assumption|now apply bytes_firstn].
  intros. now apply xx32_step_ok.
Qed.

Section C32.
Variable cw : N.
Hypothesis Hcw : cw = 2^32 \/ cw = 2^64.

Lemma xx32_update_gen pf s p n :
  xx32_update cw pf s p n = gen_update xx32_st 16 true false cw pf (xx32_tr pf) (xx32_bl pf) s p n.
Proof. reflexivity. Qed.

Notation Rel := (RelB xx32_st 16 false cw XXH32_stripe).
Notation ok := (okB xx32_st 16 cw).
Lemma cw32_0 : cw <> 0.
Proof. destruct Hcw as [-> | ->]; discriminate. Qed.
Lemma xx32_ok_true a : ok a.
Proof. destruct a as [[st c] l]. left. destruct Hcw as [-> | ->]; reflexivity. Qed.

Definition XXH32_bytel (h : N) (d : list N) : N := XXH32_byte h (hd 0 d).
Lemma fold_byte32 l : forall h, fold_left XXH32_bytel (chunks 1 l) h = fold_left XXH32_byte l h.
Proof. intros h. rewrite chunks_1, fold_left_map. reflexivity. Qed.
Lemma xx32_loop4_w pf fuel : forall h p m, xx32_loop4 pf fuel h p m
  = wblocks N 4 (fun h p => k <- read32le pf p ;; Ok (mul32 (rotl32 (add32 h (mul32 k xx32_P3)) 17) xx32_P4)) fuel h p m.
Proof.
  induction fuel as [|fuel IH]; intros h p m; [reflexivity|]. cbn [xx32_loop4 wblocks].
  destruct (Nat.leb 4 m); [|reflexivity].
  destruct (read32le pf p); try reflexivity. cbn [bind].
  destruct (padd p 4); try reflexivity. cbn [bind]. apply IH.
Qed.
Lemma xx32_loop4_ok pf h l m : (m <= length l)%nat -> bytes (firstn m l) ->
  xx32_loop4 pf m h (Ptr l) m
  = Ok (fold_left XXH32_word (chunks 4 (firstn m l)) h, Ptr (skipn (4 * (m / 4)) l), (m mod 4)%nat).
Proof.
  intros H Hb. rewrite xx32_loop4_w. apply wblocks_ok'; [lia| |lia|exact H|exact Hb].
  intros a d Hd Hbd. rewrite read32le_ok' by assumption. cbn [bind].
  unfold XXH32_word. rewrite ?xx64_round_ok. rewrite rotl32_ROTL by reflexivity. reflexivity.
Qed.
Lemma xx32_loop1_w pf fuel : forall h p m, xx32_loop1 pf fuel h p m
  = wblocks N 1 (fun h p => k <- deref p 0 ;; Ok (mul32 (rotl32 (add32 h (mul32 k xx32_P5)) 11) xx32_P1)) fuel h p m.
Proof.
  induction fuel as [|fuel IH]; intros h p m; [reflexivity|]. cbn [xx32_loop1 wblocks].
  change (Nat.ltb 0 m) with (Nat.leb 1 m). destruct (Nat.leb 1 m); [|reflexivity].
  destruct (deref p 0); try reflexivity. cbn [bind].
  destruct (padd p 1); try reflexivity. cbn [bind]. apply IH.
Qed.
Lemma xx32_loop1_ok pf h l m : (m <= length l)%nat -> bytes (firstn m l) ->
  xx32_loop1 pf m h (Ptr l) m
  = Ok (fold_left XXH32_bytel (chunks 1 (firstn m l)) h, Ptr (skipn (1 * (m / 1)) l), (m mod 1)%nat).
Proof.
  intros H Hb. rewrite xx32_loop1_w. apply wblocks_ok'; [lia| |lia|exact H|exact Hb].
  intros a d Hd Hbd. destruct d as [|b d]; [cbn in Hd; lia|]. cbn [deref nth_error bind firstn].
  unfold XXH32_bytel, XXH32_byte. rewrite rotl32_ROTL by reflexivity. reflexivity.
Qed.

Lemma xx32_consume_ok pf h buf m : (m <= length buf)%nat -> bytes (firstn m buf) ->
  ('(h, p, m) <- xx32_loop4 pf m h (Ptr buf) m ;; '(h, _, _) <- xx32_loop1 pf m h p m ;; Ok h) = Ok (XXH32_consume h (firstn m buf)).
Proof.
  intros Hm Hb. rewrite xx32_loop4_ok by assumption. cbn [bind].
  rewrite xx32_loop1_ok.
  - cbn [bind]. rewrite fold_byte32. unfold XXH32_consume. rewrite rest_firstn by lia. reflexivity.
  - rewrite skipn_length. pose proof (Nat.div_mod m 4 ltac:(lia)). lia.
  - eapply bytes_firstn_skipn; [|exact Hb]. pose proof (Nat.div_mod m 4 ltac:(lia)). lia.
Qed.

Lemma xx32_mix_ok h : xx32_mix h = XXH32_avalanche h.
Proof. reflexivity. Qed.

Lemma xx32_conv_ok v1 v2 v3 v4 :
  add32 (add32 (add32 (rotl32 v1 1) (rotl32 v2 7)) (rotl32 v3 12)) (rotl32 v4 18) = XXH32_converge (v1, v2, v3, v4).
Proof. unfold XXH32_converge. rewrite !rotl32_ROTL by reflexivity. reflexivity. Qed.

Lemma xx32_result_ok pf a s : Rel a s ->
  exists s', xx32_result cw pf s = Ok (fst (xx32_ar cw a), s') /\ Rel (snd (xx32_ar cw a)) s'
    /\ b_buf s' = zeros 16.
Proof.
  intros HR. destruct a as [[st c] l]. pose proof HR as (_ & Hc & _).
  destruct (RelB_inv xx32_st 16 false cw XXH32_stripe ltac:(lia) cw32_0 st c l s HR (xx32_ok_true _))
    as (Hl & Hst & Hm & Hlt & Hn & HA & HBL & Hf & _).
  unfold xx32_result. change (N.of_nat 16) with 16 in HA. rewrite HA. cbn [assert_ bind].
  rewrite Hm. set (r := rest 16 l) in *.
  unfold xx32_ar. change xx32_st with XXH_acc in *. rewrite <- Hst. fold r. destruct (b_st s) as [[[v1 v2] v3] v4].
  assert (Hcons : forall h (f : N -> res (N * bst xx32_st)),
    ('(h, p, m) <- xx32_loop4 pf (length r) h (Ptr (b_buf s)) (length r) ;; '(h, p, m) <- xx32_loop1 pf m h p m ;; f h) = f (XXH32_consume h r)).
  { intros h f. pose proof (xx32_consume_ok pf h (b_buf s) (length r)) as E.
    rewrite Hf in E. specialize (E ltac:(lia) ltac:(now apply rest_bytes)).
    destruct (xx32_loop4 pf (length r) h (Ptr (b_buf s)) (length r)) as [[[a p] q]| | |]; try discriminate.
    cbn [bind] in E |- *. destruct (xx32_loop1 pf q a p q) as [[[a' p'] q']| | |]; try discriminate.
    cbn [bind] in E |- *. now injection E as ->. }
  rewrite Hcons. rewrite memset_ok by lia. cbn [bind].
  rewrite splice_0_all by (rewrite repeat_length; lia).
  set (h := XXH32_consume _ r).
  assert (Hh : h = xx32_acc (v1, v2, v3, v4) ((c + N.of_nat (length l)) mod cw) r).
  { unfold h, xx32_acc. f_equal. match goal with |- add32 ?x (?y mod 2^32) = _ => replace (add32 x (y mod 2^32)) with (ADD 32 x y) by (unfold add32, ADD, w32; now rewrite N.add_mod_idemp_r by discriminate) end. rewrite Hn.
    destruct (N.leb_spec 16 ((c + N.of_nat (length l)) mod cw)) as [HG|HG].
    - rewrite (proj2 (N.ltb_ge _ _) HG). f_equal; rewrite ?xx32_conv_ok; reflexivity.
    - rewrite (proj2 (N.ltb_lt _ _) HG). reflexivity. }
  rewrite <- Hh. rewrite xx32_mix_ok. clear Hcons. clearbody h. cbn [fst snd].
  eexists. split; [reflexivity|]. cbn [snd]. split; [|reflexivity].
  rewrite Hn. rewrite N.add_mod_idemp_l by apply cw32_0.
  rewrite <- N.add_assoc, <- Nat2N.inj_add.
  assert (Hr : length r = (length l mod 16)%nat) by (apply rest_length; lia).
  rewrite Hr. apply RelB_aligned.
  - lia.
  - rewrite Nat2N.inj_add, N.add_assoc. apply N.mod_divide; [discriminate|].
    pose proof (Nat.div_mod (length l) 16 ltac:(lia)) as D.
    pose proof (Nat.mod_upper_bound (length l) 16 ltac:(lia)) as U.
    apply N.mod_divide in Hc; [|discriminate]. destruct Hc as [q Hq].
    exists (q + N.of_nat (length l / 16 + 1)). rewrite Hq.
    set (a := (length l / 16)%nat) in *. set (b := (length l mod 16)%nat) in *. clearbody a b.
    change (N.of_nat 16) with 16. lia.
  - apply repeat_length.
  - discriminate.
Qed.

Lemma xx32_refines pf :
  refines (xx32_class cw pf) true (ast XXH_acc) ab_au (xx32_ar cw) ok Rel.
Proof.
  eapply (blk_refines xx32_st 16 true false cw pf (xx32_tr pf) (xx32_bl pf) XXH32_stripe).
  - lia.
  - apply cw32_0.
  - intros. now apply xx32_tr_ok.
  - intros. now apply xx32_bl_ok.
  - reflexivity.
  - apply xx32_update_gen.
  - intros a s HR _ _. destruct (xx32_result_ok pf a s HR) as (s' & E1 & E2 & _). eauto.
Qed.

Lemma xx32_init__ok n : n < 2^32 -> xx32_init_ n = XXH32_init n.
Proof.
  intros H. unfold xx32_init_, XXH32_init, add32, sub32. cbv zeta.
  rewrite N.add_mod_idemp_l by discriminate.
  rewrite (N.mod_small n (2^32)) by exact H. reflexivity.
Qed.

Lemma xx32_init_ok : Rel (XXH32_init 0, 0, []) xx32_init.
Proof.
  unfold xx32_init.
  pose proof (RelB_aligned xx32_st 16 false cw XXH32_stripe ltac:(lia) (XXH32_init 0) 0 (zeros 16) eq_refl eq_refl ltac:(discriminate)) as R.
  rewrite N.mod_0_l in R by apply cw32_0. exact R.
Qed.

Lemma xx32_construct pf c : valid_ctor c ->
  exists s, construct (xx32_class cw pf) c = Ok s /\ Rel (xx32_start cw c) s.
Proof.
  intros HC. destruct c as [|n|p n]; cbn [construct xx32_start xx32_class h_init h_seed h_bytes].
  - exists xx32_init. split; [reflexivity|apply xx32_init_ok].
  - unfold xx32_seed. cbn [valid_ctor] in HC. cbv zeta.
    assert (H0 : n mod 2^32 < 2^32) by (apply N.mod_lt; discriminate).
    rewrite xx32_init__ok by exact H0. unfold shr. rewrite N.shiftr_div_pow2.
    assert (H1 : n / 2^32 < 2^32).
    { apply N.div_lt_upper_bound; [discriminate|]. exact HC. }
    rewrite (N.mod_small (n / 2^32)) by exact H1.
    destruct (N.eqb_spec (n / 2^32) 0) as [HZ|HZ]; cbn [negb].
    + assert (HE : n mod 2^32 = n).
      { pose proof (N.div_mod n (2^32) ltac:(discriminate)) as D. rewrite HZ in D. lia. }
      rewrite HE. destruct (XXH32_init n) as [[[a1 a2] a3] a4] eqn:E. rewrite <- E.
      eexists. split; [reflexivity|]. rewrite <- (N.mod_0_l cw) at 2 by apply cw32_0.
      apply RelB_aligned; [lia|reflexivity|reflexivity|discriminate].
    + destruct (XXH32_init (n mod 2^32)) as [[[a1 a2] a3] a4]. rewrite !xx32_round_ok.
      eexists. split; [reflexivity|]. rewrite <- (N.mod_0_l cw) at 2 by apply cw32_0.
      apply RelB_aligned; [lia|reflexivity|reflexivity|discriminate].
  - unfold xx32_bytes. destruct (Nat.eqb_spec n 0) as [->|H2]; cbn [negb].
    + exists xx32_init. split; [reflexivity|apply xx32_init_ok].
    + cbn [valid_ctor] in HC.
      destruct (rf_update _ _ _ _ _ _ _ (xx32_refines pf) _ _ p n xx32_init_ok (xx32_ok_true _) HC (xx32_ok_true _))
        as (s1 & E1 & R1).
      cbn [xx32_class h_update] in E1. rewrite E1. cbn [bind].
      destruct (xx32_result_ok pf _ _ R1) as (s2 & E2 & R2 & _). rewrite E2. cbn [bind].
      exists s2. split; [reflexivity|exact R2].
Qed.

(* Main theorem: every history *)
Theorem xx32_exec pf c ops : valid_ctor c -> Forall (valid_op true) ops ->
  exists s, exec (xx32_class cw pf) c ops
    = Ok (aseg ab_au (xx32_ar cw) (xx32_start cw c) (segments [] ops), s) /\
    Rel (snd (arun ab_au (xx32_ar cw) (xx32_start cw c) ops)) s.
Proof.
  intros HC HO. apply (refines_exec _ _ _ _ _ _ _ (xx32_refines pf)).
  - apply xx32_construct. exact HC.
  - exact HO.
  - generalize (xx32_start cw c). induction ops as [|[p n|] ops IH]; intros a; cbn [aok];
      (split; [apply xx32_ok_true|]); auto; apply IH; inversion HO; assumption.
Qed.

(* the first result is the published function *)
Theorem xx32_first seed l : seed < 2^32 -> N.of_nat (length l) < cw ->
  fst (xx32_ar cw (XXH32_init seed, 0, l)) = XXH32 seed l.
Proof.
  intros HS HL. unfold xx32_ar, XXH32.
  set (v := fold_left XXH32_stripe (chunks 16 l) (XXH32_init seed)).
  destruct v as [[[v1 v2] v3] v4] eqn:Ev. cbn [fst]. f_equal. unfold xx32_acc. f_equal.
  rewrite N.add_0_l, N.mod_small by exact HL.
  destruct (Nat.ltb_spec (length l) 16) as [H|H].
  - replace (N.of_nat (length l) <? 16) with true by (symmetry; apply N.ltb_lt; lia).
    f_equal. f_equal. unfold v in Ev. rewrite (chunks_short 16) in Ev by lia. cbn [fold_left] in Ev.
    unfold XXH32_init in Ev. injection Ev as _ _ E3 _. rewrite <- E3. now rewrite N.mod_small.
  - replace (N.of_nat (length l) <? 16) with false by (symmetry; apply N.ltb_ge; lia). reflexivity.
Qed.
End C32.

(* ------------------------------------------------------------------ xxhash_64 *)
(* The abstract algorithm.  The first result is XXH64; result() then perturbs the
   accumulators and the byte count continues from the next multiple of the stripe size. *)
Definition xx64_acc (v : XXH_acc) (n : N) (tail : list N) : N :=
  let '(v1, v2, v3, v4) := v in
  XXH64_consume (ADD 64 (if n <? 32 then ADD 64 v3 PRIME64_5 else XXH64_converge v) n) tail.
Definition xx64_ar (cw : N) (a : ast XXH_acc) : N * ast XXH_acc :=
  let '(st, c, l) := a in
  let v := fold_left XXH64_stripe (chunks 32 l) st in
  let h := xx64_acc v ((c + N.of_nat (length l)) mod cw) (rest 32 l) in
  let '(v1, v2, v3, v4) := v in
  (XXH64_avalanche h,
   ((add64 v1 h, add64 v2 h, sub64 v3 h, sub64 v4 h),
    c + N.of_nat (length l + (32 - length l mod 32)), [])).

Definition xx64_start (cw : N) (c : ctor) : ast XXH_acc :=
  match c with
  | CDefault => (XXH64_init 0, 0, [])
  | CSeed n => (XXH64_init n, 0, [])
  | CBytes p n =>
      if Nat.eqb n 0 then (XXH64_init 0, 0, [])
      else snd (xx64_ar cw (XXH64_init 0, 0, data p n))
  end.

Definition xx64_class (cw : N) (pf : plat) : hasher :=
  {| h_S := bst xx64_st; h_R := N; h_init := xx64_init;
     h_seed := xx64_seed; h_bytes := xx64_bytes cw pf;
     h_update := xx64_update cw pf; h_result := xx64_result cw pf |}.

Lemma xx64_round_ok a k : xx64_round a k = XXH64_round a k.
Proof. unfold xx64_round, XXH64_round. cbv zeta. rewrite rotl64_ROTL by reflexivity. reflexivity. Qed.

Lemma xx64_step_ok pf st l : (32 <= length l)%nat -> bytes (firstn 32 l) ->
  xx64_step pf st (Ptr l) = Ok (XXH64_stripe st (firstn 32 l)).
Proof.
  intros HL Hb. unfold xx64_step, XXH64_stripe. destruct st as [[[v1 v2] v3] v4].
  rewrite padd_ok by lia. cbn [bind].
  rewrite read64le_ok' by ((rewrite skipn_length; lia) || (eapply bytes_firstn_skipn; [|exact Hb]; lia)). cbn [bind].
  rewrite padd_ok by lia. cbn [bind].
  rewrite read64le_ok' by ((rewrite skipn_length; lia) || (eapply bytes_firstn_skipn; [|exact Hb]; lia)). cbn [bind].
  rewrite padd_ok by lia. cbn [bind].
  rewrite read64le_ok' by ((rewrite skipn_length; lia) || (eapply bytes_firstn_skipn; [|exact Hb]; lia)). cbn [bind].
  rewrite padd_ok by lia. cbn [bind].
  rewrite read64le_ok' by ((rewrite skipn_length; lia) || (eapply bytes_firstn_skipn; [|exact Hb]; lia)). cbn [bind].
  cbv zeta. rewrite !xx64_round_ok. unfold lane64.
  rewrite !firstn_skipn_firstn by (cbn; lia). reflexivity.
Qed.

Lemma xx64_update__floop pf k : forall st p,
  xx64_update_ pf st p k = floop xx64_st 32 (xx64_step pf) st p k.
Proof.
  induction k as [|k IH]; intros st p; [reflexivity|]. cbn [xx64_update_ floop].
  destruct (xx64_step pf st p); try reflexivity. cbn [bind].
  destruct (padd p 32); try reflexivity. cbn [bind]. apply IH.
Qed.

Definition xx64_tr pf (st : xx64_st) (p : ptr) := xx64_update_ pf st p 1.
Definition xx64_bl pf (st : xx64_st) (p : ptr) (n : nat) :=
  let k := (n / 32)%nat in
  st <- xx64_update_ pf st p k ;; p <- padd p (32 * k) ;; Ok (st, p, (n - 32 * k)%nat).
Lemma xx64_tr_ok pf st l : (32 <= length l)%nat -> bytes l ->
  xx64_tr pf st (Ptr l) = Ok (XXH64_stripe st (firstn 32 l)).
Proof.
  intros HL Hb. unfold xx64_tr. cbn [xx64_update_].
  rewrite xx64_step_ok by (assumption || now apply bytes_firstn). cbn [bind].
  rewrite padd_ok by lia. reflexivity.
Qed.
Lemma xx64_bl_ok pf st l n : (n <= length l)%nat -> bytes l ->
  xx64_bl pf st (Ptr l) n =
  Ok (fold_left XXH64_stripe (chunks 32 (firstn n l)) st, Ptr (skipn (32 * (n / 32)) l), (n mod 32)%nat).
Proof.
  intros Hn Hl. unfold xx64_bl. cbv zeta. rewrite xx64_update__floop.
  apply (fblocks_ok xx64_st 32 (xx64_step pf)); [lia| |assumption|now apply bytes_firstn].
  intros. now apply xx64_step_ok.
Qed.

Section C64.
Variable cw : N.
Hypothesis Hcw : cw = 2^64.

Lemma xx64_update_gen pf s p n :
  xx64_update cw pf s p n = gen_update xx64_st 32 true false cw pf (xx64_tr pf) (xx64_bl pf) s p n.
Proof. reflexivity. Qed.

Notation Rel := (RelB xx64_st 32 false cw XXH64_stripe).
Notation ok := (okB xx64_st 32 cw).
Lemma cw64_0 : cw <> 0.
Proof. rewrite Hcw; discriminate. Qed.
Lemma xx64_ok_true a : ok a.
Proof. destruct a as [[st c] l]. left. rewrite Hcw; reflexivity. Qed.

Definition XXH64_bytel (h : N) (d : list N) : N := XXH64_byte h (hd 0 d).
Lemma fold_byte64 l : forall h, fold_left XXH64_bytel (chunks 1 l) h = fold_left XXH64_byte l h.
Proof. intros h. rewrite chunks_1, fold_left_map. reflexivity. Qed.
Lemma xx64_loop8_w pf fuel : forall h p m, xx64_loop8 pf fuel h p m
  = wblocks N 8 (fun h p => k <- read64le pf p ;; Ok (add64 (mul64 (rotl64 (N.lxor h (xx64_round 0 k)) 27) xx64_P1) xx64_P4)) fuel h p m.
Proof.
  induction fuel as [|fuel IH]; intros h p m; [reflexivity|]. cbn [xx64_loop8 wblocks].
  destruct (Nat.leb 8 m); [|reflexivity].
  destruct (read64le pf p); try reflexivity. cbn [bind].
  destruct (padd p 8); try reflexivity. cbn [bind]. apply IH.
Qed.
Lemma xx64_loop8_ok pf h l m : (m <= length l)%nat -> bytes (firstn m l) ->
  xx64_loop8 pf m h (Ptr l) m
  = Ok (fold_left XXH64_dword (chunks 8 (firstn m l)) h, Ptr (skipn (8 * (m / 8)) l), (m mod 8)%nat).
Proof.
  intros H Hb. rewrite xx64_loop8_w. apply wblocks_ok'; [lia| |lia|exact H|exact Hb].
  intros a d Hd Hbd. rewrite read64le_ok' by assumption. cbn [bind].
  unfold XXH64_dword. rewrite ?xx64_round_ok. rewrite rotl64_ROTL by reflexivity. reflexivity.
Qed.
Lemma xx64_loop4_w pf fuel : forall h p m, xx64_loop4 pf fuel h p m
  = wblocks N 4 (fun h p => k <- read32le pf p ;; Ok (add64 (mul64 (rotl64 (N.lxor h (mul64 k xx64_P1)) 23) xx64_P2) xx64_P3)) fuel h p m.
Proof.
  induction fuel as [|fuel IH]; intros h p m; [reflexivity|]. cbn [xx64_loop4 wblocks].
  destruct (Nat.leb 4 m); [|reflexivity].
  destruct (read32le pf p); try reflexivity. cbn [bind].
  destruct (padd p 4); try reflexivity. cbn [bind]. apply IH.
Qed.
Lemma xx64_loop4_ok pf h l m : (m <= length l)%nat -> bytes (firstn m l) ->
  xx64_loop4 pf m h (Ptr l) m
  = Ok (fold_left XXH64_word (chunks 4 (firstn m l)) h, Ptr (skipn (4 * (m / 4)) l), (m mod 4)%nat).
Proof.
  intros H Hb. rewrite xx64_loop4_w. apply wblocks_ok'; [lia| |lia|exact H|exact Hb].
  intros a d Hd Hbd. rewrite read32le_ok' by assumption. cbn [bind].
  unfold XXH64_word. rewrite ?xx64_round_ok. rewrite rotl64_ROTL by reflexivity. reflexivity.
Qed.
Lemma xx64_loop1_w pf fuel : forall h p m, xx64_loop1 pf fuel h p m
  = wblocks N 1 (fun h p => k <- deref p 0 ;; Ok (mul64 (rotl64 (N.lxor h (mul64 k xx64_P5)) 11) xx64_P1)) fuel h p m.
Proof.
  induction fuel as [|fuel IH]; intros h p m; [reflexivity|]. cbn [xx64_loop1 wblocks].
  change (Nat.ltb 0 m) with (Nat.leb 1 m). destruct (Nat.leb 1 m); [|reflexivity].
  destruct (deref p 0); try reflexivity. cbn [bind].
  destruct (padd p 1); try reflexivity. cbn [bind]. apply IH.
Qed.
Lemma xx64_loop1_ok pf h l m : (m <= length l)%nat -> bytes (firstn m l) ->
  xx64_loop1 pf m h (Ptr l) m
  = Ok (fold_left XXH64_bytel (chunks 1 (firstn m l)) h, Ptr (skipn (1 * (m / 1)) l), (m mod 1)%nat).
Proof.
  intros H Hb. rewrite xx64_loop1_w. apply wblocks_ok'; [lia| |lia|exact H|exact Hb].
  intros a d Hd Hbd. destruct d as [|b d]; [cbn in Hd; lia|]. cbn [deref nth_error bind firstn].
  unfold XXH64_bytel, XXH64_byte. rewrite rotl64_ROTL by reflexivity. reflexivity.
Qed.

Lemma xx64_consume_ok pf h buf m : (m <= length buf)%nat -> bytes (firstn m buf) ->
  ('(h, p, m) <- xx64_loop8 pf m h (Ptr buf) m ;; '(h, p, m) <- xx64_loop4 pf m h p m ;; '(h, _, _) <- xx64_loop1 pf m h p m ;; Ok h) = Ok (XXH64_consume h (firstn m buf)).
Proof.
  intros Hm Hb. rewrite xx64_loop8_ok by assumption. cbn [bind].
  pose proof (Nat.div_mod m 8 ltac:(lia)) as D8.
  set (q := skipn (8 * (m / 8)) buf).
  assert (Hq : (m mod 8 <= length q)%nat) by (unfold q; rewrite skipn_length; lia).
  assert (Hqb : bytes (firstn (m mod 8) q)) by (eapply bytes_firstn_skipn; [|exact Hb]; lia).
  assert (Er : rest 8 (firstn m buf) = firstn (m mod 8) q) by (apply rest_firstn; lia).
  rewrite xx64_loop4_ok by assumption. cbn [bind].
  pose proof (Nat.div_mod (m mod 8) 4 ltac:(lia)) as D4.
  rewrite xx64_loop1_ok.
  - cbn [bind]. rewrite fold_byte64. unfold XXH64_consume. cbv zeta. rewrite Er.
    rewrite (rest_firstn 4) by lia. reflexivity.
  - rewrite skipn_length. lia.
  - eapply bytes_firstn_skipn; [|exact Hqb]. lia.
Qed.

Lemma xx64_mix_ok h : xx64_mix h = XXH64_avalanche h.
Proof. reflexivity. Qed.

Lemma xx64_merge_ok a v : xx64_merge_round a v = XXH64_merge a v.
Proof. unfold xx64_merge_round, XXH64_merge. cbv zeta. rewrite xx64_round_ok. reflexivity. Qed.
Lemma xx64_conv_ok v1 v2 v3 v4 :
  xx64_merge_round (xx64_merge_round (xx64_merge_round (xx64_merge_round
    (add64 (add64 (add64 (rotl64 v1 1) (rotl64 v2 7)) (rotl64 v3 12)) (rotl64 v4 18)) v1) v2) v3) v4
  = XXH64_converge (v1, v2, v3, v4).
Proof.
  unfold XXH64_converge. cbv zeta.
  repeat match goal with |- context[xx64_merge_round ?a ?v] => rewrite (xx64_merge_ok a v) end.
  rewrite !rotl64_ROTL by reflexivity.
  change add64 with (ADD 64). reflexivity.
Qed.

Lemma xx64_acc_ok v1 v2 v3 v4 n r :
  XXH64_consume (add64 (if 32 <=? n then
    xx64_merge_round (xx64_merge_round (xx64_merge_round (xx64_merge_round
    (add64 (add64 (add64 (rotl64 v1 1) (rotl64 v2 7)) (rotl64 v3 12)) (rotl64 v4 18)) v1) v2) v3) v4
    else add64 v3 xx64_P5) n) r = xx64_acc (v1, v2, v3, v4) n r.
Proof.
  rewrite xx64_conv_ok. unfold xx64_acc, add64, ADD, w64. f_equal.
  destruct (N.leb_spec 32 n) as [HG|HG].
  - rewrite (proj2 (N.ltb_ge _ _) HG). reflexivity.
  - rewrite (proj2 (N.ltb_lt _ _) HG). reflexivity.
Qed.

Lemma xx64_result_ok pf a s : Rel a s ->
  exists s', xx64_result cw pf s = Ok (fst (xx64_ar cw a), s') /\ Rel (snd (xx64_ar cw a)) s'
    /\ b_buf s' = zeros 32.
Proof.
  intros HR. destruct a as [[st c] l]. pose proof HR as (_ & Hc & _).
  destruct (RelB_inv xx64_st 32 false cw XXH64_stripe ltac:(lia) cw64_0 st c l s HR (xx64_ok_true _))
    as (Hl & Hst & Hm & Hlt & Hn & HA & HBL & Hf & _).
  unfold xx64_result. change (N.of_nat 32) with 32 in HA. rewrite HA. cbn [assert_ bind].
  rewrite Hm. set (r := rest 32 l) in *.
  unfold xx64_ar. change xx64_st with XXH_acc in *. rewrite <- Hst. fold r. destruct (b_st s) as [[[v1 v2] v3] v4].
  assert (Hcons : forall h (f : N -> res (N * bst xx64_st)),
    ('(h, p, m) <- xx64_loop8 pf (length r) h (Ptr (b_buf s)) (length r) ;; '(h, p, m) <- xx64_loop4 pf m h p m ;; '(h, p, m) <- xx64_loop1 pf m h p m ;; f h) = f (XXH64_consume h r)).
  { intros h f. pose proof (xx64_consume_ok pf h (b_buf s) (length r)) as E.
    rewrite Hf in E. specialize (E ltac:(lia) ltac:(now apply rest_bytes)).
    destruct (xx64_loop8 pf (length r) h (Ptr (b_buf s)) (length r)) as [[[a p] q]| | |]; try discriminate.
    cbn [bind] in E |- *. destruct (xx64_loop4 pf q a p q) as [[[a' p'] q']| | |]; try discriminate.
    cbn [bind] in E |- *. destruct (xx64_loop1 pf q' a' p' q') as [[[a'' p''] q'']| | |]; try discriminate.
    cbn [bind] in E |- *. now injection E as ->. }
  rewrite Hcons. rewrite memset_ok by lia. cbn [bind].
  rewrite splice_0_all by (rewrite repeat_length; lia).
  set (h := XXH64_consume _ r).
  assert (Hh : h = xx64_acc (v1, v2, v3, v4) ((c + N.of_nat (length l)) mod cw) r).
  { unfold h. rewrite Hn. apply xx64_acc_ok. }
  rewrite <- Hh. rewrite xx64_mix_ok. clear Hcons. clearbody h. cbn [fst snd].
  eexists. split; [reflexivity|]. cbn [snd]. split; [|reflexivity].
  rewrite Hn. rewrite N.add_mod_idemp_l by apply cw64_0.
  rewrite <- N.add_assoc, <- Nat2N.inj_add.
  assert (Hr : length r = (length l mod 32)%nat) by (apply rest_length; lia).
  rewrite Hr. apply RelB_aligned.
  - lia.
  - rewrite Nat2N.inj_add, N.add_assoc. apply N.mod_divide; [discriminate|].
    pose proof (Nat.div_mod (length l) 32 ltac:(lia)) as D.
    pose proof (Nat.mod_upper_bound (length l) 32 ltac:(lia)) as U.
    apply N.mod_divide in Hc; [|discriminate]. destruct Hc as [q Hq].
    exists (q + N.of_nat (length l / 32 + 1)). rewrite Hq.
    set (a := (length l / 32)%nat) in *. set (b := (length l mod 32)%nat) in *. clearbody a b.
    change (N.of_nat 32) with 32. lia.
  - apply repeat_length.
  - discriminate.
Qed.

Lemma xx64_refines pf :
  refines (xx64_class cw pf) true (ast XXH_acc) ab_au (xx64_ar cw) ok Rel.
Proof.
  eapply (blk_refines xx64_st 32 true false cw pf (xx64_tr pf) (xx64_bl pf) XXH64_stripe).
  - lia.
  - apply cw64_0.
  - intros. now apply xx64_tr_ok.
  - intros. now apply xx64_bl_ok.
  - reflexivity.
  - apply xx64_update_gen.
  - intros a s HR _ _. destruct (xx64_result_ok pf a s HR) as (s' & E1 & E2 & _). eauto.
Qed.

Lemma xx64_init__ok n : n < 2^64 -> xx64_init_ n = XXH64_init n.
Proof.
  intros H. unfold xx64_init_, XXH64_init, add64, sub64. cbv zeta.
  rewrite N.add_mod_idemp_l by discriminate.
  rewrite (N.mod_small n (2^64)) by exact H. reflexivity.
Qed.

Lemma xx64_init_ok : Rel (XXH64_init 0, 0, []) xx64_init.
Proof.
  unfold xx64_init.
  pose proof (RelB_aligned xx64_st 32 false cw XXH64_stripe ltac:(lia) (XXH64_init 0) 0 (zeros 32) eq_refl eq_refl ltac:(discriminate)) as R.
  rewrite N.mod_0_l in R by apply cw64_0. exact R.
Qed.

Lemma xx64_construct pf c : valid_ctor c ->
  exists s, construct (xx64_class cw pf) c = Ok s /\ Rel (xx64_start cw c) s.
Proof.
  intros HC. destruct c as [|n|p n]; cbn [construct xx64_start xx64_class h_init h_seed h_bytes].
  - exists xx64_init. split; [reflexivity|apply xx64_init_ok].
  - unfold xx64_seed. cbn [valid_ctor] in HC. rewrite xx64_init__ok by exact HC.
    eexists. split; [reflexivity|]. rewrite <- (N.mod_0_l cw) at 2 by apply cw64_0.
    apply RelB_aligned; [lia|reflexivity|reflexivity|discriminate].
  - unfold xx64_bytes. destruct (Nat.eqb_spec n 0) as [->|H2]; cbn [negb].
    + exists xx64_init. split; [reflexivity|apply xx64_init_ok].
    + cbn [valid_ctor] in HC.
      destruct (rf_update _ _ _ _ _ _ _ (xx64_refines pf) _ _ p n xx64_init_ok (xx64_ok_true _) HC (xx64_ok_true _))
        as (s1 & E1 & R1).
      cbn [xx64_class h_update] in E1. rewrite E1. cbn [bind].
      destruct (xx64_result_ok pf _ _ R1) as (s2 & E2 & R2 & _). rewrite E2. cbn [bind].
      exists s2. split; [reflexivity|exact R2].
Qed.

(* Main theorem: every history *)
Theorem xx64_exec pf c ops : valid_ctor c -> Forall (valid_op true) ops ->
  exists s, exec (xx64_class cw pf) c ops
    = Ok (aseg ab_au (xx64_ar cw) (xx64_start cw c) (segments [] ops), s) /\
    Rel (snd (arun ab_au (xx64_ar cw) (xx64_start cw c) ops)) s.
Proof.
  intros HC HO. apply (refines_exec _ _ _ _ _ _ _ (xx64_refines pf)).
  - apply xx64_construct. exact HC.
  - exact HO.
  - generalize (xx64_start cw c). induction ops as [|[p n|] ops IH]; intros a; cbn [aok];
      (split; [apply xx64_ok_true|]); auto; apply IH; inversion HO; assumption.
Qed.

(* the first result is the published function *)
Theorem xx64_first seed l : seed < 2^64 -> N.of_nat (length l) < cw ->
  fst (xx64_ar cw (XXH64_init seed, 0, l)) = XXH64 seed l.
Proof.
  intros HS HL. unfold xx64_ar, XXH64.
  set (v := fold_left XXH64_stripe (chunks 32 l) (XXH64_init seed)).
  destruct v as [[[v1 v2] v3] v4] eqn:Ev. cbn [fst]. f_equal. unfold xx64_acc. f_equal.
  rewrite N.add_0_l, N.mod_small by exact HL.
  destruct (Nat.ltb_spec (length l) 32) as [H|H].
  - replace (N.of_nat (length l) <? 32) with true by (symmetry; apply N.ltb_lt; lia).
    f_equal. f_equal. unfold v in Ev. rewrite (chunks_short 32) in Ev by lia. cbn [fold_left] in Ev.
    unfold XXH64_init in Ev. injection Ev as _ _ E3 _. rewrite <- E3. now rewrite N.mod_small.
  - replace (N.of_nat (length l) <? 32) with false by (symmetry; apply N.ltb_ge; lia). reflexivity.
Qed.
End C64.

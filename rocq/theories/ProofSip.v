(* siphash_64 and siphash_32. *)
From Verif Require Import Base BaseFacts SpecCommon Gen Hasher GenMD Words GenBlk ModelSip SpecSip.
Open Scope N_scope.

(* The abstract algorithm: result() finalizes and continues from the finalized state; the
   byte count continues from the next multiple of the word size. *)
Definition sip_ar (F : Sip_family) (a : ast Sip_state) : N * ast Sip_state :=
  let '(st, c, l) := a in
  let v := SipFrom F st c l in
  (sout F v, (v, c + N.of_nat (length l + (swb F - length l mod swb F)), [])).

(* ------------------------------------------------------------------ siphash_64 *)
Definition sip64_start (c : ctor) : ast Sip_state :=
  match c with
  | CDefault => (SipInit F64 0 0, 0, [])
  | CSeed n => (SipInit F64 n 0, 0, [])
  | CBytes p n =>
      if Nat.eqb n 16 then (SipInit F64 (LE (firstn 8 (data p n))) (LE (skipn 8 (data p n))), 0, [])
      else if Nat.eqb n 0 then (SipInit F64 0 0, 0, [])
      else snd (sip_ar F64 (SipInit F64 0 0, 0, data p n))
  end.

Definition sip64_class (pf : plat) : hasher :=
  {| h_S := bst sip64_st; h_R := N; h_init := sip64_init;
     h_seed := sip64_seed; h_bytes := sip64_bytes pf;
     h_update := sip64_update pf; h_result := sip64_result pf |}.

Lemma sip64_round_ok v : sip64_sipround v = SipRound F64 v.
Proof.
  destruct v as [[[v0 v1] v2] v3]. unfold sip64_sipround, SipRound. cbv zeta.
  rewrite !rotl64_ROTL by reflexivity. reflexivity.
Qed.

Lemma sip64_update__ok pf st l : (8 <= length l)%nat -> bytes l ->
  sip64_update_ pf st (Ptr l) = Ok (SipWord F64 st (firstn 8 l)).
Proof.
  intros HL Hb. unfold sip64_update_, SipWord. rewrite read64le_ok by assumption. cbn [bind].
  destruct st as [[[v0 v1] v2] v3]. rewrite !sip64_round_ok.
  change (le_val (firstn 8 l)) with (LE (firstn 8 l)).
  destruct (SipRound F64 (v0, v1, v2, N.lxor v3 (LE (firstn 8 l)))) as [[[a0 a1] a2] a3].
  rewrite sip64_round_ok. destruct (SipRound F64 (a0, a1, a2, a3)) as [[[b0 b1] b2] b3]. reflexivity.
Qed.

Definition sip64_bl pf (st : sip64_st) (p : ptr) (n : nat) := sip64_blocks pf n st p n.
Lemma sip64_blocks_w pf fuel : forall st p n,
  sip64_blocks pf fuel st p n = wblocks sip64_st 8 (sip64_update_ pf) fuel st p n.
Proof.
  induction fuel as [|fuel IH]; intros st p n; [reflexivity|].
  cbn [sip64_blocks wblocks]. destruct (Nat.leb 8 n); [|reflexivity].
  destruct (sip64_update_ pf st p); try reflexivity. cbn [bind].
  destruct (padd p 8); try reflexivity. cbn [bind]. apply IH.
Qed.
Lemma sip64_bl_ok pf st l n : (n <= length l)%nat -> bytes l ->
  sip64_bl pf st (Ptr l) n =
  Ok (fold_left (SipWord F64) (chunks 8 (firstn n l)) st, Ptr (skipn (8 * (n / 8)) l), (n mod 8)%nat).
Proof.
  intros Hn Hl. unfold sip64_bl. rewrite sip64_blocks_w.
  apply wblocks_ok; [lia| |lia|assumption|assumption]. intros. now apply sip64_update__ok.
Qed.

Lemma sip64_update_gen pf s p n :
  sip64_update pf s p n = gen_update sip64_st 8 true true (2^64) pf (sip64_update_ pf) (sip64_bl pf) s p n.
Proof. reflexivity. Qed.

Notation Rel64 := (RelB sip64_st 8 true (2^64) (SipWord F64)).
Notation ok64 := (okB sip64_st 8 (2^64)).
Lemma ok64_true a : ok64 a.
Proof. destruct a as [[st c] l]. left. reflexivity. Qed.

Lemma sip64_result_ok pf a s : Rel64 a s ->
  exists s', sip64_result pf s = Ok (fst (sip_ar F64 a), s') /\ Rel64 (snd (sip_ar F64 a)) s'.
Proof.
  intros HR. destruct a as [[st c] l]. pose proof HR as (_ & Hc & _).
  destruct (RelB_inv sip64_st 8 true (2^64) (SipWord F64) ltac:(lia) ltac:(discriminate) st c l s HR (ok64_true _))
    as (Hl & Hst & Hm & Hlt & Hn & HA & HBL & _ & Hbuf).
  specialize (Hbuf eq_refl).
  unfold sip64_result. change (N.of_nat 8) with 8 in HA. rewrite HA. cbn [assert_ bind].
  rewrite Hm. rewrite memset_ok by lia. cbn [bind].
  set (r := rest 8 l) in *.
  assert (Hsp : splice (b_buf s) (length r) (repeat 0 (8 - length r)) = r ++ zeros (8 - length r)).
  { unfold splice. rewrite Hbuf, repeat_length.
    rewrite firstn_app_exact by reflexivity. rewrite skipn_all2 by (rewrite app_length, zeros_length; lia).
    now rewrite app_nil_r. }
  rewrite Hsp.
  assert (Hstore : store (r ++ zeros (8 - length r)) 7 (N.land (b_n s) 255)
     = Ok (SipLast F64 (c + N.of_nat (length l)) r)).
  { unfold store. rewrite app_length, zeros_length.
    replace (length r + (8 - length r))%nat with 8%nat by lia. change (Nat.ltb 7 8) with true. f_equal.
    unfold splice, SipLast. change (swb F64) with 8%nat. cbn [length].
    rewrite firstn_app, firstn_all2 by lia. rewrite skipn_all2 by (rewrite app_length, zeros_length; lia).
    rewrite firstn_zeros by lia. rewrite app_nil_r, <- app_assoc. apply (f_equal Ok), (f_equal (app r)). apply (f_equal2 (@app N)); [unfold zeros; f_equal; lia|].
    f_equal. change 255 with (N.ones 8). rewrite N.land_ones, Hn.
    change (2^8) with 256. rewrite <- (N.mod_mod (c + N.of_nat (length l)) (2^64)) by discriminate.
    set (y := (c + N.of_nat (length l))). clearbody y.
    rewrite N.mod_mod by discriminate. rewrite (mod_mod_dvd y (2^64) 256) by (discriminate || reflexivity). reflexivity. }
  rewrite Hstore. cbn [bind].
  assert (HLast : length (SipLast F64 (c + N.of_nat (length l)) r) = 8%nat).
  { unfold SipLast. rewrite !app_length, repeat_length. change (swb F64) with 8%nat. cbn [length]. lia. }
  assert (HLb : bytes (SipLast F64 (c + N.of_nat (length l)) r)).
  { unfold SipLast. apply bytes_app. split; [now apply rest_bytes|].
    apply bytes_app. split; [apply bytes_zeros|]. apply bytes_cons; [apply N.mod_lt; discriminate|constructor]. }
  rewrite sip64_update__ok by (assumption || lia). cbn [bind]. rewrite firstn_all2 by lia.
  rewrite Hst. rewrite (memset_ok pf _ 0 0 8) by lia. cbn [bind].
  rewrite splice_0_all by (rewrite repeat_length; lia).
  unfold sip_ar, SipFrom. change (swb F64) with 8%nat. fold r.
  destruct (SipWord F64 _ _) as [[[v0 v1] v2] v3]. repeat (match goal with |- context [sip64_sipround ?x] => rewrite (sip64_round_ok x) end). unfold SipFinal.
  destruct (SipRound F64 (SipRound F64 (SipRound F64 (SipRound F64 (v0, v1, N.lxor v2 255, v3))))) as [[[u0 u1] u2] u3].
  eexists. split; [reflexivity|]. cbn [snd].
  unfold add64, w64. rewrite Hn.
  rewrite N.add_mod_idemp_l by discriminate.
  rewrite <- N.add_assoc, <- Nat2N.inj_add.
  assert (Hr : length r = (length l mod 8)%nat) by (apply rest_length; lia).
  rewrite Hr. apply RelB_aligned.
  - lia.
  - rewrite Nat2N.inj_add, N.add_assoc. apply N.mod_divide; [discriminate|].
    pose proof (Nat.div_mod (length l) 8 ltac:(lia)) as D.
    pose proof (Nat.mod_upper_bound (length l) 8 ltac:(lia)) as U.
    apply N.mod_divide in Hc; [|discriminate]. destruct Hc as [q Hq].
    exists (q + N.of_nat (length l / 8 + 1)). rewrite Hq. 
    set (a := (length l / 8)%nat) in *. set (b := (length l mod 8)%nat) in *. clearbody a b.
    change (N.of_nat 8) with 8. lia.
  - apply repeat_length.
  - reflexivity.
Qed.

Lemma sip64_refines pf :
  refines (sip64_class pf) true (ast Sip_state) ab_au (sip_ar F64) ok64 Rel64.
Proof.
  eapply (blk_refines sip64_st 8 true true (2^64) pf (sip64_update_ pf) (sip64_bl pf) (SipWord F64)).
  - lia.
  - discriminate.
  - intros. now apply sip64_update__ok.
  - intros. now apply sip64_bl_ok.
  - reflexivity.
  - apply sip64_update_gen.
  - intros a s HR _ _. now apply sip64_result_ok.
Qed.

Lemma sip64_init_ok : Rel64 (SipInit F64 0 0, 0, []) sip64_init.
Proof. apply RelB_aligned; [lia|reflexivity|reflexivity|reflexivity]. Qed.

Lemma sip64_construct pf c : valid_ctor c ->
  exists s, construct (sip64_class pf) c = Ok s /\ Rel64 (sip64_start c) s.
Proof.
  intros HC. destruct c as [|n|p n]; cbn [construct sip64_start sip64_class h_init h_seed h_bytes].
  - exists sip64_init. split; [reflexivity|apply sip64_init_ok].
  - eexists. split; [reflexivity|]. unfold SipInit. cbn [sinit F64]. rewrite ?N.lxor_0_r.
    apply RelB_aligned; [lia|reflexivity|reflexivity|reflexivity].
  - unfold sip64_bytes. destruct (Nat.eqb_spec n 16) as [->|H1].
    + destruct p as [|l]; cbn [valid_ctor valid_arg data] in *; [destruct HC; discriminate|].
      destruct HC as [HC1 HC2]. rewrite padd_ok by lia. cbn [bind]. change (skipn 0 l) with l.
      rewrite read64le_ok by (assumption || lia). cbn [bind].
      rewrite padd_ok by lia. cbn [bind].
      rewrite read64le_ok; [|rewrite skipn_length; lia|now apply bytes_skipn]. cbn [bind].
      eexists. split; [reflexivity|]. rewrite firstn_firstn_le by lia.
      rewrite skipn_firstn_comm. change (16 - 8)%nat with 8%nat.
      apply RelB_aligned; [lia|reflexivity|reflexivity|reflexivity].
    + destruct (Nat.eqb_spec n 0) as [->|H2]; cbn [negb].
      * exists sip64_init. split; [reflexivity|apply sip64_init_ok].
      * cbn [valid_ctor] in HC.
        destruct (rf_update _ _ _ _ _ _ _ (sip64_refines pf) _ _ p n sip64_init_ok (ok64_true _) HC (ok64_true _))
          as (s1 & E1 & R1).
        cbn [sip64_class h_update] in E1. rewrite E1. cbn [bind].
        destruct (sip64_result_ok pf _ _ R1) as (s2 & E2 & R2). rewrite E2. cbn [bind].
        exists s2. split; [reflexivity|exact R2].
Qed.

(* Main theorem: every history *)
Theorem sip64_exec pf c ops : valid_ctor c -> Forall (valid_op true) ops ->
  exists s, exec (sip64_class pf) c ops
    = Ok (aseg ab_au (sip_ar F64) (sip64_start c) (segments [] ops), s) /\
    Rel64 (snd (arun ab_au (sip_ar F64) (sip64_start c) ops)) s.
Proof.
  intros HC HO. apply (refines_exec _ _ _ _ _ _ _ (sip64_refines pf)).
  - apply sip64_construct. exact HC.
  - exact HO.
  - generalize (sip64_start c). induction ops as [|[p n|] ops IH]; intros a; cbn [aok];
      (split; [apply ok64_true|]); auto; apply IH; inversion HO; assumption.
Qed.

Theorem sip64_exec_eq pf c ops1 ops2 : valid_ctor c ->
  Forall (valid_op true) ops1 -> Forall (valid_op true) ops2 -> segments [] ops1 = segments [] ops2 ->
  exec (sip64_class pf) c ops1 = exec (sip64_class pf) c ops2.
Proof.
  intros HC O1 O2 E.
  destruct (sip64_exec pf c ops1 HC O1) as (s1 & E1 & R1).
  destruct (sip64_exec pf c ops2 HC O2) as (s2 & E2 & R2).
  rewrite E1, E2, E. do 2 f_equal.
  rewrite (arun_final ab_au (sip_ar F64)) in R1 by (intros [[? ?] ?]; cbn; rewrite ?app_nil_r; try intros; rewrite ?app_assoc; reflexivity).
  rewrite (arun_final ab_au (sip_ar F64)) in R2 by (intros [[? ?] ?]; cbn; rewrite ?app_nil_r; try intros; rewrite ?app_assoc; reflexivity).
  rewrite E in R1.
  destruct (afinal ab_au (sip_ar F64) (sip64_start c) (segments [] ops2)) as [[st cc] l].
  destruct R1 as (_ & _ & R1), R2 as (_ & _ & R2).
  eapply Rep_unique; [reflexivity|exact R1|exact R2].
Qed.

(* ------------------------------------------------------------------ siphash_32 *)
Definition sip32_start (c : ctor) : ast Sip_state :=
  match c with
  | CDefault => (SipInit F32 0 0, 0, [])
  | CSeed n => (SipInit F32 (n mod 2^32) (n / 2^32), 0, [])
  | CBytes p n =>
      if Nat.eqb n 8 then (SipInit F32 (LE (firstn 4 (data p n))) (LE (skipn 4 (data p n))), 0, [])
      else if Nat.eqb n 0 then (SipInit F32 0 0, 0, [])
      else snd (sip_ar F32 (SipInit F32 0 0, 0, data p n))
  end.

Definition sip32_class (pf : plat) : hasher :=
  {| h_S := bst sip32_st; h_R := N; h_init := sip32_init;
     h_seed := sip32_seed; h_bytes := sip32_bytes pf;
     h_update := sip32_update pf; h_result := sip32_result pf |}.

Lemma sip32_round_ok v : sip32_sipround v = SipRound F32 v.
Proof.
  destruct v as [[[v0 v1] v2] v3]. unfold sip32_sipround, SipRound. cbv zeta.
  rewrite !rotl32_ROTL by reflexivity. reflexivity.
Qed.

Lemma sip32_update__ok pf st l : (4 <= length l)%nat -> bytes l ->
  sip32_update_ pf st (Ptr l) = Ok (SipWord F32 st (firstn 4 l)).
Proof.
  intros HL Hb. unfold sip32_update_, SipWord. rewrite read32le_ok by assumption. cbn [bind].
  destruct st as [[[v0 v1] v2] v3]. rewrite !sip32_round_ok.
  change (le_val (firstn 4 l)) with (LE (firstn 4 l)).
  destruct (SipRound F32 (v0, v1, v2, N.lxor v3 (LE (firstn 4 l)))) as [[[a0 a1] a2] a3].
  rewrite sip32_round_ok. destruct (SipRound F32 (a0, a1, a2, a3)) as [[[b0 b1] b2] b3]. reflexivity.
Qed.

Definition sip32_bl pf (st : sip32_st) (p : ptr) (n : nat) := sip32_blocks pf n st p n.
Lemma sip32_blocks_w pf fuel : forall st p n,
  sip32_blocks pf fuel st p n = wblocks sip32_st 4 (sip32_update_ pf) fuel st p n.
Proof.
  induction fuel as [|fuel IH]; intros st p n; [reflexivity|].
  cbn [sip32_blocks wblocks]. destruct (Nat.leb 4 n); [|reflexivity].
  destruct (sip32_update_ pf st p); try reflexivity. cbn [bind].
  destruct (padd p 4); try reflexivity. cbn [bind]. apply IH.
Qed.
Lemma sip32_bl_ok pf st l n : (n <= length l)%nat -> bytes l ->
  sip32_bl pf st (Ptr l) n =
  Ok (fold_left (SipWord F32) (chunks 4 (firstn n l)) st, Ptr (skipn (4 * (n / 4)) l), (n mod 4)%nat).
Proof.
  intros Hn Hl. unfold sip32_bl. rewrite sip32_blocks_w.
  apply wblocks_ok; [lia| |lia|assumption|assumption]. intros. now apply sip32_update__ok.
Qed.

Lemma sip32_update_gen pf s p n :
  sip32_update pf s p n = gen_update sip32_st 4 true true (2^32) pf (sip32_update_ pf) (sip32_bl pf) s p n.
Proof. 
  unfold sip32_update, gen_update. unfold add32, w32. rewrite N.add_mod_idemp_r by discriminate. reflexivity. Qed.

Notation Rel32 := (RelB sip32_st 4 true (2^32) (SipWord F32)).
Notation ok32 := (okB sip32_st 4 (2^32)).
Lemma ok32_true a : ok32 a.
Proof. destruct a as [[st c] l]. left. reflexivity. Qed.

Lemma sip32_result_ok pf a s : Rel32 a s ->
  exists s', sip32_result pf s = Ok (fst (sip_ar F32 a), s') /\ Rel32 (snd (sip_ar F32 a)) s'.
Proof.
  intros HR. destruct a as [[st c] l]. pose proof HR as (_ & Hc & _).
  destruct (RelB_inv sip32_st 4 true (2^32) (SipWord F32) ltac:(lia) ltac:(discriminate) st c l s HR (ok32_true _))
    as (Hl & Hst & Hm & Hlt & Hn & HA & HBL & _ & Hbuf).
  specialize (Hbuf eq_refl).
  unfold sip32_result. change (N.of_nat 4) with 4 in HA. rewrite HA. cbn [assert_ bind].
  rewrite Hm. rewrite memset_ok by lia. cbn [bind].
  set (r := rest 4 l) in *.
  assert (Hsp : splice (b_buf s) (length r) (repeat 0 (4 - length r)) = r ++ zeros (4 - length r)).
  { unfold splice. rewrite Hbuf, repeat_length.
    rewrite firstn_app_exact by reflexivity. rewrite skipn_all2 by (rewrite app_length, zeros_length; lia).
    now rewrite app_nil_r. }
  rewrite Hsp.
  assert (Hstore : store (r ++ zeros (4 - length r)) 3 (N.land (b_n s) 255)
     = Ok (SipLast F32 (c + N.of_nat (length l)) r)).
  { unfold store. rewrite app_length, zeros_length.
    replace (length r + (4 - length r))%nat with 4%nat by lia. change (Nat.ltb 3 4) with true. f_equal.
    unfold splice, SipLast. change (swb F32) with 4%nat. cbn [length].
    rewrite firstn_app, firstn_all2 by lia. rewrite skipn_all2 by (rewrite app_length, zeros_length; lia).
    rewrite firstn_zeros by lia. rewrite app_nil_r, <- app_assoc. apply (f_equal Ok), (f_equal (app r)). apply (f_equal2 (@app N)); [unfold zeros; f_equal; lia|].
    f_equal. change 255 with (N.ones 8). rewrite N.land_ones, Hn.
    change (2^8) with 256. rewrite <- (N.mod_mod (c + N.of_nat (length l)) (2^32)) by discriminate.
    set (y := (c + N.of_nat (length l))). clearbody y.
    rewrite N.mod_mod by discriminate. rewrite (mod_mod_dvd y (2^32) 256) by (discriminate || reflexivity). reflexivity. }
  rewrite Hstore. cbn [bind].
  assert (HLast : length (SipLast F32 (c + N.of_nat (length l)) r) = 4%nat).
  { unfold SipLast. rewrite !app_length, repeat_length. change (swb F32) with 4%nat. cbn [length]. lia. }
  assert (HLb : bytes (SipLast F32 (c + N.of_nat (length l)) r)).
  { unfold SipLast. apply bytes_app. split; [now apply rest_bytes|].
    apply bytes_app. split; [apply bytes_zeros|]. apply bytes_cons; [apply N.mod_lt; discriminate|constructor]. }
  rewrite sip32_update__ok by (assumption || lia). cbn [bind]. rewrite firstn_all2 by lia.
  rewrite Hst. rewrite (memset_ok pf _ 0 0 4) by lia. cbn [bind].
  rewrite splice_0_all by (rewrite repeat_length; lia).
  unfold sip_ar, SipFrom. change (swb F32) with 4%nat. fold r.
  destruct (SipWord F32 _ _) as [[[v0 v1] v2] v3]. repeat (match goal with |- context [sip32_sipround ?x] => rewrite (sip32_round_ok x) end). unfold SipFinal.
  destruct (SipRound F32 (SipRound F32 (SipRound F32 (SipRound F32 (v0, v1, N.lxor v2 255, v3))))) as [[[u0 u1] u2] u3].
  eexists. split; [reflexivity|]. cbn [snd].
  unfold add32, w32. rewrite Hn.
  rewrite N.add_mod_idemp_l by discriminate.
  rewrite <- N.add_assoc, <- Nat2N.inj_add.
  assert (Hr : length r = (length l mod 4)%nat) by (apply rest_length; lia).
  rewrite Hr. apply RelB_aligned.
  - lia.
  - rewrite Nat2N.inj_add, N.add_assoc. apply N.mod_divide; [discriminate|].
    pose proof (Nat.div_mod (length l) 4 ltac:(lia)) as D.
    pose proof (Nat.mod_upper_bound (length l) 4 ltac:(lia)) as U.
    apply N.mod_divide in Hc; [|discriminate]. destruct Hc as [q Hq].
    exists (q + N.of_nat (length l / 4 + 1)). rewrite Hq. 
    set (a := (length l / 4)%nat) in *. set (b := (length l mod 4)%nat) in *. clearbody a b.
    change (N.of_nat 4) with 4. lia.
  - apply repeat_length.
  - reflexivity.
Qed.

Lemma sip32_refines pf :
  refines (sip32_class pf) true (ast Sip_state) ab_au (sip_ar F32) ok32 Rel32.
Proof.
  eapply (blk_refines sip32_st 4 true true (2^32) pf (sip32_update_ pf) (sip32_bl pf) (SipWord F32)).
  - lia.
  - discriminate.
  - intros. now apply sip32_update__ok.
  - intros. now apply sip32_bl_ok.
  - reflexivity.
  - apply sip32_update_gen.
  - intros a s HR _ _. now apply sip32_result_ok.
Qed.

Lemma sip32_init_ok : Rel32 (SipInit F32 0 0, 0, []) sip32_init.
Proof. apply RelB_aligned; [lia|reflexivity|reflexivity|reflexivity]. Qed.

Lemma sip32_construct pf c : valid_ctor c ->
  exists s, construct (sip32_class pf) c = Ok s /\ Rel32 (sip32_start c) s.
Proof.
  intros HC. destruct c as [|n|p n]; cbn [construct sip32_start sip32_class h_init h_seed h_bytes].
  - exists sip32_init. split; [reflexivity|apply sip32_init_ok].
  - eexists. split; [reflexivity|]. unfold sip32_key. cbn [b_st sip32_init b_buf b_m b_n].
    unfold shr. rewrite N.shiftr_div_pow2, (N.mod_small (n / 2^32)) by (apply N.div_lt_upper_bound; [discriminate|exact HC]).
    apply RelB_aligned; [lia|reflexivity|reflexivity|reflexivity].
  - unfold sip32_bytes. destruct (Nat.eqb_spec n 8) as [->|H1].
    + destruct p as [|l]; cbn [valid_ctor valid_arg data] in *; [destruct HC; discriminate|].
      destruct HC as [HC1 HC2]. rewrite padd_ok by lia. cbn [bind]. change (skipn 0 l) with l.
      rewrite read32le_ok by (assumption || lia). cbn [bind].
      rewrite padd_ok by lia. cbn [bind].
      rewrite read32le_ok; [|rewrite skipn_length; lia|now apply bytes_skipn]. cbn [bind].
      eexists. split; [reflexivity|]. rewrite firstn_firstn_le by lia.
      rewrite skipn_firstn_comm. change (8 - 4)%nat with 4%nat.
      apply RelB_aligned; [lia|reflexivity|reflexivity|reflexivity].
    + destruct (Nat.eqb_spec n 0) as [->|H2]; cbn [negb].
      * exists sip32_init. split; [reflexivity|apply sip32_init_ok].
      * cbn [valid_ctor] in HC.
        destruct (rf_update _ _ _ _ _ _ _ (sip32_refines pf) _ _ p n sip32_init_ok (ok32_true _) HC (ok32_true _))
          as (s1 & E1 & R1).
        cbn [sip32_class h_update] in E1. rewrite E1. cbn [bind].
        destruct (sip32_result_ok pf _ _ R1) as (s2 & E2 & R2). rewrite E2. cbn [bind].
        exists s2. split; [reflexivity|exact R2].
Qed.

(* Main theorem: every history *)
Theorem sip32_exec pf c ops : valid_ctor c -> Forall (valid_op true) ops ->
  exists s, exec (sip32_class pf) c ops
    = Ok (aseg ab_au (sip_ar F32) (sip32_start c) (segments [] ops), s) /\
    Rel32 (snd (arun ab_au (sip_ar F32) (sip32_start c) ops)) s.
Proof.
  intros HC HO. apply (refines_exec _ _ _ _ _ _ _ (sip32_refines pf)).
  - apply sip32_construct. exact HC.
  - exact HO.
  - generalize (sip32_start c). induction ops as [|[p n|] ops IH]; intros a; cbn [aok];
      (split; [apply ok32_true|]); auto; apply IH; inversion HO; assumption.
Qed.

Theorem sip32_exec_eq pf c ops1 ops2 : valid_ctor c ->
  Forall (valid_op true) ops1 -> Forall (valid_op true) ops2 -> segments [] ops1 = segments [] ops2 ->
  exec (sip32_class pf) c ops1 = exec (sip32_class pf) c ops2.
Proof.
  intros HC O1 O2 E.
  destruct (sip32_exec pf c ops1 HC O1) as (s1 & E1 & R1).
  destruct (sip32_exec pf c ops2 HC O2) as (s2 & E2 & R2).
  rewrite E1, E2, E. do 2 f_equal.
  rewrite (arun_final ab_au (sip_ar F32)) in R1 by (intros [[? ?] ?]; cbn; rewrite ?app_nil_r; try intros; rewrite ?app_assoc; reflexivity).
  rewrite (arun_final ab_au (sip_ar F32)) in R2 by (intros [[? ?] ?]; cbn; rewrite ?app_nil_r; try intros; rewrite ?app_assoc; reflexivity).
  rewrite E in R1.
  destruct (afinal ab_au (sip_ar F32) (sip32_start c) (segments [] ops2)) as [[st cc] l].
  destruct R1 as (_ & _ & R1), R2 as (_ & _ & R2).
  eapply Rep_unique; [reflexivity|exact R1|exact R2].
Qed.

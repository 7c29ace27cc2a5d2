(* Generic theory of Merkle-Damgard classes: result() pads through update(). *)
From Verif Require Import Base BaseFacts SpecCommon Gen Hasher.
From Coq Require Import ZifyBool ZifyNat ZifyN.
Open Scope N_scope.

Lemma LE_le_val l : LE l = le_val l.
Proof. reflexivity. Qed.
Lemma toLE_le_bytes k v : toLE k v = le_bytes k v.
Proof. revert v; induction k; intros; cbn [toLE le_bytes]; f_equal; auto. Qed.
Lemma toBE_be_bytes k v : toBE k v = be_bytes k v.
Proof. unfold toBE, be_bytes. now rewrite toLE_le_bytes. Qed.

Lemma le_bytes_mod k v : le_bytes k (v mod 256 ^ N.of_nat k) = le_bytes k v.
Proof.
  pose proof (le_bytes_val (le_bytes k v) (le_bytes_bytes k v)) as H.
  rewrite le_bytes_length, le_val_bytes in H. exact H.
Qed.

(* the bit count as the code computes it: (len mod 2^64) * 8 mod 2^64 *)
Lemma mul64_mod v : mul64 (v mod 2^64) 8 = (8 * v) mod 2^64.
Proof. unfold mul64, w64. rewrite N.mul_mod_idemp_l by discriminate. f_equal. apply N.mul_comm. Qed.
Lemma le64_bits v : le_bytes 8 (mul64 (v mod 2^64) 8) = le_bytes 8 (8 * v).
Proof. rewrite mul64_mod. change (2^64) with (256 ^ N.of_nat 8). apply le_bytes_mod. Qed.
Lemma be64_bits v : be_bytes 8 (mul64 (v mod 2^64) 8) = be_bytes 8 (8 * v).
Proof. unfold be_bytes. now rewrite le64_bits. Qed.

Section MD.
Variable St : Type.
Variables B lb : nat.
Variables guard first_assert : bool.
Variable pf : plat.
Variable tr : St -> ptr -> res St.
Variable blocks : St -> ptr -> nat -> res (St * ptr * nat).
Variable compress : St -> list N -> St.
Variable bits : N -> list N.
Variable R : Type.
Variable out : St -> R.

Notation upd := (gen_update St B guard true (2^64) pf tr blocks).

Definition gen_result (s : bst St) : res (R * bst St) :=
  bind (if first_assert then assert_ (N.of_nat (b_m s) =? b_n s mod N.of_nat B) else Ok tt) (fun _ =>
  let bts := bits (b_n s) in
  let k := (if Nat.ltb (b_m s) (B - lb) then (B - lb) - b_m s else (B + (B - lb)) - b_m s)%nat in
  let padding := 0x80 :: zeros (B - 1) in
  s <- upd s (Ptr padding) k ;;
  s <- upd s (Ptr bts) lb ;;
  assert! (Nat.eqb (b_m s) 0) ;;
  Ok (out (b_st s), s)).

Hypothesis HB : (1 < B)%nat.
Hypothesis Hlb : (0 < lb < B)%nat.
Hypothesis Hcnt : forall len, cnt_ok B (2^64) 0 len.
Hypothesis Htr : forall st l, (B <= length l)%nat -> bytes l ->
  tr st (Ptr l) = Ok (compress st (firstn B l)).
Hypothesis Hblocks : forall st l n, (n <= length l)%nat -> bytes l ->
  blocks st (Ptr l) n =
  Ok (fold_left compress (chunks B (firstn n l)) st, Ptr (skipn (B * (n / B)) l), (n mod B)%nat).
Hypothesis Hbits : forall v, bytes (bits v) /\ length (bits v) = lb.

Variable iv : St.
Definition RepM (l : list N) (s : bst St) : Prop :=
  bytes l /\ Rep St B true (2^64) compress iv 0 l s.

(* what result() appends *)
Definition padm (l : list N) : list N :=
  l ++ [0x80] ++ repeat 0 ((2 * B - 1 - lb - length l mod B) mod B)
    ++ bits (N.of_nat (length l) mod 2^64).

Lemma RepM_init : RepM [] (mkB iv (zeros B) 0 0).
Proof.
  split; [constructor|]. unfold Rep. cbn [b_st b_m b_n b_buf length].
  repeat split.
  - rewrite Nat.mod_0_l; lia.
  - exists (zeros B). unfold rest. rewrite Nat.div_0_l, Nat.mul_0_r by lia.
    cbn [skipn app]. rewrite !zeros_length. auto.
Qed.

Lemma RepM_update l s src n : RepM l s -> (n <= length src)%nat -> bytes src ->
  exists s', upd s (Ptr src) n = Ok s' /\ RepM (l ++ firstn n src) s'.
Proof.
  intros [Hl HR] Hn Hsrc.
  destruct (gen_update_ok St B guard true (2^64) pf tr blocks compress ltac:(lia) ltac:(discriminate)
              Htr Hblocks iv 0 l s src n HR) as (s' & E & HR'); try assumption.
  - apply Hcnt.
  - exists s'. split; [exact E|]. split; [|exact HR'].
    apply bytes_app. split; [exact Hl|now apply bytes_firstn].
Qed.

Lemma padm_bytes l : bytes l -> bytes (padm l).
Proof.
  intros H. unfold padm. repeat (apply bytes_app; split); auto.
  - constructor; [lia|constructor].
  - apply bytes_zeros.
  - apply Hbits.
Qed.

Lemma pad_count (l : list N) :
  let m := (length l mod B)%nat in
  let k := (if Nat.ltb m (B - lb) then (B - lb) - m else (B + (B - lb)) - m)%nat in
  (0 < k <= B)%nat /\ (k - 1 = (2 * B - 1 - lb - m) mod B)%nat /\
  ((length l + k + lb) mod B = 0)%nat.
Proof.
  intros m k. assert (Hm : (m < B)%nat) by (apply Nat.mod_upper_bound; lia).
  assert (Hk : (0 < k <= B)%nat /\ (k + m + lb = B \/ k + m + lb = 2 * B)%nat).
  { unfold k. destruct (Nat.ltb_spec m (B - lb)); lia. }
  split; [apply Hk|]. split.
  - unfold k. destruct (Nat.ltb_spec m (B - lb)).
    + replace (2 * B - 1 - lb - m)%nat with ((B - lb - m - 1) + 1 * B)%nat by lia.
      rewrite Nat.mod_add by lia. rewrite Nat.mod_small; lia.
    + rewrite Nat.mod_small; lia.
  - rewrite <- Nat.add_assoc, <- Nat.add_mod_idemp_l by lia. fold m.
    destruct Hk as [_ [E|E]].
    + replace (m + (k + lb))%nat with (1 * B)%nat by lia. apply Nat.mod_mul. lia.
    + replace (m + (k + lb))%nat with (2 * B)%nat by lia. apply Nat.mod_mul. lia.
Qed.

Lemma padm_length l : (length (padm l) mod B = 0)%nat.
Proof.
  destruct (pad_count l) as (H1 & H2 & H3).
  match type of H1 with (_ < ?e <= _)%nat => set (k := e) in *; clearbody k end.
  unfold padm. rewrite !app_length. cbn [length]. rewrite repeat_length, <- H2.
  destruct (Hbits (N.of_nat (length l) mod 2^64)) as [_ ->].
  rewrite <- H3. f_equal. lia.
Qed.

Theorem RepM_result l s : RepM l s ->
  exists s', gen_result s = Ok (out (fold_left compress (chunks B (padm l)) iv), s') /\
             RepM (padm l) s'.
Proof.
  intros HR. pose proof HR as [Hl (Hst & Hm & Hn & _)]. rewrite N.add_0_l in Hn.
  unfold gen_result.
  assert (HA : N.of_nat (b_m s) =? b_n s mod N.of_nat B = true).
  { apply N.eqb_eq. rewrite Hm, Hn.
    pose proof (cnt_mod B (2^64) ltac:(lia) ltac:(discriminate) 0 (length l)) as C.
    rewrite N.add_0_l in C. rewrite C; [easy|]. apply Hcnt. }
  rewrite HA. replace (if first_assert then assert_ true else Ok tt) with (Ok tt) by (now destruct first_assert).
  cbn [bind]. rewrite Hm.
  destruct (pad_count l) as (H1 & H2 & H3).
  set (k := (if Nat.ltb (length l mod B) (B - lb) then (B - lb) - length l mod B
             else (B + (B - lb)) - length l mod B)%nat) in *. clearbody k. clear HA.
  destruct (RepM_update l s (0x80 :: zeros (B - 1)) k HR) as (s1 & E1 & R1).
  { cbn [length]. rewrite zeros_length. lia. }
  { apply bytes_cons; [lia|apply bytes_zeros]. }
  rewrite E1. cbn [bind].
  destruct (Hbits (b_n s)) as [Hb1 Hb2].
  destruct (RepM_update _ s1 (bits (b_n s)) lb R1) as (s2 & E2 & R2); [lia|exact Hb1|].
  rewrite E2. cbn [bind].
  assert (Epad : (l ++ firstn k (0x80 :: zeros (B - 1))) ++ firstn lb (bits (b_n s)) = padm l).
  { unfold padm. rewrite <- app_assoc. f_equal.
    destruct k as [|k']; [lia|]. cbn [firstn]. rewrite firstn_zeros by lia.
    rewrite <- H2, Hn. cbn [app Nat.sub]. rewrite Nat.sub_0_r. unfold zeros.
    f_equal. f_equal. rewrite firstn_all2; [easy|]. rewrite <- Hn. lia. }
  rewrite Epad in R2.
  destruct R2 as [Hp (Gst & Gm & Gn & Gt)].
  rewrite Gm, padm_length. cbn [Nat.eqb assert_ bind].
  exists s2. split.
  - rewrite Gst. reflexivity.
  - split; [exact Hp|]. unfold Rep. auto.
Qed.

(* After result() the object is again block aligned, with a clear buffer. *)
Lemma RepM_aligned l s : RepM l s -> (length l mod B = 0)%nat ->
  b_m s = 0%nat /\ b_buf s = zeros B.
Proof.
  intros [_ (Hst & Hm & Hn & tail & Hb & Hbl & Hz)] H0. split; [congruence|].
  pose proof (rest_length B ltac:(lia) l) as HrL. rewrite H0 in HrL.
  apply length_zero_iff_nil in HrL. rewrite HrL in Hb. cbn [app] in Hb.
  rewrite Hb in *. rewrite (Hz eq_refl), Hbl. reflexivity.
Qed.

Lemma RepM_unique l s1 s2 : RepM l s1 -> RepM l s2 -> s1 = s2.
Proof. intros [_ R1] [_ R2]. eapply Rep_unique; [reflexivity|exact R1|exact R2]. Qed.

(* The class as a hasher refines the abstract algorithm "virtual message". *)
Variable seedf : N -> res (bst St).
Variable bytesf : ptr -> nat -> res (bst St).
Variable updf : bst St -> ptr -> nat -> res (bst St).
Variable resf : bst St -> res (R * bst St).
Variable init : bst St.
Hypothesis Hinit : init = mkB iv (zeros B) 0 0.
Hypothesis Hupd : updf = upd.
Hypothesis Hres : forall s, resf s = gen_result s.
Definition md_hasher : hasher :=
  {| h_S := bst St; h_R := R; h_init := init;
     h_seed := seedf; h_bytes := bytesf; h_update := updf; h_result := resf |}.

Definition md_au (l d : list N) : list N := l ++ d.
Definition md_ar (l : list N) : R * list N :=
  (out (fold_left compress (chunks B (padm l)) iv), padm l).

Theorem md_refines : refines md_hasher guard (list N) md_au md_ar (fun _ => True) RepM.
Proof.
  constructor.
  - intros l s p n HR _ HV _. cbn [h_update md_hasher]. rewrite Hupd.
    destruct p as [|src]; cbn [valid_arg data] in *.
    + destruct HV as [Hg ->]. exists s. unfold md_au. rewrite app_nil_r. split; [|exact HR].
      unfold gen_update. destruct HR as [_ (Hst & Hm & Hn & _)].
      pose proof (cnt_mod B (2^64) ltac:(lia) ltac:(discriminate) 0 (length l)) as C.
      rewrite Hm, Hn, C, N.eqb_refl, Hg; [reflexivity|]. apply Hcnt.
    + destruct HV as [Hn Hb]. apply RepM_update; assumption.
  - intros l s HR _ _. cbn [h_result md_hasher]. rewrite Hres. apply RepM_result. exact HR.
  - intros l. apply app_nil_r.
  - intros l d1 d2. unfold md_au. now rewrite app_assoc.
Qed.

Lemma md_init : RepM [] init.
Proof. rewrite Hinit. apply RepM_init. Qed.

Hypothesis Hseed : forall n, seedf n =
  (if negb (n =? 0) then
     s <- updf init (Ptr (le_bytes 8 n)) 8 ;; '(_, s) <- resf s ;; Ok s
   else Ok init).
Hypothesis Hbytesf : forall p n, bytesf p n =
  (if negb (Nat.eqb n 0) then s <- updf init p n ;; '(_, s) <- resf s ;; Ok s else Ok init).

Definition md_digest (l : list N) : R := out (fold_left compress (chunks B (padm l)) iv).

Lemma md_construct c : valid_ctor c -> exists s, construct md_hasher c = Ok s /\ RepM (vstart padm c) s.
Proof.
  assert (HS : forall l n, (n <> 0)%nat -> (n <= length l)%nat -> bytes l ->
    exists s, bind (updf init (Ptr l) n) (fun s => bind (resf s) (fun x => match x with (_, s0) => Ok s0 end)) = Ok s
              /\ RepM (padm (firstn n l)) s).
  { intros l n H0 Hn Hl. rewrite Hupd.
    destruct (RepM_update [] init l n md_init Hn Hl) as (s1 & E1 & R1). rewrite E1. cbn [bind].
    rewrite Hres. destruct (RepM_result _ _ R1) as (s2 & E2 & R2). rewrite E2. cbn [bind].
    exists s2. split; [reflexivity|exact R2]. }
  destruct c as [|n|p n]; cbn [construct valid_ctor vstart md_hasher h_init h_seed h_bytes]; intros HV.
  - exists init. split; [reflexivity|apply md_init].
  - rewrite Hseed. destruct (n =? 0); cbn [negb].
    + exists init. split; [reflexivity|apply md_init].
    + destruct (HS (le_bytes 8 n) 8%nat) as (s & E & HR).
      * discriminate.
      * rewrite le_bytes_length. lia.
      * apply le_bytes_bytes.
      * exists s. split; [exact E|]. exact HR.
  - rewrite Hbytesf. destruct (Nat.eqb_spec n 0) as [E0|E0]; cbn [negb].
    + exists init. split; [reflexivity|apply md_init].
    + destruct p as [|l]; cbn [valid_arg data] in *; [lia|]. destruct HV as [HV1 HV2].
      apply HS; assumption.
Qed.

Lemma md_run ops : forall l s acc, RepM (l ++ acc) s -> Forall (valid_op guard) ops ->
  exists s', run md_hasher s ops = Ok (vresults padm md_digest l (segments acc ops), s') /\
    RepM (vfinal padm l (segments acc ops)) s'.
Proof.
  induction ops as [|[p n|] t IH]; intros l s acc HR HV.
  - exists s. cbn. auto.
  - inversion HV as [|? ? V1 V2]; subst. cbn [run segments].
    destruct (rf_update _ _ _ _ _ _ _ md_refines _ _ p n HR I V1 I) as (s1 & E1 & R1).
    cbn [h_update md_hasher] in E1 |- *. rewrite E1. cbn [bind].
    unfold md_au in R1. rewrite <- app_assoc in R1. exact (IH _ _ _ R1 V2).
  - inversion HV as [|? ? V1 V2]; subst. cbn [run segments].
    destruct (rf_result _ _ _ _ _ _ _ md_refines _ _ HR I I) as (s1 & E1 & R1).
    cbn [h_result md_hasher] in E1 |- *. rewrite E1. cbn [bind]. cbn [md_ar snd] in R1.
    rewrite <- (app_nil_r (padm _)) in R1. destruct (IH _ _ _ R1 V2) as (s2 & E2 & R2).
    rewrite E2. cbn [bind]. exists s2.
    pose proof (segments_nonempty [] t) as Hne. destruct (segments [] t); [easy|].
    split; [reflexivity|exact R2].
Qed.

Theorem md_exec c ops : valid_ctor c -> Forall (valid_op guard) ops ->
  exists s, exec md_hasher c ops =
      Ok (vresults padm md_digest (vstart padm c) (segments [] ops), s) /\
    RepM (vfinal padm (vstart padm c) (segments [] ops)) s.
Proof.
  intros HC HO. destruct (md_construct c HC) as (s & E & HR). unfold exec. rewrite E. cbn [bind].
  rewrite <- (app_nil_r (vstart padm c)) in HR. exact (md_run ops _ _ _ HR HO).
Qed.

(* the object after a history depends only on the constructor and the segments *)
Theorem md_exec_eq c1 c2 ops1 ops2 : valid_ctor c1 -> valid_ctor c2 ->
  Forall (valid_op guard) ops1 -> Forall (valid_op guard) ops2 ->
  vstart padm c1 = vstart padm c2 -> segments [] ops1 = segments [] ops2 ->
  exec md_hasher c1 ops1 = exec md_hasher c2 ops2.
Proof.
  intros C1 C2 O1 O2 E S.
  destruct (md_exec c1 ops1 C1 O1) as (s1 & E1 & R1).
  destruct (md_exec c2 ops2 C2 O2) as (s2 & E2 & R2).
  rewrite E1, E2. rewrite E, S in *. now rewrite (RepM_unique _ _ _ R1 R2).
Qed.

Variable pad : list N -> list N.
Variable H : list N -> R.
Hypothesis Hpad : forall l, padm l = pad l.
Hypothesis HH : forall l, out (fold_left compress (chunks B (pad l)) iv) = H l.

Theorem md_ok_intro : md_ok St R B guard pad H init seedf bytesf updf resf.
Proof.
  constructor.
  - intros c ops HC HO. destruct (md_exec c ops HC HO) as (s & E & HR). exists s.
    rewrite (vstart_ext _ _ Hpad), (vfinal_ext _ _ Hpad) in HR.
    rewrite (vstart_ext _ _ Hpad), (vresults_ext padm pad md_digest H Hpad) in E.
    2:{ intros l. unfold md_digest. rewrite Hpad. apply HH. }
    split; [exact E|]. cbv zeta. destruct HR as [_ (_ & E1 & E2 & tail & E3 & E4 & E5)].
    split; [exact E1|]. split; [exact E2|]. rewrite E3. unfold rest. f_equal.
    rewrite E5 by reflexivity. f_equal.
    rewrite E3, app_length, (rest_length B) in E4 by lia. lia.
  - intros c1 c2 ops1 ops2 C1 C2 O1 O2 E S. rewrite <- !(vstart_ext _ _ Hpad) in E.
    exact (md_exec_eq c1 c2 ops1 ops2 C1 C2 O1 O2 E S).
  - intros l. rewrite <- Hpad. split; [apply padm_length|].
    unfold padm. apply firstn_app_exact. reflexivity.
  - exists RepM. split; [exact md_init|]. split; [|split; [|split]].
    + destruct md_refines as [F1 F2 F3 F4]. constructor.
      * exact F1.
      * intros a s HR _ _. destruct (F2 a s HR I I) as (s' & E1 & E2). exists s'.
        cbn [fst snd]. unfold md_ar in E1, E2. cbn [fst snd] in E1, E2.
        rewrite Hpad in E1, E2. rewrite HH in E1. split; assumption.
      * apply app_nil_r.
      * intros a d1 d2. now rewrite app_assoc.
    + exact RepM_unique.
    + intros l s HR. destruct HR as [_ (_ & E1 & E2 & tail & E3 & E4 & E5)].
      split; [exact E1|]. split; [exact E2|]. rewrite E3. unfold rest. f_equal.
      rewrite E5 by reflexivity. f_equal.
      rewrite E3, app_length, (rest_length B) in E4 by lia. lia.
    + intros c HC. destruct (md_construct c HC) as (s & E & HR). exists s.
      rewrite (vstart_ext _ _ Hpad) in HR. split; assumption.
Qed.
End MD.

Lemma cnt_ok_64 len : cnt_ok 64 (2^64) 0 len.
Proof. split; [reflexivity|]. left. reflexivity. Qed.
Lemma cnt_ok_128 len : cnt_ok 128 (2^64) 0 len.
Proof. split; [reflexivity|]. left. reflexivity. Qed.


(* Generic theory of block-buffered updating. [gen_update] is the common
   shape of the update() functions of md5, sha1, sha2, ripemd, siphash, xxhash,
   murmur3 and spooky2 (each class has its own model; it is shown to be an instance). *)
From Verif Require Import Base BaseFacts SpecCommon.
From Coq Require Import ZifyBool ZifyNat ZifyN.
Open Scope N_scope.

Section Chunks.
Context {A : Type}.
Variable B : nat.
Hypothesis HB : (0 < B)%nat.
Implicit Types l d : list A.

Lemma chunks_f_fuel f1 f2 l : (length l <= f1)%nat -> (length l <= f2)%nat ->
  chunks_f f1 B l = chunks_f f2 B l.
Proof.
  revert f2 l. induction f1 as [|f1 IH]; intros f2 l H1 H2.
  - destruct l; [|simpl in H1; lia]. destruct f2; [easy|]. cbn [chunks_f length].
    replace (Nat.leb B 0) with false by (symmetry; apply Nat.leb_gt; lia). easy.
  - destruct f2 as [|f2].
    + destruct l; [|simpl in H2; lia]. cbn [chunks_f length].
      replace (Nat.leb B 0) with false by (symmetry; apply Nat.leb_gt; lia). easy.
    + cbn [chunks_f]. destruct (Nat.leb_spec B (length l)); [|easy].
      f_equal. apply IH; rewrite skipn_length; lia.
Qed.

Lemma chunks_short l : (length l < B)%nat -> chunks B l = [].
Proof.
  intros H. unfold chunks. destruct (length l) eqn:E; [easy|]. cbn [chunks_f].
  rewrite E. replace (Nat.leb B (S n)) with false by (symmetry; apply Nat.leb_gt; lia). easy.
Qed.

Lemma chunks_step l : (B <= length l)%nat -> chunks B l = firstn B l :: chunks B (skipn B l).
Proof.
  intros H. unfold chunks. destruct (length l) eqn:E; [lia|]. cbn [chunks_f].
  rewrite E. replace (Nat.leb B (S n)) with true by (symmetry; apply Nat.leb_le; lia).
  f_equal. apply chunks_f_fuel; rewrite skipn_length; lia.
Qed.

Lemma chunks_block l d : length l = B -> chunks B (l ++ d) = l :: chunks B d.
Proof.
  intros H. rewrite chunks_step by (rewrite app_length; lia).
  rewrite firstn_app_exact, skipn_app_exact by lia. easy.
Qed.

Lemma chunks_app_mult k : forall l d, length l = (k * B)%nat -> chunks B (l ++ d) = chunks B l ++ chunks B d.
Proof.
  induction k as [|k IH]; intros l d H.
  - destruct l; [|simpl in H; lia]. cbn [app]. rewrite (chunks_short []) by (simpl; lia). easy.
  - rewrite chunks_step by (rewrite app_length; lia).
    rewrite (chunks_step l) by lia.
    rewrite firstn_app_le, skipn_app_le by lia.
    simpl. f_equal. apply IH. rewrite skipn_length. lia.
Qed.

Definition full l := firstn (B * (length l / B)) l.

Lemma full_rest l : l = full l ++ rest B l.
Proof. symmetry. apply firstn_skipn. Qed.
Lemma full_length l : length (full l) = (length l / B * B)%nat.
Proof. unfold full. rewrite firstn_length. pose proof (Nat.div_mod (length l) B). nia. Qed.
Lemma rest_length l : length (rest B l) = (length l mod B)%nat.
Proof. unfold rest. rewrite skipn_length. pose proof (Nat.div_mod (length l) B). nia. Qed.
Lemma rest_lt l : (length (rest B l) < B)%nat.
Proof. rewrite rest_length. apply Nat.mod_upper_bound. lia. Qed.

Lemma chunks_full l : chunks B l = chunks B (full l).
Proof.
  rewrite (full_rest l) at 1. rewrite (chunks_app_mult _ _ _ (full_length l)).
  rewrite (chunks_short (rest B l)) by apply rest_lt. apply app_nil_r.
Qed.

Lemma chunks_app l d : chunks B (l ++ d) = chunks B l ++ chunks B (rest B l ++ d).
Proof.
  rewrite (full_rest l) at 1. rewrite <- app_assoc, (chunks_app_mult _ _ _ (full_length l)).
  now rewrite <- chunks_full.
Qed.

Lemma rest_mult_app k l d : length l = (k * B)%nat -> rest B (l ++ d) = rest B d.
Proof.
  intros H. unfold rest. rewrite app_length, H.
  rewrite (Nat.add_comm (k*B)), Nat.div_add by lia.
  generalize (length d / B)%nat as q; intros q.
  rewrite skipn_app, skipn_all2 by (rewrite H; nia). simpl. f_equal. rewrite H, Nat.mul_add_distr_l. lia.
Qed.

Lemma rest_app l d : rest B (l ++ d) = rest B (rest B l ++ d).
Proof.
  rewrite (full_rest l) at 1. rewrite <- app_assoc. apply (rest_mult_app _ _ _ (full_length l)).
Qed.

Lemma rest_short l : (length l < B)%nat -> rest B l = l.
Proof. intros H. unfold rest. rewrite Nat.div_small by easy. now rewrite Nat.mul_0_r. Qed.

Lemma rest_block l d : length l = B -> rest B (l ++ d) = rest B d.
Proof. intros H. apply (rest_mult_app 1). lia. Qed.

Lemma chunks_all_length l b : In b (chunks B l) -> length b = B.
Proof.
  unfold chunks. generalize (length l) at 1 as f. intros f; revert l.
  induction f as [|f IH]; intros l; cbn [chunks_f]; [easy|].
  destruct (Nat.leb_spec B (length l)); [|easy]. intros [<-|Hin].
  - rewrite firstn_length. lia.
  - eauto.
Qed.

Lemma chunks_concat l : concat (chunks B l) = full l.
Proof.
  remember (length l / B)%nat as k eqn:Ek. revert l Ek.
  induction k as [|k IH]; intros l Ek.
  - unfold full. rewrite <- Ek, Nat.mul_0_r. rewrite chunks_short; [easy|].
    pose proof (Nat.div_mod (length l) B). pose proof (Nat.mod_upper_bound (length l) B). lia.
  - assert (HL : (B <= length l)%nat).
    { pose proof (Nat.div_mod (length l) B). nia. }
    assert (E' : k = ((length (skipn B l)) / B)%nat).
    { rewrite skipn_length. replace (length l) with (length l - B + 1*B)%nat in Ek by lia.
      rewrite Nat.div_add in Ek by lia. lia. }
    rewrite chunks_step by easy. cbn [concat]. rewrite IH by easy.
    unfold full. rewrite <- Ek, <- E'. replace (B * S k)%nat with (B + B * k)%nat by lia.
    now rewrite firstn_add.
Qed.

Lemma chunks_length l : length (chunks B l) = (length l / B)%nat.
Proof.
  assert (H : length (concat (chunks B l)) = (length (chunks B l) * B)%nat).
  { pose proof (chunks_all_length l) as HA. induction (chunks B l) as [|c cs IH]; [easy|].
    cbn [concat length]. rewrite app_length, IH, (HA c) by (intros; try apply HA; simpl; auto). lia. }
  rewrite chunks_concat, full_length in H. nia.
Qed.

End Chunks.

Lemma rest_bytes B l : bytes l -> bytes (rest B l).
Proof. apply bytes_skipn. Qed.
Lemma chunks_bytes B l b : bytes l -> In b (chunks B l) -> bytes b.
Proof.
  unfold chunks. generalize (length l) at 1 as f. intros f; revert l.
  induction f as [|f IH]; intros l HL; cbn [chunks_f]; [easy|].
  destruct (Nat.leb_spec B (length l)); [|easy]. intros [<-|Hin].
  - now apply bytes_firstn.
  - eapply IH; [|exact Hin]. now apply bytes_skipn.
Qed.

Section Gen.
Variable St : Type.
Variable B : nat.
Variables guard wipe : bool.
Variable cw : N.
Variable pf : plat.
Variable tr : St -> ptr -> res St.
Variable blocks : St -> ptr -> nat -> res (St * ptr * nat).

Definition gen_tail (s : bst St) (p : ptr) (n : nat) : res (bst St) :=
  assert! (Nat.eqb (b_m s) 0) ;;
  '(st, p, n) <- blocks (b_st s) p n ;;
  assert! (Nat.ltb n B) ;;
  '(buf, m) <- (if Nat.ltb 0 n
                then buf <- memcpy pf (b_buf s) 0 p n ;; Ok (buf, n)
                else Ok (b_buf s, b_m s)) ;;
  assert! (N.of_nat m =? b_n s mod N.of_nat B) ;;
  Ok (mkB st buf m (b_n s)).

Definition gen_update (s : bst St) (p : ptr) (n : nat) : res (bst St) :=
  assert! (N.of_nat (b_m s) =? b_n s mod N.of_nat B) ;;
  if guard && Nat.eqb n 0 then Ok s else
  let n_ := (b_n s + N.of_nat n) mod cw in
  if Nat.ltb 0 (b_m s) then
    let k := (B - b_m s)%nat in
    let k := if Nat.ltb n k then n else k in
    buf <- memcpy pf (b_buf s) (b_m s) p k ;;
    p <- padd p k ;;
    let n := (n - k)%nat in
    let m := (b_m s + k)%nat in
    if Nat.ltb m B then Ok (mkB (b_st s) buf m n_) else
    assert! (Nat.eqb m B) ;;
    st <- tr (b_st s) (Ptr buf) ;;
    buf <- (if wipe then memset pf buf 0 0 B else Ok buf) ;;
    gen_tail (mkB st buf 0 n_) p n
  else
    gen_tail (mkB (b_st s) (b_buf s) (b_m s) n_) p n.

Variable compress : St -> list N -> St.
Hypothesis HB : (0 < B)%nat.
Hypothesis Hcw : cw <> 0.
Hypothesis Htr : forall st l, (B <= length l)%nat -> bytes l ->
  tr st (Ptr l) = Ok (compress st (firstn B l)).
Hypothesis Hblocks : forall st l n, (n <= length l)%nat -> bytes l ->
  blocks st (Ptr l) n =
  Ok (fold_left compress (chunks B (firstn n l)) st, Ptr (skipn (B * (n / B)) l), (n mod B)%nat).

(* The hasher state [s] stands for: chaining value [st0] and counter [c0] at the last
   block-aligned point, [l] bytes fed since. *)
Definition Rep (st0 : St) (c0 : N) (l : list N) (s : bst St) : Prop :=
  b_st s = fold_left compress (chunks B l) st0 /\
  b_m s = (length l mod B)%nat /\
  b_n s = (c0 + N.of_nat (length l)) mod cw /\
  exists tail, b_buf s = rest B l ++ tail /\ length (b_buf s) = B /\
    (wipe = true -> tail = zeros (length tail)).

Definition cnt_ok (c0 : N) (len : nat) : Prop :=
  c0 mod N.of_nat B = 0 /\ (cw mod N.of_nat B = 0 \/ c0 + N.of_nat len < cw).

Lemma cnt_mod (c0 : N) (len : nat) :
  cnt_ok c0 len ->
  ((c0 + N.of_nat len) mod cw) mod N.of_nat B = N.of_nat (len mod B).
Proof.
  intros [Hc Hw].
  assert (HBn : N.of_nat B <> 0) by lia.
  assert (E : (c0 + N.of_nat len) mod N.of_nat B = N.of_nat (len mod B)).
  { rewrite N.add_mod, Hc, N.add_0_l, N.mod_mod by lia. now rewrite Nat2N.inj_mod. }
  destruct Hw as [Hw|Hw].
  - apply N.mod_divide in Hw; [|easy]. destruct Hw as [q Hq].
    rewrite <- E. set (x := c0 + N.of_nat len).
    pose proof (N.div_mod x cw Hcw) as D.
    assert (D' : x = x mod cw + (x / cw * q) * N.of_nat B).
    { rewrite D at 1. rewrite Hq at 1. lia. }
    transitivity ((x mod cw + (x / cw * q) * N.of_nat B) mod N.of_nat B).
    { now rewrite N.mod_add. }
    now rewrite <- D'.
  - rewrite (N.mod_small _ cw) by exact Hw. exact E.
Qed.

Lemma gen_tail_ok st0 c0 l st buf src n :
  cnt_ok c0 (length l + n) ->
  (length l mod B = 0)%nat ->
  st = fold_left compress (chunks B l) st0 ->
  length buf = B -> (wipe = true -> buf = zeros (length buf)) ->
  (n <= length src)%nat -> bytes src ->
  exists s', gen_tail (mkB st buf 0 ((c0 + N.of_nat (length l + n)) mod cw)) (Ptr src) n = Ok s' /\
             Rep st0 c0 (l ++ firstn n src) s'.
Proof.
  intros Hc Hl Hst Hbuf Hz Hn Hsrc. unfold gen_tail. cbn [b_m b_st b_buf b_n].
  cbn [Nat.eqb assert_ bind]. rewrite Hblocks by easy. cbn [bind].
  assert (Hlt : (n mod B < B)%nat) by (apply Nat.mod_upper_bound; lia).
  replace (Nat.ltb (n mod B) B) with true by (symmetry; apply Nat.ltb_lt; lia).
  cbn [assert_ bind].
  assert (Hr : rest B (firstn n src) = firstn (n mod B) (skipn (B * (n / B)) src)).
  { unfold rest. rewrite firstn_length_le by lia.
    pose proof (Nat.div_mod n B ltac:(lia)) as D.
    rewrite D at 2. rewrite firstn_add, skipn_app_exact; [easy|].
    rewrite firstn_length. nia. }
  assert (Hrl : rest B l = []).
  { apply length_zero_iff_nil. rewrite rest_length; lia. }
  assert (Hmod : ((length l + n) mod B = n mod B)%nat).
  { rewrite Nat.add_mod, Hl, Nat.add_0_l, Nat.mod_mod by lia. easy. }
  assert (HrepSt : fold_left compress (chunks B (firstn n src)) st =
     fold_left compress (chunks B (l ++ firstn n src)) st0).
  { rewrite (chunks_app B HB l), Hrl, app_nil_l, fold_left_app, Hst. easy. }
  assert (Hlen : length (l ++ firstn n src) = (length l + n)%nat).
  { rewrite app_length, firstn_length_le by lia. easy. }
  assert (Hrest : rest B (l ++ firstn n src) = firstn (n mod B) (skipn (B * (n / B)) src)).
  { rewrite rest_app, Hrl, app_nil_l by easy. exact Hr. }
  assert (Hsk : (n mod B <= length (skipn (B * (n / B)) src))%nat).
  { rewrite skipn_length. pose proof (Nat.div_mod n B). lia. }
  destruct (Nat.ltb_spec 0 (n mod B)) as [H0|H0].
  - rewrite memcpy_ok by lia. cbn [bind].
    rewrite (cnt_mod c0 (length l + n)) by assumption. rewrite Hmod, N.eqb_refl.
    cbn [assert_ bind]. eexists; split; [reflexivity|].
    unfold Rep. cbn [b_st b_m b_n b_buf]. rewrite Hlen, Hmod.
    repeat split; [exact HrepSt|].
    exists (skipn (n mod B) buf). rewrite Hrest. repeat split.
    + unfold splice. cbn [firstn app]. rewrite firstn_length_le by easy. easy.
    + rewrite splice_length; [easy|]. rewrite firstn_length_le by easy. lia.
    + intros W. rewrite (Hz W). rewrite skipn_zeros, zeros_length. easy.
  - cbn [bind]. rewrite (cnt_mod c0 (length l + n)) by assumption.
    replace (n mod B)%nat with 0%nat in * by lia.
    rewrite Hmod, N.eqb_refl.
    cbn [assert_ bind]. eexists; split; [reflexivity|].
    unfold Rep. cbn [b_st b_m b_n b_buf]. rewrite Hlen, Hmod.
    repeat split; [exact HrepSt|].
    exists buf. rewrite Hrest. cbn [firstn app]. repeat split; easy.
Qed.

Theorem gen_update_ok st0 c0 l s src n :
  Rep st0 c0 l s ->
  cnt_ok c0 (length l + n) ->
  (n <= length src)%nat -> bytes l -> bytes src ->
  exists s', gen_update s (Ptr src) n = Ok s' /\ Rep st0 c0 (l ++ firstn n src) s'.
Proof.
  intros HR Hc Hn Hl Hsrc. pose proof HR as (Hst & Hm & Hn_ & tail & Hbuf & Hblen & Hz).
  assert (Hc0 : cnt_ok c0 (length l)).
  { destruct Hc as [Hc [Hw|Hw]]; split; auto. right. lia. }
  unfold gen_update. rewrite Hm, Hn_, (cnt_mod c0 (length l)) by assumption.
  clear Hn_.
  rewrite N.eqb_refl. cbn [assert_ bind].
  assert (Hmlt : (length l mod B < B)%nat) by (apply Nat.mod_upper_bound; lia).
  pose proof (rest_length B HB l) as Hrl.
  assert (Htl : length tail = (B - length l mod B)%nat).
  { rewrite Hbuf, app_length in Hblen. lia. }
  assert (En : ((c0 + N.of_nat (length l)) mod cw + N.of_nat n) mod cw
             = (c0 + N.of_nat (length l + n)) mod cw).
  { rewrite N.add_mod_idemp_l by easy. f_equal. lia. }
  destruct (guard && Nat.eqb n 0) eqn:Eg.
  { apply andb_prop in Eg. destruct Eg as [_ Eg]. apply Nat.eqb_eq in Eg. subst n.
    exists s. split; [easy|]. cbn [firstn]. rewrite app_nil_r.
    exact HR. }
  rewrite En. clear En Eg Hc0.
  destruct (Nat.ltb_spec 0 (length l mod B)) as [H0|H0].
  2:{ assert (Hl0 : (length l mod B = 0)%nat) by lia. rewrite Hl0 in *.
      apply gen_tail_ok; try easy.
      intros W. destruct (rest B l) eqn:Er; [|cbn in Hrl; lia].
      cbn [app] in Hbuf. rewrite Hbuf. exact (Hz W). }
  set (m := (length l mod B)%nat) in *.
  set (k := if Nat.ltb n (B - m) then n else (B - m)%nat).
  assert (Hk : (k <= n /\ k <= B - m /\ (k = n \/ k = B - m))%nat).
  { unfold k. destruct (Nat.ltb_spec n (B - m)); lia. }
  rewrite memcpy_ok by lia. cbn [bind]. rewrite padd_ok by lia. cbn [bind].
  assert (Hsp : splice (b_buf s) m (firstn k src) = rest B l ++ firstn k src ++ skipn k tail).
  { unfold splice. rewrite firstn_length_le by lia. rewrite Hbuf.
    rewrite firstn_app_exact by lia. f_equal. f_equal.
    rewrite skipn_app, skipn_all2 by lia. simpl. f_equal. lia. }
  rewrite Hsp.
  destruct (Nat.ltb_spec (m + k) B) as [Hlt|Hge].
  - assert (k = n) by lia. replace (firstn k src) with (firstn n src) by congruence.
    eexists; split; [reflexivity|].
    unfold Rep. cbn [b_st b_m b_n b_buf].
    rewrite app_length, firstn_length_le by lia.
    assert (Hsmall : (length (rest B l ++ firstn n src) < B)%nat).
    { rewrite app_length, firstn_length_le by lia. lia. }
    repeat split.
    + rewrite (chunks_app B HB), (chunks_short B HB (_ ++ _)), app_nil_r by easy. exact Hst.
    + rewrite <- Nat.add_mod_idemp_l by lia. fold m.
      rewrite Nat.mod_small; lia.
    + exists (skipn k tail). repeat split.
      * rewrite (rest_app B HB), (rest_short B (_ ++ _) Hsmall). now rewrite app_assoc.
      * rewrite !app_length, firstn_length_le, skipn_length by lia. lia.
      * intros W. rewrite (Hz W). rewrite skipn_zeros, zeros_length. easy.
  - assert (Ek : (k = B - m)%nat) by lia.
    replace (Nat.eqb (m + k) B) with true by (symmetry; apply Nat.eqb_eq; lia).
    cbn [assert_ bind].
    rewrite (skipn_all2 tail) by lia. rewrite app_nil_r.
    set (blk := rest B l ++ firstn k src).
    assert (Hblk : length blk = B).
    { unfold blk. rewrite app_length, firstn_length_le by lia. lia. }
    rewrite Htr; [|lia|].
    2:{ apply bytes_app. split; [now apply rest_bytes | now apply bytes_firstn]. }
    cbn [bind]. rewrite (firstn_all2 blk) by lia.
    set (st' := compress (b_st s) blk).
    assert (Hst' : st' = fold_left compress (chunks B (l ++ firstn k src)) st0).
    { rewrite (chunks_app B HB), fold_left_app, <- Hst. fold blk.
      rewrite <- (app_nil_r blk). rewrite (chunks_block B HB) by easy.
      rewrite (chunks_short B HB []) by (simpl; lia). reflexivity. }
    assert (Hlen' : (length (l ++ firstn k src) mod B = 0)%nat).
    { rewrite app_length, firstn_length_le by lia.
      rewrite <- Nat.add_mod_idemp_l by lia. fold m. rewrite Ek.
      replace (m + (B - m))%nat with B by lia. apply Nat.mod_same. lia. }
    assert (Hsplit : l ++ firstn n src = (l ++ firstn k src) ++ firstn (n - k) (skipn k src)).
    { rewrite <- app_assoc, <- firstn_add. do 2 f_equal. lia. }
    assert (Hcnt : (length l + n = length (l ++ firstn k src) + (n - k))%nat).
    { rewrite app_length, firstn_length_le by lia. lia. }
    rewrite Hcnt in Hc |- *.
    assert (exists buf', (if wipe then memset pf blk 0 0 B else Ok blk) = Ok buf' /\
              length buf' = B /\ (wipe = true -> buf' = zeros (length buf'))) as (buf' & Eb & Hb1 & Hb2).
    { destruct wipe.
      - rewrite memset_ok by lia. eexists; split; [reflexivity|].
        rewrite splice_0_all by (rewrite repeat_length; lia).
        rewrite repeat_length. split; [easy|]. intros _. easy.
      - eexists; split; [reflexivity|]. split; [easy|]. discriminate. }
    rewrite Eb. cbn [bind].
    rewrite Hsplit.
    apply gen_tail_ok; try easy.
    + rewrite skipn_length. lia.
    + now apply bytes_skipn.
Qed.

End Gen.

(* With the wipe of the buffer, the state is a function of what it represents. *)
Lemma Rep_unique St B wipe cw compress st0 c0 l s1 s2 : wipe = true ->
  Rep St B wipe cw compress st0 c0 l s1 -> Rep St B wipe cw compress st0 c0 l s2 -> s1 = s2.
Proof.
  intros W (A1 & A2 & A3 & t1 & A4 & A5 & A6) (B1 & B2 & B3 & t2 & B4 & B5 & B6).
  specialize (A6 W). specialize (B6 W).
  assert (E : b_buf s1 = b_buf s2).
  { rewrite A4, B4. f_equal. rewrite A6, B6. f_equal.
    rewrite A4, app_length in A5. rewrite B4, app_length in B5. lia. }
  destruct s1, s2; cbn in *. congruence.
Qed.

(* A change confined to one unit of a message changes the result. *)
From Verif Require Import Base BaseFacts SpecCommon Gen Bits.
Open Scope N_scope.

Lemma skipn_twice {A} n m (l : list A) : skipn n (skipn m l) = skipn (n + m) l.
Proof.
  revert l. induction m as [|m IH]; intros l; [now rewrite Nat.add_0_r|]. rewrite Nat.add_succ_r. destruct l; [now rewrite !skipn_nil|]. cbn [skipn]. apply IH.
Qed.
(* messages of the same length that differ, but only within the L bytes starting at position p *)
Definition differ_at {A} (p L : nat) (m1 m2 : list A) : Prop :=
  length m1 = length m2 /\ m1 <> m2 /\ firstn p m1 = firstn p m2 /\ skipn (p + L) m1 = skipn (p + L) m2.

Lemma differ_byte {A} p (m1 m2 : list A) : differ_at p 1 m1 m2 ->
  exists a x y s, m1 = a ++ x :: s /\ m2 = a ++ y :: s /\ x <> y /\ length a = p.
Proof.
  intros (HL & HN & H1 & H2). exists (firstn p m1).
  rewrite <- (firstn_skipn p m1), <- (firstn_skipn p m2) in HN. rewrite <- H1 in HN.
  assert (G : forall m : list A, match skipn p m with [] => skipn (p + 1) m = [] | x :: s => skipn (p + 1) m = s end).
  { intros m. rewrite Nat.add_comm, <- skipn_twice. now destruct (skipn p m). }
  pose proof (G m1) as G1. pose proof (G m2) as G2.
  assert (HLs : length (skipn p m1) = length (skipn p m2)) by (rewrite !skipn_length; lia).
  destruct (skipn p m1) as [|x s] eqn:E1, (skipn p m2) as [|y s'] eqn:E2; try discriminate; [easy|].
  rewrite G1, G2 in H2. subst s'. exists x, y, s. rewrite <- E1.
  split; [symmetry; rewrite E1; rewrite <- E1; apply firstn_skipn|]. split; [rewrite H1, <- E2; symmetry; apply firstn_skipn|].
  split; [intros ->; easy|]. rewrite firstn_length. apply (f_equal (@length A)) in E1. rewrite skipn_length in E1. cbn in E1. lia.
Qed.
(* a unit inside a larger one *)
Lemma differ_wider {A} p L q K (m1 m2 : list A) : (q <= p)%nat -> (p + L <= q + K)%nat -> differ_at p L m1 m2 -> differ_at q K m1 m2.
Proof.
  intros H1 H2 (HL & HN & E1 & E2). repeat split; try assumption.
  - replace q with (Nat.min q p) by lia. rewrite <- !firstn_firstn. now rewrite E1.
  - replace (q + K)%nat with ((q + K - (p + L)) + (p + L))%nat by lia. rewrite <- (skipn_twice _ (p + L) m1), <- (skipn_twice _ (p + L) m2). now rewrite E2.
Qed.
Lemma differ_lt {A} p L (m1 m2 : list A) : differ_at p L m1 m2 -> (p < length m1)%nat.
Proof.
  intros (HL & HN & E1 & _). destruct (Nat.lt_ge_cases p (length m1)) as [|G]; [assumption|]. rewrite !firstn_all2 in E1 by lia. easy.
Qed.

Section Detect.
Variables (B q L : nat).
Hypothesis HB : (0 < B)%nat.
Hypothesis HqL : (q + L <= B)%nat.
Variable full : Prop.                    (* the unit lies in the message entirely *)
Context {St R : Type}.
Variables (P : St -> Prop) (D : St -> St -> Prop) (blk : St -> list N -> St) (fin : St -> list N -> R).
Hypothesis HP : forall s b, P s -> bytes b -> P (blk s b).
Hypothesis H1 : forall s1 s2 b, P s1 -> P s2 -> D s1 s2 -> bytes b -> length b = B -> D (blk s1 b) (blk s2 b).
Hypothesis H2 : forall s b1 b2, P s -> bytes b1 -> bytes b2 -> length b1 = B -> differ_at q L b1 b2 -> D (blk s b1) (blk s b2).
Hypothesis H3 : forall s1 s2 t, P s1 -> P s2 -> D s1 s2 -> bytes t -> (length t < B)%nat -> fin s1 t <> fin s2 t.
Hypothesis H4 : forall s t1 t2, P s -> bytes t1 -> bytes t2 -> (length t1 < B)%nat -> differ_at q L t1 t2 ->
  (full -> (q + L <= length t1)%nat) -> fin s t1 <> fin s t2.

Definition digest (s : St) (m : list N) : R := fin (fold_left blk (chunks B m) s) (rest B m).
Lemma digest_step s m : (B <= length m)%nat -> digest s m = digest (blk s (firstn B m)) (skipn B m).
Proof.
  intros H. unfold digest. rewrite (chunks_step B HB m H). cbn [fold_left]. f_equal.
  rewrite <- (firstn_skipn B m) at 1. apply rest_block; [exact HB|]. rewrite firstn_length. lia.
Qed.
Lemma digest_short s m : (length m < B)%nat -> digest s m = fin s m.
Proof. intros H. unfold digest. rewrite (chunks_short B HB m H), (rest_short B m H). reflexivity. Qed.
Lemma detect_states : forall n m s1 s2, (length m <= n)%nat -> P s1 -> P s2 -> D s1 s2 -> bytes m -> digest s1 m <> digest s2 m.
Proof.
  induction n as [|n IH]; intros m s1 s2 Hn P1 P2 HD Hm; (destruct (Nat.lt_ge_cases (length m) B) as [G|G]; [rewrite !digest_short by exact G; now apply H3|]); [lia|].
  rewrite (digest_step s1 m), (digest_step s2 m) by exact G. pose proof (bytes_firstn B m Hm) as Hf. pose proof (bytes_skipn B m Hm) as Hs.
  apply IH; [rewrite skipn_length; lia|now apply HP|now apply HP| |exact Hs]. apply H1; try assumption. rewrite firstn_length. lia.
Qed.
Theorem detect : forall p m1 m2 s, (p mod B = q)%nat -> P s -> bytes m1 -> bytes m2 -> differ_at p L m1 m2 ->
  (full -> (p + L <= length m1)%nat) -> digest s m1 <> digest s m2.
Proof.
  intros p. remember (p / B)%nat as k eqn:Ek. revert p Ek. induction k as [|k IH]; intros p Ek m1 m2 s Hq Ps B1 B2 HD HF;
    pose proof (Nat.div_mod p B ltac:(lia)) as Ep; rewrite <- Ek, Hq in Ep.
  - replace (B * 0 + q)%nat with q in Ep by lia. subst p. destruct (Nat.lt_ge_cases (length m1) B) as [G|G].
    + rewrite !digest_short by (destruct HD; lia). apply H4; assumption.
    + destruct HD as (HL & HN & E1 & E2). rewrite (digest_step s m1), (digest_step s m2) by lia.
      assert (ES : skipn B m1 = skipn B m2).
      { replace B with ((B - (q + L)) + (q + L))%nat by lia. rewrite <- (skipn_twice _ (q + L) m1), <- (skipn_twice _ (q + L) m2). now rewrite E2. }
      rewrite <- ES. apply (detect_states (length (skipn B m1))); [lia|apply HP; [exact Ps|now apply bytes_firstn]|apply HP; [exact Ps|now apply bytes_firstn]| |now apply bytes_skipn].
      apply H2; [exact Ps|now apply bytes_firstn|now apply bytes_firstn|rewrite firstn_length; lia|].
      split; [rewrite !firstn_length; lia|]. split.
      * intros EF. apply HN. rewrite <- (firstn_skipn B m1), <- (firstn_skipn B m2). now rewrite EF, ES.
      * split; [rewrite !firstn_firstn; replace (Nat.min q B) with q by lia; exact E1|]. rewrite !skipn_firstn_comm. now rewrite E2.
  - pose proof (differ_lt _ _ _ _ HD) as HLt. destruct HD as (HL & HN & E1 & E2). rewrite (digest_step s m1), (digest_step s m2) by nia.
    assert (EF : firstn B m1 = firstn B m2).
    { replace B with (Nat.min B p) by nia. rewrite <- !firstn_firstn. now rewrite E1. }
    rewrite <- EF. apply (IH (p - B)%nat).
    + replace p with ((p - B) + 1 * B)%nat in Ek by nia. rewrite Nat.div_add in Ek by lia. lia.
    + rewrite <- Hq. replace p with ((p - B) + 1 * B)%nat at 2 by nia. now rewrite Nat.mod_add by lia.
    + apply HP; [exact Ps|now apply bytes_firstn].
    + now apply bytes_skipn.
    + now apply bytes_skipn.
    + split; [rewrite !skipn_length; lia|]. split.
      * intros ES. apply HN. rewrite <- (firstn_skipn B m1), <- (firstn_skipn B m2). now rewrite EF, ES.
      * split; [rewrite !firstn_skipn_comm; replace (B + (p - B))%nat with p by nia; now rewrite E1|].
        rewrite !skipn_twice. replace (p - B + L + B)%nat with (p + L)%nat by nia. exact E2.
    + intros F. specialize (HF F). rewrite skipn_length. nia.
Qed.
End Detect.

(* bytes consumed one by one *)
Lemma fold_states {St A} (P : St -> Prop) (f : St -> A -> St) (HP : forall s b, P s -> P (f s b))
  (Hi : forall s1 s2 b, P s1 -> P s2 -> f s1 b = f s2 b -> s1 = s2) : forall l s1 s2, P s1 -> P s2 ->
  fold_left f l s1 = fold_left f l s2 -> s1 = s2.
Proof. induction l as [|b l IH]; intros s1 s2 P1 P2 E; [exact E|]. cbn [fold_left] in E. apply (Hi s1 s2 b P1 P2), IH; auto. Qed.
Lemma fold_byte {St} (P : St -> Prop) (f : St -> N -> St) (HP : forall s b, P s -> P (f s b))
  (Hi : forall s1 s2 b, P s1 -> P s2 -> f s1 b = f s2 b -> s1 = s2)
  (Hb : forall s b1 b2, P s -> b1 < 256 -> b2 < 256 -> f s b1 = f s b2 -> b1 = b2) p m1 m2 s : P s -> bytes m1 -> bytes m2 ->
  differ_at p 1 m1 m2 -> fold_left f m1 s <> fold_left f m2 s.
Proof.
  intros Ps B1 B2 HD E. destruct (differ_byte _ _ _ HD) as (a & x & y & t & -> & -> & HN & _). rewrite !fold_left_app in E. cbn [fold_left] in E.
  apply bytes_app in B1. apply bytes_app in B2. destruct B1 as [_ B1], B2 as [_ B2]. inversion B1; inversion B2; subst.
  assert (PA : forall l s, P s -> P (fold_left f l s)) by (induction l; cbn; auto).
  apply HN, (Hb (fold_left f a s)); auto. eapply (fold_states P f); eauto.
Qed.

Lemma rotl_bits w n x i : n < w -> x < 2^w -> N.testbit (ROTL w n x) i = if i <? n then N.testbit x (i + (w - n)) else (i <? w) && N.testbit x (i - n).
Proof.
  intros Hn Hx. unfold ROTL. rewrite N.lor_spec, N.shiftr_spec by lia.
  destruct (N.ltb_spec i n) as [G|G].
  - rewrite N.mod_pow2_bits_low by lia. rewrite N.shiftl_spec_low by exact G. reflexivity.
  - destruct (N.ltb_spec i w) as [K|K].
    + rewrite N.mod_pow2_bits_low by exact K. rewrite N.shiftl_spec_high by lia.
      rewrite (proj1 (lt_pow2_bits x w) Hx (i + (w - n))) by lia. now rewrite orb_false_r.
    + rewrite N.mod_pow2_bits_high by exact K. rewrite (proj1 (lt_pow2_bits x w) Hx (i + (w - n))) by lia. reflexivity.
Qed.
Lemma rotl_inj w n a b : n < w -> a < 2^w -> b < 2^w -> ROTL w n a = ROTL w n b -> a = b.
Proof.
  intros Hn Ha Hb E. apply N.bits_inj. intros i. destruct (N.lt_ge_cases i w) as [G|G].
  - destruct (N.lt_ge_cases i (w - n)) as [K|K].
    + apply (f_equal (fun x => N.testbit x (i + n))) in E. rewrite !rotl_bits in E by assumption.
      rewrite (proj2 (N.ltb_ge _ _)) in E by lia. rewrite (proj2 (N.ltb_lt (i + n) w)) in E by lia.
      replace (i + n - n) with i in E by lia. exact E.
    + apply (f_equal (fun x => N.testbit x (i - (w - n)))) in E. rewrite !rotl_bits in E by assumption.
      rewrite (proj2 (N.ltb_lt _ _)) in E by lia. replace (i - (w - n) + (w - n)) with i in E by lia. exact E.
  - rewrite (proj1 (lt_pow2_bits a w) Ha i G), (proj1 (lt_pow2_bits b w) Hb i G). reflexivity.
Qed.
Lemma rotl_lt w n x : n < w -> x < 2^w -> ROTL w n x < 2^w.
Proof. intros Hn Hx. apply lt_pow2_bits. intros i Hi. rewrite rotl_bits by assumption. rewrite (proj2 (N.ltb_ge i n)) by lia. now rewrite (proj2 (N.ltb_ge i w)) by lia. Qed.
Lemma add_inj_l w a b c : a < 2^w -> b < 2^w -> ADD w c a = ADD w c b -> a = b.
Proof. rewrite !(ADD_comm' w c). apply add_inj_r. Qed.

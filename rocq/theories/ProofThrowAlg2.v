(* The functions of ModelThrowAlg.v for algorithms guarded h W may: what the object has been fed when they are left. *)
From Verif Require Import Base BaseFacts SpecCommon Hasher Types ModelResult ModelAppend SpecAppend ProofMsg ProofMsgEq ProofAppend PropsCalls PropsUpdates ModelThrowAlg ProofThrowAlg1.
Open Scope N_scope.

(* ---------- what has been fed ---------- *)
Section Corr.
Variable h : hasher.
Variable W : Type.
Variable may : W -> event -> W * bool.
Variable nul : bool.
Variable A : Type.
Variable au : A -> list N -> A.
Variable ar : A -> h_R h * A.
Variable ok : A -> Prop.
Variable Rel : A -> h_S h -> Prop.
Hypothesis RF : refines h nul A au ar ok Rel.
Variable fits : A -> nat -> Prop.
Hypothesis FL : fits_laws au ar ok fits.
Variable gir : h_R h -> res N.
Variable g : h_R h -> N.
Hypothesis Hg : forall a, gir (fst (ar a)) = Ok (g (fst (ar a))).
Variable i : impl.
Variable f : flavor.
Notation le := (order_le (fl_order f)).
Notation MSG := (msg le (fl_size f) (im_psz i) (fadd0 i 8 23) (fadd0 i 11 52)).
Notation TMSG := (tup_msg le (fl_size f) (im_psz i) (fadd0 i 8 23) (fadd0 i 11 52)).
Notation T := (guarded h W may).
Notation XA := (eha T gir i f).
Notation feeds := (feeds h A au Rel).
Notation qa := (qa h A au ar g).

(* some operation throws *)
Definition throws : Prop := exists w e, snd (may w e) = true.
(* "st becomes a state representing a followed by a prefix of m, by all of m unless an exception was thrown" *)
Definition xfeeds (r : eout T) (a : A) (m : list N) : Prop :=
  exists w s b j, r = Ok (w, s, b) /\ Rel (au a (firstn j m)) s /\ (b = false -> firstn j m = m) /\ (b = true -> throws).
Lemma xfeeds_up w s p n a m : Rel a s -> feeds (h_update h s p n) a m -> xfeeds (t_update T w s p n) a m.
Proof.
  intros R (s' & E & R'). cbn [t_update guarded]. destruct (may w (EUpdate p n)) as [w' [|]] eqn:EM.
  - exists w', s, true, 0%nat. cbn [firstn]. rewrite (rf_nil _ _ _ _ _ _ _ RF). split; [reflexivity|]. split; [exact R|]. split; [discriminate|].
    intros _. exists w, (EUpdate p n). now rewrite EM.
  - rewrite E. cbn [bind]. exists w', s', false, (length m). rewrite firstn_all. repeat split; auto. discriminate.
Qed.
Lemma xfeeds_done a w s : Rel a s -> xfeeds (edone T w s) a [].
Proof. intros R. exists w, s, false, 0%nat. rewrite (rf_nil _ _ _ _ _ _ _ RF). repeat split; auto. discriminate. Qed.
Lemma xfeeds_bind r a m k m2 : xfeeds r a m -> (forall w s, Rel (au a m) s -> xfeeds (k w s) (au a m) m2) -> xfeeds (ebind T r k) a (m ++ m2).
Proof.
  intros (w & s & b & j & -> & R & HO & HX) HK. cbn [ebind bind]. destruct b.
  - exists w, s, true, (Nat.min j (length m)). split; [reflexivity|]. rewrite firstn_app. replace (Nat.min j (length m) - length m)%nat with 0%nat by lia.
    cbn [firstn]. rewrite app_nil_r. split; [|split; [discriminate|exact HX]].
    replace (firstn (Nat.min j (length m)) m) with (firstn j m); [exact R|]. destruct (Nat.le_ge_cases j (length m)); [now rewrite Nat.min_l|rewrite Nat.min_r by assumption; now rewrite !firstn_all2 by lia].
  - rewrite HO in R by reflexivity. destruct (HK w s R) as (w2 & s2 & o2 & j2 & E2 & R2 & HO2 & HX2). exists w2, s2, o2, (length m + j2)%nat. split; [exact E2|].
    rewrite firstn_app_2. rewrite <- (rf_app _ _ _ _ _ _ _ RF). split; [exact R2|]. split; [|exact HX2]. intros H. now rewrite HO2.
Qed.

Definition XP (t : ty) : Prop := forall v a w s, Rel a s -> has_type (im_psz i) t v -> fits a (blen t v) -> xfeeds (XA t v w s) a (MSG t v (qa a)).
Lemma fits_lower a L L' : fits a L -> (L' <= L)%nat -> fits a L'.
Proof. apply (fl_mono _ _ _ _ FL). Qed.
Lemma fits_after a m k L : fits a (k + L)%nat -> (length m <= k)%nat -> fits (au a m) L.
Proof. intros F H. apply (fl_au _ _ _ _ FL). apply (fl_mono _ _ _ _ FL _ _ _ F). lia. Qed.
Lemma qa_step a m : qeq (shift m (qa a)) (qa (au a m)).
Proof. exact (qa_au h nul A au ar ok Rel RF g a m). Qed.
Lemma xloop_feeds t vs : XP t -> Forall (has_type (im_psz i) t) vs -> forall a w s, Rel a s -> fits a (lsum (map (blen t) vs)) ->
  xfeeds (eloop T (XA t) vs w s) a (seq_msg (MSG t) vs (qa a)).
Proof.
  intros HP. induction 1 as [|v vs Hv Hvs IH]; intros a w s R F; cbn [eloop seq_msg].
  - now apply xfeeds_done.
  - cbn [map lsum fold_right] in F. apply xfeeds_bind.
    + apply HP; [exact R|exact Hv|]. apply (fits_lower a _ _ F). lia.
    + intros w1 s1 R1. rewrite (seq_msg_q _ _ _ _ _ t vs _ _ (qa_step a _)). apply IH; [exact R1|].
      apply (fits_after a _ _ _ F). apply msg_blen.
Qed.
Lemma xeach_feeds ts : Forall XP ts -> forall vs a w s, Rel a s -> Zip (has_type (im_psz i)) ts vs -> fits a (tup_blen ts vs) ->
  xfeeds (eeach i f T gir ts vs w s) a (TMSG ts vs (qa a)).
Proof.
  induction 1 as [|t ts Ht Hts IH]; intros [|v vs] a w s R HZ F; cbn [Zip] in HZ; try easy; cbn [eeach tup_msg].
  - now apply xfeeds_done.
  - destruct HZ as [H1 H2]. cbn [tup_blen] in F. apply xfeeds_bind.
    + apply Ht; [exact R|exact H1|]. apply (fits_lower a _ _ F). lia.
    + intros w1 s1 R1. rewrite (tup_msg_q _ _ _ _ _ ts vs _ _ (qa_step a _)). apply IH; [exact R1|exact H2|].
      apply (fits_after a _ _ _ F). apply msg_blen.
Qed.
Hypothesis Hnull : im_null i = true -> nul = true.
(* ranges of pointers: the calls of update() are those of ModelAppend.v *)
Lemma xptr_feeds t vs a w s : XP t -> Forall (has_type (im_psz i) t) vs -> Rel a s -> fits a (lsum (map (blen t) vs)) ->
  xfeeds (eptr_range T i f t (XA t) vs w s) a (seq_msg (MSG t) vs (qa a)).
Proof.
  intros HP HV R F. pose proof (contig_range h nul A au ar ok Rel RF fits FL gir g Hg i f Hnull t vs) as CR.
  assert (HL : xfeeds (eloop T (XA t) vs w s) a (seq_msg (MSG t) vs (qa a))) by now apply xloop_feeds.
  pose proof (ha_msg h nul A au ar ok Rel RF fits FL gir g Hg i f Hnull t) as HM. specialize (CR HM a s HV R F). unfold eptr_range. unfold ha_ptr_range in CR.
  destruct t as [s0 sg| | | | | | | | | | | | | | | | | |];
    try (match goal with |- context [contiguously_hashable i f ?t] => destruct (contiguously_hashable i f t); [|exact HL] end;
         destruct (negb (p_cx (im_pf i))); [now apply xfeeds_up|exact HL]).
  destruct s0; try (match goal with |- context [contiguously_hashable i f ?t] => destruct (contiguously_hashable i f t); [|exact HL] end;
         destruct (negb (p_cx (im_pf i))); [now apply xfeeds_up|exact HL]).
  destruct sg; try (match goal with |- context [contiguously_hashable i f ?t] => destruct (contiguously_hashable i f t); [|exact HL] end;
         destruct (negb (p_cx (im_pf i))); [now apply xfeeds_up|exact HL]).
  now apply xfeeds_up.
Qed.
Lemma int_feeds a b z w s : Rel a s -> fits a (ibytes b) -> xfeeds (eint T i f b z w s) a (enc le (ibytes b) z).
Proof.
  intros R F. rewrite int_update. apply xfeeds_up; [exact R|]. rewrite <- (int_call h i f b z s). now apply (ha_int_feeds h nul A au ar ok Rel RF fits FL gir g Hg i f).
Qed.
Lemma size_of_feeds a z w s : Rel a s -> fits a 8 -> xfeeds (esize_of T i f z w s) a (enc le (ibytes (fl_size f)) z).
Proof.
  intros R F. unfold esize_of. rewrite int_update. apply xfeeds_up; [exact R|]. rewrite <- (int_call h i f). now apply (ha_size_of_feeds h nul A au ar ok Rel RF fits FL gir g Hg i f).
Qed.
Lemma size_feeds a k w s : Rel a s -> fits a 8 -> xfeeds (esize T i f k w s) a (size_msg le (fl_size f) k).
Proof. apply size_of_feeds. Qed.
Lemma zero_feeds a w s : Rel a s -> fits a 1 -> xfeeds (eint T i f I8 0 w s) a [0].
Proof.
  intros R F. rewrite int_update. apply xfeeds_up; [exact R|]. rewrite <- (int_call h i f I8 0 s). now apply (ha_zero_feeds h nul A au ar ok Rel RF fits FL gir g Hg i f).
Qed.
Lemma direct_feeds t v a w s : contiguously_hashable i f t = true -> has_type (im_psz i) t v -> Rel a s -> fits a (blen t v) ->
  xfeeds (t_update T w s (Ptr (obj i t v)) (size_of i t)) a (MSG t v (qa a)).
Proof. intros HC HV R F. apply xfeeds_up; [exact R|]. now apply (contig_feeds h nul A au ar ok Rel RF fits FL gir g Hg i f). Qed.
(* unordered ranges work on copies: thrown before the combined value is appended, an exception leaves the object unchanged *)
Lemma xunord_ok t vs (HP : XP t) a s : Rel a s -> Forall (has_type (im_psz i) t) vs -> fits a (lsum (map (fun v => 192 + blen t v)%nat vs)) -> forall x m w, x < 2^64 ->
  exists w', (eunord T gir (XA t) w s vs x m = Ok (w', None) /\ throws) \/
             eunord T gir (XA t) w s vs x m = Ok (w', Some (sum64 (x :: map (fun v => qa a (MSG t v (qa a))) vs), (m + length vs)%nat)).
Proof.
  intros R. induction 1 as [|v vs Hv Hvs IH]; intros F x m w HX.
  - exists w. right. cbn [eunord map]. unfold sum64. cbn [fold_right length]. rewrite N.add_0_r, N.mod_small by exact HX. do 4 f_equal. lia.
  - cbn [map lsum fold_right] in F. cbn [eunord map].
    assert (F1 : fits a (blen t v + 192)%nat) by (apply (fits_lower a _ _ F); lia).
    assert (F2 : fits a (lsum (map (fun v => 192 + blen t v)%nat vs))) by (apply (fits_lower a _ _ F); unfold lsum; lia).
    cbn [t_copy guarded]. destruct (may w ECopy) as [w1 [|]] eqn:EM1; cbn [bind]; [exists w1; left; split; [reflexivity|]; exists w, ECopy; now rewrite EM1|].
    destruct (HP v a w1 s R Hv) as (w2 & s1 & b & j & E1 & R1 & HO & HX1). { apply (fits_lower a _ _ F1). lia. }
    rewrite E1. cbn [bind]. destruct b; [exists w2; left; split; [reflexivity|now apply HX1]|]. rewrite HO in R1 by reflexivity.
    cbn [t_result guarded]. destruct (may w2 EResult) as [w3 [|]] eqn:EM3; cbn [bind]; [exists w3; left; split; [reflexivity|]; exists w2, EResult; now rewrite EM3|].
    assert (F3 : fits (au a (MSG t v (qa a))) 192) by (apply (fits_after a _ _ _ F1); apply msg_blen).
    destruct (rf_result _ _ _ _ _ _ _ RF _ s1 R1) as (s2 & E2 & _).
    { exact (fl_ok _ _ _ _ FL _ _ F3). }
    { apply (fl_ok _ _ _ _ FL _ 0%nat). apply (fl_ar _ _ _ _ FL). exact F3. }
    rewrite E2. cbn [bind fst]. rewrite Hg. cbn [bind].
    destruct (IH F2 (add64 x (g (fst (ar (au a (MSG t v (qa a))))))) (S m) w3) as (w4 & [E|E]).
    { unfold add64, w64. apply N.mod_lt. discriminate. }
    + exists w4. left. exact E.
    + exists w4. right. rewrite E. do 4 f_equal; [|cbn [length]; lia]. unfold sum64. cbn [fold_right]. unfold add64, w64.
      rewrite N.add_mod_idemp_l by discriminate. rewrite <- N.add_assoc. reflexivity.
Qed.
Ltac fm F := eapply fits_lower; [exact F|cbn [blen ibytes]; try apply ibytes_8; lia].
Lemma firstn_exact {X} (l m : list X) n : length l = n -> firstn n (l ++ m) = l.
Proof. intros <-. rewrite firstn_app, Nat.sub_diag, firstn_all. cbn [firstn]. apply app_nil_r. Qed.
(* left by an exception, the object has been fed nothing, or the combined value only *)
Definition xfeeds0 (r : eout T) (a : A) (m : list N) : Prop :=
  exists w s b j, r = Ok (w, s, b) /\ Rel (au a (firstn j m)) s /\ (b = false -> firstn j m = m) /\ (b = true -> throws /\ (j = 0%nat \/ j = 8%nat)).
Lemma xunord_prefix t vs (HP : XP t) a w s : Rel a s -> Forall (has_type (im_psz i) t) vs -> fits a (16 + lsum (map (fun v => 192 + blen t v)%nat vs)) ->
  xfeeds0 (eunord_range T gir i f (XA t) vs w s) a (enc le 8 (Z.of_N (sum64 (map (fun v => qa a (MSG t v (qa a))) vs))) ++ size_msg le (fl_size f) (length vs)).
Proof.
  intros R HV F. unfold eunord_range. destruct (xunord_ok t vs HP a s R HV) with (x := 0) (m := 0%nat) (w := w) as (w1 & [[E HX]|E]); [fm F|reflexivity| |]; rewrite E; cbn [bind].
  - exists w1, s, true, 0%nat. cbn [firstn]. rewrite (rf_nil _ _ _ _ _ _ _ RF). split; [reflexivity|]. split; [exact R|]. split; [discriminate|]. intros _. auto.
  - cbn [Nat.add]. set (x := Z.of_N _). set (m2 := size_msg _ _ _).
    assert (L8 : length (enc le 8 x) = 8%nat) by apply enc_length.
    assert (E0 : firstn 8 (enc le 8 x ++ m2) = enc le 8 x) by (apply (firstn_exact (enc le 8 x) m2 8 L8)).
    rewrite int_update. cbn [t_update guarded]. destruct (may w1 (EUpdate (Ptr (enc le (ibytes I64) x)) (ibytes I64))) as [w2 [|]] eqn:EM1; cbn [ebind bind].
    + exists w2, s, true, 0%nat. cbn [firstn]. rewrite (rf_nil _ _ _ _ _ _ _ RF). split; [reflexivity|]. split; [exact R|]. split; [discriminate|]. intros _.
      split; [|auto]. exists w1, (EUpdate (Ptr (enc le (ibytes I64) x)) (ibytes I64)). now rewrite EM1.
    + assert (F8 : fits a (ibytes I64)) by fm F. destruct (ha_int_feeds h nul A au ar ok Rel RF fits FL gir g Hg i f a I64 x s R F8) as (s1 & E1 & R1).
      rewrite int_call in E1. rewrite E1. cbn [bind].
      assert (F1 : fits (au a (enc le 8 x)) 8). { apply (fits_after a _ 8 8); [fm F|]. rewrite L8. apply le_n. }
      destruct (size_feeds _ (length vs) w2 s1 R1 F1) as (w3 & s3 & b & j & E3 & R3 & HO & HX).
      match goal with |- xfeeds0 ?r _ _ => change r with (esize T i f (length vs) w2 s1) end. rewrite E3. destruct b.
      * exists w3, s3, true, 8%nat. split; [reflexivity|]. rewrite E0. split; [|split; [discriminate|]; intros _; split; [now apply HX|auto]].
        clear - E3 R1. unfold esize, esize_of in E3. rewrite int_update in E3. cbn [t_update guarded] in E3.
        destruct (may w2 _) as [w4 [|]]; [injection E3 as _ <-; exact R1|]. destruct (h_update h s1 _ _); discriminate.
      * exists w3, s3, false, (length (enc le 8 x ++ m2)). rewrite firstn_all. split; [reflexivity|]. split; [|split; [reflexivity|discriminate]].
        rewrite <- (rf_app _ _ _ _ _ _ _ RF). fold m2 in HO, R3. now rewrite HO in R3.
Qed.
Lemma xunord_feeds t vs (HP : XP t) a w s : Rel a s -> Forall (has_type (im_psz i) t) vs -> fits a (16 + lsum (map (fun v => 192 + blen t v)%nat vs)) ->
  xfeeds (eunord_range T gir i f (XA t) vs w s) a (enc le 8 (Z.of_N (sum64 (map (fun v => qa a (MSG t v (qa a))) vs))) ++ size_msg le (fl_size f) (length vs)).
Proof.
  intros R HV F. unfold eunord_range. destruct (xunord_ok t vs HP a s R HV) with (x := 0) (m := 0%nat) (w := w) as (w1 & [[E HX]|E]); [fm F|reflexivity| |]; rewrite E; cbn [bind].
  - exists w1, s, true, 0%nat. cbn [firstn]. rewrite (rf_nil _ _ _ _ _ _ _ RF). split; [reflexivity|]. split; [exact R|]. split; [discriminate|now intros _].
  - cbn [Nat.add]. apply xfeeds_bind.
    + apply (int_feeds a I64 _ w1 s R). fm F.
    + intros w2 s1 R1. apply size_feeds; [exact R1|]. apply (fits_after a _ 8 8); [fm F|]. rewrite enc_length. apply le_n.
Qed.
Lemma seqlen t vs q : (length (seq_msg (MSG t) vs q) <= lsum (map (blen t) vs))%nat.
Proof. apply seq_blen. apply msg_blen. Qed.
Lemma tuplen ts vs q : (length (TMSG ts vs q) <= tup_blen ts vs)%nat.
Proof. apply tup_blen_ok. apply Forall_forall. intros t _. apply msg_blen. Qed.
Lemma xform_feeds {X} (k : call_ X) t a w s : XP t -> Rel a s -> form_ok k (has_type (im_psz i) t) -> fits a (form_blen k (blen t)) ->
  xfeeds (eform T gir i f k t (XA t) w s) a (form_msg le (fl_size f) k (MSG t) (qa a)).
Proof.
  intros HP R HV F. destruct k as [t' v|[|c] t' vs|[|c] t' vs|t' vs|z]; cbn [form_ok form_blen eform form_msg] in *.
  - now apply HP.
  - now apply xptr_feeds.
  - now apply xloop_feeds.
  - apply xfeeds_bind; [apply xptr_feeds; [exact HP|exact HV|exact R|fm F]|]. intros w1 s1 R1. apply size_feeds; [exact R1|]. rewrite Nat.add_comm in F. apply (fits_after a _ _ _ F), seqlen.
  - apply xfeeds_bind; [apply xloop_feeds; [exact HP|exact HV|exact R|fm F]|]. intros w1 s1 R1.
    apply size_feeds; [exact R1|]. rewrite Nat.add_comm in F. apply (fits_after a _ _ _ F), seqlen.
  - apply xunord_feeds; [exact HP|exact R|exact HV|exact F].
  - now apply size_of_feeds.
Qed.
Lemma xuser_feeds ts : Forall XP ts -> forall cs a w s, Rel a s -> Forall (UOK (im_psz i) ts) cs -> fits a (lsum (map (UBLEN ts) cs)) ->
  xfeeds (eloop T (fun c w st => ucase (fun z => esize_of T i f z w st) (fun t => eform T gir i f c t (XA t) w st) UB ts c) cs w s) a
    (seq_msg (UMSG le (fl_size f) (im_psz i) (fadd0 i 8 23) (fadd0 i 11 52) ts) cs (qa a)).
Proof.
  intros H. induction cs as [|c cs IH]; intros a w s R HV F; cbn [eloop seq_msg].
  - now apply xfeeds_done.
  - cbn [map lsum fold_right] in F. inversion HV as [|? ? V1 V2]; subst. apply xfeeds_bind.
    + assert (F1 : fits a (UBLEN ts c)) by (apply (fits_lower a _ _ F); lia). clear - H R V1 F1 RF FL Hg Hnull.
      unfold UOK, UBLEN, UMSG in *. ucases H ts c z t HP HI HAl; [|now apply xform_feeds|contradiction].
      now apply size_of_feeds.
    + intros w1 s1 R1. rewrite (umsg_q _ _ _ _ _ ts cs _ _ (qa_step a _)). apply IH; [exact R1|exact V2|].
      apply (fits_after a _ _ _ F). apply umsg_blen.
Qed.
Ltac contig EC := match goal with |- context [(negb ?x && ?y)%bool] =>
     destruct (negb x && y)%bool eqn:EC; [apply andb_prop in EC; destruct EC as [_ EC]|] end.
Ltac nocontig := cbn [eha contiguously_hashable trivially_comparable andb]; rewrite not_contig.
Theorem xha_msg t : XP t.
Proof.
  induction t using ty_rect'; intros v a w st R HV F.
  all: destruct v as [z|vs]; try easy.
  1-4: cbn [eha]; contig EC; [now apply direct_feeds|]; cbn [msg]; apply int_feeds; [exact R|]; fm F.
  - nocontig. apply int_feeds; [exact R|]. fm F.
  - nocontig. apply (int_feeds a I32 _ w st R). fm F.
  - nocontig. apply (int_feeds a I64 _ w st R). fm F.
  - cbn [eha]. contig EC; [now apply direct_feeds|]. cbn [msg]. apply xptr_feeds; [assumption|apply HV|exact R|]. fm F.
  - nocontig. cbn [msg blen] in *. apply xfeeds_bind.
    + apply xptr_feeds; [assumption|apply HV|exact R|]. fm F.
    + intros w1 s1 R1. apply size_feeds; [exact R1|]. rewrite Nat.add_comm in F. apply (fits_after a _ _ _ F), seqlen.
  - cbn [blen] in F. nocontig. cbn [msg]. apply xfeeds_bind; [apply xloop_feeds; [assumption|exact HV|exact R|fm F]|intros w1 s1 R1].
    apply size_feeds; [exact R1|]. rewrite Nat.add_comm in F. apply (fits_after a _ _ _ F), seqlen.
  - nocontig. cbn [has_type] in HV. destruct HV as [HL HV]. destruct vs as [|v vs]; cbn [length] in HL; subst n; cbn [Nat.eqb].
    + apply (zero_feeds a w st R). fm F.
    + apply xptr_feeds; [assumption|exact HV|exact R|]. fm F.
  - nocontig. cbn [has_type] in HV. destruct HV as [HL HV]. destruct vs as [|v vs]; cbn [length] in HL; subst n; cbn [Nat.eqb].
    + apply (zero_feeds a w st R). fm F.
    + apply xloop_feeds; [assumption|exact HV|exact R|]. fm F.
  - nocontig. cbn [blen] in F. cbn [msg]. apply xunord_feeds; [exact IHt|exact R|exact HV|exact F].
  - cbn [has_type] in HV. rewrite each_ty in HV. destruct ts as [|t ts].
    + nocontig. apply (zero_feeds a w st R). fm F.
    + rewrite blen_tuple in F. rewrite eha_tuple, msg_tuple by discriminate. apply xeach_feeds; [assumption..|]. fm F.
  - cbn [has_type] in HV. destruct vs as [|[z|bv] [|[z2|mv] [|? ?]]]; try easy.
    rewrite !each_ty in HV. destruct HV as [HB HM]. rewrite eha_desc. rewrite blen_desc in F.
    assert (HD : (bs = [] /\ ms = []) \/ (bs <> [] \/ ms <> [])).
    { destruct bs; [destruct ms|]; [now left|right; right; discriminate|right; left; discriminate]. }
    destruct HD as [[-> ->]|HD].
    + destruct bv; [|easy]. destruct mv; [|easy]. cbn [eeach bind ebind edone length Nat.add Nat.eqb]. apply (zero_feeds a w st R). fm F.
    + rewrite msg_desc by exact HD. apply xfeeds_bind; [apply xeach_feeds; [assumption..|]; fm F|]. intros w1 s1 R1.
      replace (Nat.eqb (length bs + length ms) 0) with false
        by (destruct bs; [destruct ms; [destruct HD; easy|]|]; cbn [length]; symmetry; apply Nat.eqb_neq; lia).
      rewrite (tup_msg_q _ _ _ _ _ ms mv _ _ (qa_step a _)).
      rewrite <- (app_nil_r (TMSG ms mv (qa (au a (TMSG bs bv (qa a)))))).
      apply xfeeds_bind; [|intros w2 s2 R2; now apply xfeeds_done].
      apply xeach_feeds; [assumption..|]. apply (fits_after a _ (tup_blen bs bv)); [fm F|apply tuplen].
  - cbn [has_type] in HV. rewrite each_ty in HV. destruct HV as [_ HV]. rewrite blen_tag in F.
    rewrite eha_tag, msg_tag. apply xeach_feeds; [assumption..|]. fm F.
  - destruct vs as [|[k|?] [|v [|? ?]]]; try easy. cbn [has_type blen] in HV, F. destruct HV as [HI HV].
    nocontig. pose proof (ibytes_8 s). alt_cases H ts (Z.to_nat k) t HP HN HAl; [|easy]. destruct lead; cbn [msg]; rewrite HAl.
    + apply xfeeds_bind; [apply int_feeds; [exact R|fm F]|]. intros w1 s1 R1. rewrite HAl.
      rewrite (msg_ext _ _ _ _ _ t v _ _ (qa_step a _)). apply HP; [exact R1|exact HV|]. apply (fits_after a _ 8); [fm F|now rewrite enc_length].
    + rewrite ?HAl. apply xfeeds_bind; [apply HP; [exact R|exact HV|fm F]|]. intros w1 s1 R1.
      apply int_feeds; [exact R1|]. apply (fits_after a _ (blen t v)); [fm F|apply msg_blen].
  - rewrite has_type_user in HV. destruct HV as [_ HV]. rewrite blen_user in F. rewrite msg_user.
    nocontig. match goal with |- context [?g0 (VInt z)] => apply (xuser_feeds ts H (g0 (VInt z)) a w st R HV) end. fm F.
  - rewrite has_type_user in HV. destruct HV as [_ HV]. rewrite blen_user in F. rewrite msg_user.
    nocontig. match goal with |- context [?g0 (VList vs)] => apply (xuser_feeds ts H (g0 (VList vs)) a w st R HV) end. fm F.
  - cbn [eha]. contig EC; [now apply direct_feeds|]. apply (IHt (VInt z) a w st R (proj1 (proj2 HV)) F).
  - cbn [eha]. contig EC; [now apply direct_feeds|]. apply (IHt (VList vs) a w st R (proj1 (proj2 HV)) F).
Qed.
Theorem xha_call_msg k a w st : Rel a st -> call_ok (im_psz i) k -> fits a (call_blen k) ->
  xfeeds (eha_call T gir i f k w st) a (call_msg le (fl_size f) (im_psz i) (fadd0 i 8 23) (fadd0 i 11 52) k (qa a)).
Proof.
  destruct k as [t v|d t vs|d t vs|t vs|z]; cbn [call_ok call_blen eha_call call_msg]; intros R HV F.
  1-4: apply xform_feeds; [apply xha_msg|exact R|exact HV|exact F].
  now apply size_of_feeds.
Qed.
Theorem unordered_msg k a w st : unordered_call k -> Rel a st -> call_ok (im_psz i) k -> fits a (call_blen k) ->
  xfeeds0 (eha_call T gir i f k w st) a (call_msg le (fl_size f) (im_psz i) (fadd0 i 8 23) (fadd0 i 11 52) k (qa a)).
Proof.
  destruct k as [t v|d t vs|d t vs|t vs|z]; cbn [unordered_call]; try contradiction; intros U R HV F.
  - destruct t; try contradiction. destruct v as [z|vs]; [contradiction|]. cbn [call_ok form_ok call_blen form_blen blen] in HV, F. cbn [eha_call eform call_msg form_msg msg].
    cbn [eha contiguously_hashable trivially_comparable andb]. rewrite not_contig. apply xunord_prefix; [apply xha_msg|exact R|exact HV|exact F].
  - cbn [call_ok form_ok call_blen form_blen] in HV, F. cbn [eha_call eform call_msg form_msg]. apply xunord_prefix; [apply xha_msg|exact R|exact HV|exact F].
Qed.
End Corr.

(* when the ranges are not empty, whether data() of an empty range is null does not matter; as section Null of ProofAppend.v *)
Section Null.
Variable T : thrower.
Variable gir : t_R T -> res N.
Variable i : impl.
Variable f : flavor.
Notation H1 := (eha T gir i f).
Notation H2 := (eha T gir (no_null i) f).
Notation fn := (t_W T -> t_S T -> eout T).
Lemma xloop_same {X : Type} (F G : X -> fn) vs : Forall (fun v => forall w st, F v w st = G v w st) vs ->
  forall w st, eloop T F vs w st = eloop T G vs w st.
Proof. induction 1 as [|v vs E _ IH]; intros w st; cbn [eloop]; [reflexivity|]. rewrite E. apply ebind_ext. intros w1 s1. apply IH. Qed.
Lemma xunord_same (F G : val -> fn) vs : Forall (fun v => forall w st, F v w st = G v w st) vs ->
  forall w st x m, eunord T gir F w st vs x m = eunord T gir G w st vs x m.
Proof.
  induction 1 as [|v vs E _ IH]; intros w st x m; cbn [eunord]; [reflexivity|].
  destruct (t_copy T w st) as [[w1 [s1|]]| | | ]; cbn [bind]; auto. rewrite E.
  destruct (G v w1 s1) as [[[w2 s2] [|]]| | | ]; cbn [bind]; auto.
  destruct (t_result T w2 s2) as [[w3 [r|]]| | | ]; cbn [bind]; auto. destruct (gir r); cbn [bind]; auto.
Qed.
Lemma xptr_same t (F G : val -> fn) vs w st : vs <> [] -> Forall (fun v => forall w st, F v w st = G v w st) vs ->
  eptr_range T i f t F vs w st = eptr_range T (no_null i) f t G vs w st.
Proof.
  intros HN E. unfold eptr_range. change (contiguously_hashable (no_null i) f t) with (contiguously_hashable i f t).
  change (obj (no_null i)) with (obj i). change (size_of (no_null i)) with (size_of i). change (im_pf (no_null i)) with (im_pf i).
  rewrite (xloop_same F G vs E w st). destruct vs as [|v vs]; [easy|]. reflexivity.
Qed.
Definition xsame (t : ty) : Prop := forall v w st, has_type (im_psz i) t v -> null_free t v -> H1 t v w st = H2 t v w st.
Lemma xsame_all t vs : xsame t -> Forall (has_type (im_psz i) t) vs -> Forall (null_free t) vs -> Forall (fun v => forall w st, H1 t v w st = H2 t v w st) vs.
Proof. intros HS HT HN. rewrite Forall_forall in *. intros v Hv w st. apply HS; auto. Qed.
Lemma xeach_same ts : Forall xsame ts -> forall vs w st, Zip (has_type (im_psz i)) ts vs ->
  (fix all (ts : list ty) (vs : list val) : Prop :=
    match ts, vs with
    | t :: ts, v :: vs => null_free t v /\ all ts vs
    | _, _ => True
    end) ts vs -> eeach i f T gir ts vs w st = eeach (no_null i) f T gir ts vs w st.
Proof.
  induction 1 as [|t ts HS _ IH]; intros [|v vs] w st HZ HN; [reflexivity|destruct HZ|destruct HZ|]. cbn [eeach]. destruct HZ as [Z1 Z2], HN as [N1 N2].
  rewrite (HS v w st Z1 N1). apply ebind_ext. intros w1 s1. now apply IH.
Qed.
Lemma xunord_range_same (F G : val -> fn) vs w st : Forall (fun v => forall w st, F v w st = G v w st) vs ->
  eunord_range T gir i f F vs w st = eunord_range T gir (no_null i) f G vs w st.
Proof. intros E. unfold eunord_range. rewrite (xunord_same F G vs E). reflexivity. Qed.
Lemma xform_same {X} (k : call_ X) t w st : xsame t -> form_ok k (has_type (im_psz i) t) -> form_null k (null_free t) ->
  eform T gir i f k t (H1 t) w st = eform T gir (no_null i) f k t (H2 t) w st.
Proof.
  intros HS HT HN. destruct k as [t' v|[|c] t' vs|[|c] t' vs|t' vs|z]; cbn [form_ok form_null eform] in *.
  - now apply HS.
  - apply xptr_same; [apply HN|]. now apply xsame_all.
  - apply xloop_same. now apply xsame_all.
  - destruct HN as [N1 N2]. rewrite (xptr_same t (H1 t) (H2 t) vs w st N1 (xsame_all t vs HS HT N2)). reflexivity.
  - rewrite (xloop_same (H1 t) (H2 t) vs (xsame_all t vs HS HT HN)). reflexivity.
  - apply xunord_range_same. now apply xsame_all.
  - reflexivity.
Qed.
Lemma xuser_same ts : Forall xsame ts -> forall cs, Forall (UOK (im_psz i) ts) cs -> Forall (UNF ts) cs -> forall w st,
  eloop T (fun c w st => ucase (fun z => esize_of T i f z w st) (fun t => eform T gir i f c t (H1 t) w st) UB ts c) cs w st =
  eloop T (fun c w st => ucase (fun z => esize_of T (no_null i) f z w st) (fun t => eform T gir (no_null i) f c t (H2 t) w st) UB ts c) cs w st.
Proof.
  intros H cs HT HN. apply xloop_same. rewrite Forall_forall in HT, HN |- *. intros c Hc w st. specialize (HT c Hc). specialize (HN c Hc). clear Hc.
  unfold UOK, UNF in *. ucases H ts c z t HP HI HAl; [reflexivity|now apply xform_same|contradiction].
Qed.
Theorem xha_null t : xsame t.
Proof.
  assert (HL : forall (t : ty) (vs : list val) n, n <> 0%nat -> length vs = n -> vs <> []) by (intros ? [|] n; cbn; congruence).
  induction t using ty_rect'; intros v w0 st HT HN; destruct v as [z|vs]; try (exfalso; exact HT).
  1-7: reflexivity.
  - cbn [has_type null_free] in *. cbn [eha]. destruct HT as (T1 & T2 & T3).
    rewrite (xptr_same t (H1 t) (H2 t) vs w0 st); [reflexivity|now apply (HL t vs n)|now apply xsame_all].
  - cbn [has_type null_free] in *. cbn [eha contiguously_hashable trivially_comparable andb]. rewrite !not_contig.
    rewrite (xptr_same t (H1 t) (H2 t) vs w0 st); [reflexivity|apply HN|]. now apply xsame_all.
  - cbn [has_type null_free] in *. cbn [eha contiguously_hashable trivially_comparable andb]. rewrite !not_contig.
    rewrite (xloop_same (H1 t) (H2 t) vs); [reflexivity|]. now apply xsame_all.
  - cbn [has_type null_free] in *. cbn [eha contiguously_hashable trivially_comparable andb]. rewrite !not_contig. destruct HT as [T1 T2]. destruct (Nat.eqb_spec n 0) as [->|T3]; [reflexivity|].
    apply xptr_same; [now apply (HL t vs n)|now apply xsame_all].
  - cbn [has_type null_free] in *. cbn [eha contiguously_hashable trivially_comparable andb]. rewrite !not_contig. destruct HT as [T1 T2]. destruct (Nat.eqb n 0); [reflexivity|].
    apply xloop_same. now apply xsame_all.
  - cbn [has_type null_free] in *. cbn [eha contiguously_hashable trivially_comparable andb]. rewrite !not_contig. apply xunord_range_same. now apply xsame_all.
  - cbn [has_type null_free] in *. rewrite each_ty in HT. destruct ts as [|t ts]; [reflexivity|].
    rewrite !eha_tuple by discriminate. now apply xeach_same.
  - cbn [has_type null_free] in *. destruct vs as [|[z|bv] [|[z2|mv] [|? ?]]]; try (exfalso; exact HT). rewrite !each_ty in HT.
    rewrite !eha_desc. rewrite (xeach_same bs H bv w0 st) by tauto. apply ebind_ext. intros w1 s1.
    rewrite (xeach_same ms H0 mv) by tauto. reflexivity.
  - cbn [has_type null_free] in *. rewrite each_ty in HT. rewrite !eha_tag. now rewrite (xeach_same ts H vs w0 st) by tauto.
  - destruct vs as [|[k|?] [|v [|? ?]]]; try (exfalso; exact HT). cbn [has_type null_free] in *. destruct HT as [_ HT].
    cbn [eha contiguously_hashable trivially_comparable andb]. rewrite !not_contig.
    alt_cases H ts (Z.to_nat k) t HP HI HAl; [|easy]. destruct lead.
    + change (eint T (no_null i) f s k w0 st) with (eint T i f s k w0 st). apply ebind_ext. intros w1 s1. rewrite !HAl. now apply HP.
    + rewrite ?HAl. rewrite (HP v w0 st HT HN). reflexivity.
  - rewrite has_type_user in HT. rewrite null_free_user in HN. cbn [eha contiguously_hashable trivially_comparable andb]. rewrite !not_contig.
    now apply xuser_same.
  - rewrite has_type_user in HT. rewrite null_free_user in HN. cbn [eha contiguously_hashable trivially_comparable andb]. rewrite !not_contig.
    now apply xuser_same.
  - cbn [eha]. change (contiguously_hashable (no_null i) f) with (contiguously_hashable i f).
    rewrite (IHt (VInt z) w0 st (proj1 (proj2 HT)) HN). reflexivity.
  - cbn [eha]. change (contiguously_hashable (no_null i) f) with (contiguously_hashable i f).
    rewrite (IHt (VList vs) w0 st (proj1 (proj2 HT)) HN). reflexivity.
Qed.
Theorem xcall_null k w st : call_ok (im_psz i) k -> call_null_free k -> eha_call T gir i f k w st = eha_call T gir (no_null i) f k w st.
Proof.
  destruct k as [t v|d t vs|d t vs|t vs|z]; cbn [call_ok call_null_free eha_call]; intros HT HN.
  1-4: apply xform_same; [apply xha_null|exact HT|exact HN].
  reflexivity.
Qed.
End Null.

(* all together *)
Theorem xcall_feeds h W may nul A au ar ok Rel (RF : refines h nul A au ar ok Rel) fits (FL : fits_laws au ar ok fits) gir g
  (Hg : forall a, gir (fst (ar a)) = Ok (g (fst (ar a)))) i f k a w st :
  (im_null i = true -> nul = true \/ call_null_free k) -> Rel a st -> call_ok (im_psz i) k -> fits a (call_blen k) ->
  xfeeds h W may A au Rel (eha_call (guarded h W may) gir i f k w st) a
    (call_msg (order_le (fl_order f)) (fl_size f) (im_psz i) (fadd0 i 8 23) (fadd0 i 11 52) k (qa h A au ar g a)).
Proof.
  intros HN R HK F.
  assert (D : (im_null i = true -> nul = true) \/ call_null_free k).
  { destruct (im_null i); [destruct (HN eq_refl); auto|left; discriminate]. }
  destruct D as [D|D].
  - eapply xha_call_msg; eassumption.
  - rewrite (xcall_null (guarded h W may)) by assumption. eapply (xha_call_msg h W may nul A au ar ok Rel RF fits FL gir g Hg (no_null i)); try assumption. discriminate.
Qed.
Theorem unordered_feeds h W may nul A au ar ok Rel (RF : refines h nul A au ar ok Rel) fits (FL : fits_laws au ar ok fits) gir g
  (Hg : forall a, gir (fst (ar a)) = Ok (g (fst (ar a)))) i f k a w st :
  (im_null i = true -> nul = true \/ call_null_free k) -> unordered_call k -> Rel a st -> call_ok (im_psz i) k -> fits a (call_blen k) ->
  xfeeds0 h W may A au Rel (eha_call (guarded h W may) gir i f k w st) a
    (call_msg (order_le (fl_order f)) (fl_size f) (im_psz i) (fadd0 i 8 23) (fadd0 i 11 52) k (qa h A au ar g a)).
Proof.
  intros HN U R HK F.
  assert (D : (im_null i = true -> nul = true) \/ call_null_free k).
  { destruct (im_null i); [destruct (HN eq_refl); auto|left; discriminate]. }
  destruct D as [D|D].
  - eapply unordered_msg; eassumption.
  - rewrite (xcall_null (guarded h W may)) by assumption. eapply (unordered_msg h W may nul A au ar ok Rel RF fits FL gir g Hg (no_null i)); try assumption. discriminate.
Qed.

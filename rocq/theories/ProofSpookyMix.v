(* spooky2_128: the model computes SpookyHash V2. *)
From Verif Require Import Base BaseFacts SpecCommon Gen Hasher Words GenBlk Loops
  SpecSpooky ModelMurmur ModelSpooky ProofMurmur.
Open Scope N_scope.

Definition sp_list (st : sp_st) : list N :=
  let '(SP h0 h1 h2 h3 h4 h5 h6 h7 h8 h9 h10 h11) := st in [h0; h1; h2; h3; h4; h5; h6; h7; h8; h9; h10; h11].
Definition sp_of (l : list N) : sp_st :=
  match l with
  | [h0; h1; h2; h3; h4; h5; h6; h7; h8; h9; h10; h11] => SP h0 h1 h2 h3 h4 h5 h6 h7 h8 h9 h10 h11
  | _ => SP 0 0 0 0 0 0 0 0 0 0 0 0
  end.
Lemma sp_of_list st : sp_of (sp_list st) = st.
Proof. destruct st. reflexivity. Qed.

Definition list4 (x : sp_4) : list N := let '(a, b, c, d) := x in [a; b; c; d].

Lemma fold_hom {A B C} (f : A -> C -> A) (g : B -> C -> B) (h : A -> B) : (forall a c, h (f a c) = g (h a) c) ->
  forall l a, h (fold_left f l a) = fold_left g l (h a).
Proof. intros H. induction l as [|c l IH]; intros a; [reflexivity|]. cbn [fold_left]. rewrite IH, H. reflexivity. Qed.

(* one line of the reference code *)
Ltac line mdef sdef :=
  cbv delta [mdef]; cbv beta iota zeta;
  repeat match goal with |- context [rotl64 ?a ?k] => rewrite (rotl64_ROTL a k eq_refl eq_refl) end;
  repeat match goal with |- context [add64 ?a ?b] => rewrite (add64_ADD a b) end;
  cbv [sdef sp_list list4 assign var set_nth nth Mix_rot End_rot ShortMix_rot ShortEnd_rot
       Nat.modulo Nat.divmod snd fst Nat.add Nat.sub]; reflexivity.
Lemma short_mix_0 x : list4 (sp_short_mix_0 x) = ShortMix_line (list4 x) 0.
Proof. destruct x as [[[a b] c] d]. line sp_short_mix_0 ShortMix_line. Qed.
Lemma short_mix_1 x : list4 (sp_short_mix_1 x) = ShortMix_line (list4 x) 1.
Proof. destruct x as [[[a b] c] d]. line sp_short_mix_1 ShortMix_line. Qed.
Lemma short_mix_2 x : list4 (sp_short_mix_2 x) = ShortMix_line (list4 x) 2.
Proof. destruct x as [[[a b] c] d]. line sp_short_mix_2 ShortMix_line. Qed.
Lemma short_mix_3 x : list4 (sp_short_mix_3 x) = ShortMix_line (list4 x) 3.
Proof. destruct x as [[[a b] c] d]. line sp_short_mix_3 ShortMix_line. Qed.
Lemma short_mix_4 x : list4 (sp_short_mix_4 x) = ShortMix_line (list4 x) 4.
Proof. destruct x as [[[a b] c] d]. line sp_short_mix_4 ShortMix_line. Qed.
Lemma short_mix_5 x : list4 (sp_short_mix_5 x) = ShortMix_line (list4 x) 5.
Proof. destruct x as [[[a b] c] d]. line sp_short_mix_5 ShortMix_line. Qed.
Lemma short_mix_6 x : list4 (sp_short_mix_6 x) = ShortMix_line (list4 x) 6.
Proof. destruct x as [[[a b] c] d]. line sp_short_mix_6 ShortMix_line. Qed.
Lemma short_mix_7 x : list4 (sp_short_mix_7 x) = ShortMix_line (list4 x) 7.
Proof. destruct x as [[[a b] c] d]. line sp_short_mix_7 ShortMix_line. Qed.
Lemma short_mix_8 x : list4 (sp_short_mix_8 x) = ShortMix_line (list4 x) 8.
Proof. destruct x as [[[a b] c] d]. line sp_short_mix_8 ShortMix_line. Qed.
Lemma short_mix_9 x : list4 (sp_short_mix_9 x) = ShortMix_line (list4 x) 9.
Proof. destruct x as [[[a b] c] d]. line sp_short_mix_9 ShortMix_line. Qed.
Lemma short_mix_10 x : list4 (sp_short_mix_10 x) = ShortMix_line (list4 x) 10.
Proof. destruct x as [[[a b] c] d]. line sp_short_mix_10 ShortMix_line. Qed.
Lemma short_mix_11 x : list4 (sp_short_mix_11 x) = ShortMix_line (list4 x) 11.
Proof. destruct x as [[[a b] c] d]. line sp_short_mix_11 ShortMix_line. Qed.
Lemma short_end_0 x : list4 (sp_short_end_0 x) = ShortEnd_line (list4 x) 0.
Proof. destruct x as [[[a b] c] d]. line sp_short_end_0 ShortEnd_line. Qed.
Lemma short_end_1 x : list4 (sp_short_end_1 x) = ShortEnd_line (list4 x) 1.
Proof. destruct x as [[[a b] c] d]. line sp_short_end_1 ShortEnd_line. Qed.
Lemma short_end_2 x : list4 (sp_short_end_2 x) = ShortEnd_line (list4 x) 2.
Proof. destruct x as [[[a b] c] d]. line sp_short_end_2 ShortEnd_line. Qed.
Lemma short_end_3 x : list4 (sp_short_end_3 x) = ShortEnd_line (list4 x) 3.
Proof. destruct x as [[[a b] c] d]. line sp_short_end_3 ShortEnd_line. Qed.
Lemma short_end_4 x : list4 (sp_short_end_4 x) = ShortEnd_line (list4 x) 4.
Proof. destruct x as [[[a b] c] d]. line sp_short_end_4 ShortEnd_line. Qed.
Lemma short_end_5 x : list4 (sp_short_end_5 x) = ShortEnd_line (list4 x) 5.
Proof. destruct x as [[[a b] c] d]. line sp_short_end_5 ShortEnd_line. Qed.
Lemma short_end_6 x : list4 (sp_short_end_6 x) = ShortEnd_line (list4 x) 6.
Proof. destruct x as [[[a b] c] d]. line sp_short_end_6 ShortEnd_line. Qed.
Lemma short_end_7 x : list4 (sp_short_end_7 x) = ShortEnd_line (list4 x) 7.
Proof. destruct x as [[[a b] c] d]. line sp_short_end_7 ShortEnd_line. Qed.
Lemma short_end_8 x : list4 (sp_short_end_8 x) = ShortEnd_line (list4 x) 8.
Proof. destruct x as [[[a b] c] d]. line sp_short_end_8 ShortEnd_line. Qed.
Lemma short_end_9 x : list4 (sp_short_end_9 x) = ShortEnd_line (list4 x) 9.
Proof. destruct x as [[[a b] c] d]. line sp_short_end_9 ShortEnd_line. Qed.
Lemma short_end_10 x : list4 (sp_short_end_10 x) = ShortEnd_line (list4 x) 10.
Proof. destruct x as [[[a b] c] d]. line sp_short_end_10 ShortEnd_line. Qed.
Lemma end_partial_0 st : sp_list (sp_end_partial_0 st) = EndPartial_line (sp_list st) 0.
Proof. destruct st. line sp_end_partial_0 EndPartial_line. Qed.
Lemma end_partial_1 st : sp_list (sp_end_partial_1 st) = EndPartial_line (sp_list st) 1.
Proof. destruct st. line sp_end_partial_1 EndPartial_line. Qed.
Lemma end_partial_2 st : sp_list (sp_end_partial_2 st) = EndPartial_line (sp_list st) 2.
Proof. destruct st. line sp_end_partial_2 EndPartial_line. Qed.
Lemma end_partial_3 st : sp_list (sp_end_partial_3 st) = EndPartial_line (sp_list st) 3.
Proof. destruct st. line sp_end_partial_3 EndPartial_line. Qed.
Lemma end_partial_4 st : sp_list (sp_end_partial_4 st) = EndPartial_line (sp_list st) 4.
Proof. destruct st. line sp_end_partial_4 EndPartial_line. Qed.
Lemma end_partial_5 st : sp_list (sp_end_partial_5 st) = EndPartial_line (sp_list st) 5.
Proof. destruct st. line sp_end_partial_5 EndPartial_line. Qed.
Lemma end_partial_6 st : sp_list (sp_end_partial_6 st) = EndPartial_line (sp_list st) 6.
Proof. destruct st. line sp_end_partial_6 EndPartial_line. Qed.
Lemma end_partial_7 st : sp_list (sp_end_partial_7 st) = EndPartial_line (sp_list st) 7.
Proof. destruct st. line sp_end_partial_7 EndPartial_line. Qed.
Lemma end_partial_8 st : sp_list (sp_end_partial_8 st) = EndPartial_line (sp_list st) 8.
Proof. destruct st. line sp_end_partial_8 EndPartial_line. Qed.
Lemma end_partial_9 st : sp_list (sp_end_partial_9 st) = EndPartial_line (sp_list st) 9.
Proof. destruct st. line sp_end_partial_9 EndPartial_line. Qed.
Lemma end_partial_10 st : sp_list (sp_end_partial_10 st) = EndPartial_line (sp_list st) 10.
Proof. destruct st. line sp_end_partial_10 EndPartial_line. Qed.
Lemma end_partial_11 st : sp_list (sp_end_partial_11 st) = EndPartial_line (sp_list st) 11.
Proof. destruct st. line sp_end_partial_11 EndPartial_line. Qed.
Lemma mix_0 d st : sp_list (sp_mix_0 (word64 d 0) st) = Mix_line d (sp_list st) 0.
Proof. destruct st. line sp_mix_0 Mix_line. Qed.
Lemma mix_1 d st : sp_list (sp_mix_1 (word64 d 1) st) = Mix_line d (sp_list st) 1.
Proof. destruct st. line sp_mix_1 Mix_line. Qed.
Lemma mix_2 d st : sp_list (sp_mix_2 (word64 d 2) st) = Mix_line d (sp_list st) 2.
Proof. destruct st. line sp_mix_2 Mix_line. Qed.
Lemma mix_3 d st : sp_list (sp_mix_3 (word64 d 3) st) = Mix_line d (sp_list st) 3.
Proof. destruct st. line sp_mix_3 Mix_line. Qed.
Lemma mix_4 d st : sp_list (sp_mix_4 (word64 d 4) st) = Mix_line d (sp_list st) 4.
Proof. destruct st. line sp_mix_4 Mix_line. Qed.
Lemma mix_5 d st : sp_list (sp_mix_5 (word64 d 5) st) = Mix_line d (sp_list st) 5.
Proof. destruct st. line sp_mix_5 Mix_line. Qed.
Lemma mix_6 d st : sp_list (sp_mix_6 (word64 d 6) st) = Mix_line d (sp_list st) 6.
Proof. destruct st. line sp_mix_6 Mix_line. Qed.
Lemma mix_7 d st : sp_list (sp_mix_7 (word64 d 7) st) = Mix_line d (sp_list st) 7.
Proof. destruct st. line sp_mix_7 Mix_line. Qed.
Lemma mix_8 d st : sp_list (sp_mix_8 (word64 d 8) st) = Mix_line d (sp_list st) 8.
Proof. destruct st. line sp_mix_8 Mix_line. Qed.
Lemma mix_9 d st : sp_list (sp_mix_9 (word64 d 9) st) = Mix_line d (sp_list st) 9.
Proof. destruct st. line sp_mix_9 Mix_line. Qed.
Lemma mix_10 d st : sp_list (sp_mix_10 (word64 d 10) st) = Mix_line d (sp_list st) 10.
Proof. destruct st. line sp_mix_10 Mix_line. Qed.
Lemma mix_11 d st : sp_list (sp_mix_11 (word64 d 11) st) = Mix_line d (sp_list st) 11.
Proof. destruct st. line sp_mix_11 Mix_line. Qed.

Lemma sp_short_mix_ok a b c d : list4 (sp_short_mix a b c d) = Spooky_ShortMix [a; b; c; d].
Proof.
  cbv delta [sp_short_mix Spooky_ShortMix]; cbv beta zeta.
  rewrite short_mix_11, short_mix_10, short_mix_9, short_mix_8, short_mix_7, short_mix_6, short_mix_5,
    short_mix_4, short_mix_3, short_mix_2, short_mix_1, short_mix_0.
  cbv beta iota delta [seq fold_left list4]. reflexivity.
Qed.
Lemma sp_short_end_ok a b c d : list4 (sp_short_end a b c d) = Spooky_ShortEnd [a; b; c; d].
Proof.
  cbv delta [sp_short_end Spooky_ShortEnd]; cbv beta zeta.
  rewrite short_end_10, short_end_9, short_end_8, short_end_7, short_end_6, short_end_5,
    short_end_4, short_end_3, short_end_2, short_end_1, short_end_0.
  cbv beta iota delta [seq fold_left list4]. reflexivity.
Qed.
Lemma sp_end_partial_ok st : sp_list (sp_end_partial st) = Spooky_EndPartial (sp_list st).
Proof.
  cbv delta [sp_end_partial Spooky_EndPartial]; cbv beta zeta.
  rewrite end_partial_11, end_partial_10, end_partial_9, end_partial_8, end_partial_7, end_partial_6, end_partial_5,
    end_partial_4, end_partial_3, end_partial_2, end_partial_1, end_partial_0.
  cbv beta iota delta [seq fold_left]. reflexivity.
Qed.
Lemma sp_mix__ok d st :
  sp_list (sp_mix_ (word64 d 0) (word64 d 1) (word64 d 2) (word64 d 3) (word64 d 4) (word64 d 5)
    (word64 d 6) (word64 d 7) (word64 d 8) (word64 d 9) (word64 d 10) (word64 d 11) st) = Spooky_Mix (sp_list st) d.
Proof.
  cbv delta [sp_mix_ Spooky_Mix]; cbv beta zeta.
  rewrite mix_11, mix_10, mix_9, mix_8, mix_7, mix_6, mix_5, mix_4, mix_3, mix_2, mix_1, mix_0.
  cbv beta iota delta [seq fold_left]. reflexivity.
Qed.
Lemma sp_end__ok d st :
  sp_list (sp_end_ (word64 d 0) (word64 d 1) (word64 d 2) (word64 d 3) (word64 d 4) (word64 d 5)
    (word64 d 6) (word64 d 7) (word64 d 8) (word64 d 9) (word64 d 10) (word64 d 11) st) = Spooky_End (sp_list st) d.
Proof.
  destruct st. cbv delta [sp_end_]. cbv beta iota zeta. rewrite !sp_end_partial_ok.
  cbv delta [Spooky_End]. cbv beta zeta. do 3 f_equal.
Qed.

(* ------------------------------------------------------------------ blocks *)
Definition words12 (d : list N) : list N :=
  [word64 d 0; word64 d 1; word64 d 2; word64 d 3; word64 d 4; word64 d 5;
   word64 d 6; word64 d 7; word64 d 8; word64 d 9; word64 d 10; word64 d 11].
Definition sp_cm (st : sp_st) (d : list N) : sp_st :=
  sp_mix_ (word64 d 0) (word64 d 1) (word64 d 2) (word64 d 3) (word64 d 4) (word64 d 5)
    (word64 d 6) (word64 d 7) (word64 d 8) (word64 d 9) (word64 d 10) (word64 d 11) st.
Definition sp_ce (st : sp_st) (d : list N) : sp_st :=
  sp_end_ (word64 d 0) (word64 d 1) (word64 d 2) (word64 d 3) (word64 d 4) (word64 d 5)
    (word64 d 6) (word64 d 7) (word64 d 8) (word64 d 9) (word64 d 10) (word64 d 11) st.
Definition sp_cm2 (st : sp_st) (d : list N) : sp_st := sp_cm (sp_cm st (firstn 96 d)) (skipn 96 d).

Lemma sp_cm_list st d : sp_list (sp_cm st d) = Spooky_Mix (sp_list st) d.
Proof. apply sp_mix__ok. Qed.
Lemma sp_ce_list st d : sp_list (sp_ce st d) = Spooky_End (sp_list st) d.
Proof. apply sp_end__ok. Qed.
Lemma sp_cm_of st d : sp_cm st d = sp_of (Spooky_Mix (sp_list st) d).
Proof. rewrite <- sp_cm_list. symmetry. apply sp_of_list. Qed.
Lemma sp_ce_of st d : sp_ce st d = sp_of (Spooky_End (sp_list st) d).
Proof. rewrite <- sp_ce_list. symmetry. apply sp_of_list. Qed.
Lemma sp_fold_list bl : forall st,
  sp_list (fold_left sp_cm bl st) = fold_left Spooky_Mix bl (sp_list st).
Proof. intros st. apply (fold_hom sp_cm Spooky_Mix sp_list sp_cm_list). Qed.

Lemma word64_firstn l i : (i < 12)%nat -> word64 (firstn 96 l) i = word64 l i.
Proof. intros H. unfold word64. f_equal. apply firstn_skipn_firstn. lia. Qed.

Lemma sp_read12_ok le l : (96 <= length l)%nat -> bytes (firstn 96 l) ->
  sp_read12 le (Ptr l) = Ok (words12 (firstn 96 l)).
Proof.
  intros HL Hb. unfold sp_read12.
  rewrite (mapM_ok _ (word64 (firstn 96 l))); [reflexivity|].
  intros i Hi. apply in_seq in Hi. rewrite padd_ok by lia. cbn [bind].
  rewrite read64le_ok'.
  - rewrite word64_firstn by lia. reflexivity.
  - rewrite skipn_length. lia.
  - eapply bytes_firstn_skipn; [|exact Hb]. lia.
Qed.
Lemma sp_mix_ok le st l : (96 <= length l)%nat -> bytes (firstn 96 l) ->
  sp_mix le (Ptr l) st = Ok (sp_cm st (firstn 96 l)).
Proof. intros HL Hb. unfold sp_mix. rewrite sp_read12_ok by assumption. reflexivity. Qed.
Lemma sp_end_ok le st l : (96 <= length l)%nat -> bytes (firstn 96 l) ->
  sp_end le (Ptr l) st = Ok (sp_ce st (firstn 96 l)).
Proof. intros HL Hb. unfold sp_end. rewrite sp_read12_ok by assumption. reflexivity. Qed.

Lemma sp_update__floop le k : forall st p,
  sp_update_ le st p k = floop sp_st 96 (fun st p => sp_mix le p st) st p k.
Proof.
  induction k as [|k IH]; intros st p; [reflexivity|]. cbn [sp_update_ floop].
  destruct (sp_mix le p st); try reflexivity. cbn [bind].
  destruct (padd p 96); try reflexivity. cbn [bind]. apply IH.
Qed.
Lemma sp_update__ok le k st l : (k * 96 <= length l)%nat -> bytes (firstn (k * 96) l) ->
  sp_update_ le st (Ptr l) k = Ok (fold_left sp_cm (chunks 96 (firstn (k * 96) l)) st).
Proof.
  intros. rewrite sp_update__floop. apply floop_ok; try assumption; [lia|].
  intros. now apply sp_mix_ok.
Qed.

(* blocks of 96 bytes two by two *)
Lemma cm2_pair st l : (192 <= length l)%nat ->
  fold_left sp_cm (chunks 96 l) st = fold_left sp_cm (chunks 96 (skipn 192 l)) (sp_cm2 st (firstn 192 l)).
Proof.
  intros H. rewrite (chunks_step 96 ltac:(lia)) by lia. rewrite (chunks_step 96 ltac:(lia)) by (rewrite skipn_length; lia).
  cbn [fold_left]. unfold sp_cm2.
  rewrite (firstn_firstn_le 96 192) by lia. rewrite skipn_firstn_comm. rewrite skipn_skipn'. reflexivity.
Qed.
Definition half (st : sp_st) (r : list N) : sp_st :=
  if Nat.leb 96 (length r) then sp_cm st (firstn 96 r) else st.
Definition half_rest (r : list N) : list N :=
  if Nat.leb 96 (length r) then skipn 96 r else r.
Lemma chunks_192 k : forall l st, length (chunks 192 l) = k ->
  fold_left sp_cm (chunks 96 l) st = half (fold_left sp_cm2 (chunks 192 l) st) (rest 192 l) /\
  rest 96 l = half_rest (rest 192 l).
Proof.
  induction k as [|k IH]; intros l st Hk.
  - assert (HL : (length l < 192)%nat).
    { destruct (Nat.lt_ge_cases (length l) 192) as [H|H]; [exact H|].
      rewrite (chunks_step 192 ltac:(lia)) in Hk by exact H. discriminate. }
    rewrite (chunks_short 192 ltac:(lia)) by exact HL. rewrite (rest_short 192) by exact HL. cbn [fold_left].
    unfold half, half_rest. destruct (Nat.leb_spec 96 (length l)) as [H|H].
    + rewrite (chunks_step 96 ltac:(lia)) by exact H.
      rewrite (chunks_short 96 ltac:(lia) (skipn 96 l)) by (rewrite skipn_length; lia). split; [reflexivity|].
      rewrite <- (firstn_skipn 96 l) at 1. rewrite (rest_block 96 ltac:(lia)) by (apply firstn_length_le; lia).
      apply rest_short. rewrite skipn_length. lia.
    + rewrite (chunks_short 96 ltac:(lia)) by exact H. split; [reflexivity|]. apply rest_short. exact H.
  - assert (HL : (192 <= length l)%nat).
    { destruct (Nat.lt_ge_cases (length l) 192) as [H|H]; [|exact H].
      rewrite (chunks_short 192 ltac:(lia)) in Hk by exact H. discriminate. }
    rewrite (chunks_step 192 ltac:(lia)) in Hk |- * by exact HL. cbn [fold_left length] in *.
    destruct (IH (skipn 192 l) (sp_cm2 st (firstn 192 l)) ltac:(lia)) as [I1 I2].
    assert (ER : rest 192 l = rest 192 (skipn 192 l)).
    { rewrite <- (firstn_skipn 192 l) at 1. apply rest_block; [lia|]. apply firstn_length_le. exact HL. }
    rewrite ER, <- I1, <- I2. split; [now apply cm2_pair|].
    rewrite <- (firstn_skipn 192 l) at 1. apply (rest_mult_app 96 ltac:(lia) 2). apply firstn_length_le. exact HL.
Qed.
Lemma fold_192 l st : (length l mod 192 = 0)%nat ->
  fold_left sp_cm (chunks 96 l) st = fold_left sp_cm2 (chunks 192 l) st.
Proof.
  intros H. destruct (chunks_192 _ l st eq_refl) as [E _]. rewrite E. unfold half.
  rewrite (rest_length 192) by lia. rewrite H. reflexivity.
Qed.

Lemma chunks_cut B n (l : list N) : (0 < B)%nat -> (n <= length l)%nat ->
  chunks B (firstn (n / B * B) l) = chunks B (firstn n l).
Proof.
  intros HB. apply (chunks_firstn_div unit B (fun _ _ => Ok tt) (fun _ _ => tt) HB). reflexivity.
Qed.
Definition sp_tr le (st : sp_st) (p : ptr) := sp_update_ le st p 2.
Definition sp_bl le (st : sp_st) (p : ptr) (n : nat) :=
  let k := (n / 192)%nat in
  st <- sp_update_ le st p (k * 2) ;; p <- padd p (k * 192) ;; Ok (st, p, (n - k * 192)%nat).
Lemma sp_tr_ok le st l : (192 <= length l)%nat -> bytes l ->
  sp_tr le st (Ptr l) = Ok (sp_cm2 st (firstn 192 l)).
Proof.
  intros HL Hb. unfold sp_tr. rewrite sp_update__ok by (lia || now apply bytes_firstn).
  change (2 * 96)%nat with 192%nat.
  assert (E : length (firstn 192 l) = 192%nat) by (apply firstn_length_le; exact HL).
  rewrite fold_192 by (rewrite E; reflexivity).
  rewrite (chunks_step 192 ltac:(lia)) by lia. rewrite (firstn_firstn_le 192 192) by lia.
  rewrite (chunks_short 192 ltac:(lia)) by (rewrite skipn_length; lia). reflexivity.
Qed.
Lemma sp_bl_ok le st l n : (n <= length l)%nat -> bytes l ->
  sp_bl le st (Ptr l) n =
  Ok (fold_left sp_cm2 (chunks 192 (firstn n l)) st, Ptr (skipn (192 * (n / 192)) l), (n mod 192)%nat).
Proof.
  intros Hn Hl. unfold sp_bl. cbv zeta.
  pose proof (Nat.div_mod n 192 ltac:(lia)) as D. set (k := (n / 192)%nat) in *.
  rewrite sp_update__ok by ((rewrite <- Nat.mul_assoc; lia) || now apply bytes_firstn). cbn [bind].
  rewrite padd_ok by lia. cbn [bind].
  replace (k * 2 * 96)%nat with (k * 192)%nat by lia.
  rewrite fold_192.
  - unfold k. rewrite (chunks_cut 192 n l) by (lia || exact Hn). fold k.
    rewrite (Nat.mul_comm k 192). do 2 f_equal. lia.
  - rewrite firstn_length_le by lia. apply Nat.mod_mul. lia.
Qed.

(* ------------------------------------------------------------------ the short form *)
Definition sp_s32 (x : sp_4) (blk : list N) : sp_4 :=
  let '(a, b, c, d) := x in
  let c := add64 c (word64 blk 0) in let d := add64 d (word64 blk 1) in
  let '(a, b, c, d) := sp_short_mix a b c d in
  (add64 a (word64 blk 2), add64 b (word64 blk 3), c, d).
Definition sp_s16 (x : sp_4) (blk : list N) : sp_4 :=
  let '(a, b, c, d) := x in
  sp_short_mix a b (add64 c (word64 blk 0)) (add64 d (word64 blk 1)).

Lemma Short_cd_lit a b c d x y : Short_cd [a; b; c; d] x y = [a; b; ADD 64 c x; ADD 64 d y].
Proof. reflexivity. Qed.
Lemma sp_s16_list x blk :
  list4 (sp_s16 x blk) = Spooky_ShortMix (Short_cd (list4 x) (word64 blk 0) (word64 blk 1)).
Proof.
  destruct x as [[[a b] c] d]. unfold sp_s16. rewrite sp_short_mix_ok. unfold list4. rewrite Short_cd_lit.
  repeat match goal with |- context [add64 ?a ?b] => rewrite (add64_ADD a b) end. reflexivity.
Qed.
Lemma sp_s32_list x blk : list4 (sp_s32 x blk) = Short_32 (list4 x) blk.
Proof.
  destruct x as [[[a b] c] d]. unfold sp_s32, Short_32. cbv zeta. change (list4 (a, b, c, d)) with [a; b; c; d]. rewrite !Short_cd_lit.
  pose proof (sp_short_mix_ok a b (add64 c (word64 blk 0)) (add64 d (word64 blk 1))) as E.
  destruct (sp_short_mix a b _ _) as [[[a' b'] c'] d']. unfold list4 in E. rewrite (add64_ADD c), (add64_ADD d) in E. rewrite <- E. clear E. unfold list4.
  repeat match goal with |- context [add64 ?a ?b] => rewrite (add64_ADD a b) end.
  unfold assign, var. cbn [Nat.modulo Nat.divmod snd fst Nat.sub nth set_nth]. reflexivity.
Qed.
Lemma sp_s32_fold bl : forall x, list4 (fold_left sp_s32 bl x) = fold_left Short_32 bl (list4 x).
Proof. intros x. apply (fold_hom sp_s32 Short_32 list4 sp_s32_list). Qed.

Definition sp_str le (x : sp_4) (p : ptr) : res sp_4 :=
  let '(a, b, c, d) := x in
  p0 <- padd p 0 ;; k <- read64le (rt le) p0 ;; let c := add64 c k in
  p8 <- padd p 8 ;; k <- read64le (rt le) p8 ;; let d := add64 d k in
  let '(a, b, c, d) := sp_short_mix a b c d in
  p16 <- padd p 16 ;; k <- read64le (rt le) p16 ;; let a := add64 a k in
  p24 <- padd p 24 ;; k <- read64le (rt le) p24 ;; let b := add64 b k in
  Ok (a, b, c, d).
Lemma rd_at le l i n : (8 * i + 8 <= n)%nat -> (n <= length l)%nat -> bytes (firstn n l) ->
  (q <- padd (Ptr l) (8 * i) ;; read64le (rt le) q) = Ok (word64 (firstn n l) i).
Proof.
  intros H1 H2 Hb. rewrite padd_ok by lia. cbn [bind]. rewrite read64le_ok'.
  - unfold word64. rewrite firstn_skipn_firstn by lia. reflexivity.
  - rewrite skipn_length. lia.
  - eapply bytes_firstn_skipn; [|exact Hb]. lia.
Qed.
Lemma bind_rd {A} le l i n (K : N -> res A) : (8 * i + 8 <= n)%nat -> (n <= length l)%nat -> bytes (firstn n l) ->
  (q <- padd (Ptr l) (8 * i) ;; k <- read64le (rt le) q ;; K k) = K (word64 (firstn n l) i).
Proof.
  intros H1 H2 Hb. pose proof (rd_at le l i n H1 H2 Hb) as E. destruct (padd (Ptr l) (8 * i)); cbn [bind] in *; try discriminate.
  rewrite E. reflexivity.
Qed.
Lemma sp_str_ok le x l : (32 <= length l)%nat -> bytes (firstn 32 l) ->
  sp_str le x (Ptr l) = Ok (sp_s32 x (firstn 32 l)).
Proof.
  intros HL Hb. destruct x as [[[a b] c] d]. unfold sp_str.
  rewrite (bind_rd le l 0 32) by (lia || assumption). cbv zeta.
  rewrite (bind_rd le l 1 32) by (lia || assumption).
  unfold sp_s32. cbv zeta. destruct (sp_short_mix a b _ _) as [[[a' b'] c'] d'].
  rewrite (bind_rd le l 2 32) by (lia || assumption).
  rewrite (bind_rd le l 3 32) by (lia || assumption). reflexivity.
Qed.
Lemma sp_short_loop_w le fuel : forall a b c d p m,
  sp_short_loop le fuel a b c d p m =
  ('(x, p, m) <- wblocks sp_4 32 (sp_str le) fuel (a, b, c, d) p m ;;
   let '(a, b, c, d) := x in Ok (a, b, c, d, p, m)).
Proof.
  induction fuel as [|fuel IH]; intros a b c d p m; cbn [sp_short_loop wblocks].
  - destruct (Nat.leb 32 m); reflexivity.
  - destruct (Nat.leb 32 m); [|reflexivity]. unfold sp_str at 1.
    destruct (padd p 0) as [p0| | |]; cbn [bind]; try reflexivity.
    destruct (read64le (rt le) p0) as [k0| | |]; cbn [bind]; try reflexivity.
    destruct (padd p 8) as [p8| | |]; cbn [bind]; try reflexivity.
    destruct (read64le (rt le) p8) as [k8| | |]; cbn [bind]; try reflexivity.
    destruct (sp_short_mix a b (add64 c k0) (add64 d k8)) as [[[a' b'] c'] d'].
    destruct (padd p 16) as [p16| | |]; cbn [bind]; try reflexivity.
    destruct (read64le (rt le) p16) as [k16| | |]; cbn [bind]; try reflexivity.
    destruct (padd p 24) as [p24| | |]; cbn [bind]; try reflexivity.
    destruct (read64le (rt le) p24) as [k24| | |]; cbn [bind]; try reflexivity.
    destruct (padd p 32) as [p32| | |]; cbn [bind]; try reflexivity.
    apply IH.
Qed.

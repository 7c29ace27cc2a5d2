(* Loops over memory in which only the bytes actually read are known to be bytes. *)
From Verif Require Import Base BaseFacts SpecCommon Gen Words.
Open Scope N_scope.

Lemma read32le_pref pf l : (4 <= length l)%nat -> read32le pf (Ptr l) = read32le pf (Ptr (firstn 4 l)).
Proof.
  intros H. destruct l as [|b0 [|b1 [|b2 [|b3 l]]]]; try (cbn in H; lia). reflexivity.
Qed.
Lemma read64le_pref pf l : (8 <= length l)%nat -> read64le pf (Ptr l) = read64le pf (Ptr (firstn 8 l)).
Proof.
  intros H. destruct l as [|b0 [|b1 [|b2 [|b3 [|b4 [|b5 [|b6 [|b7 l]]]]]]]]; try (cbn in H; lia). reflexivity.
Qed.
Lemma read32le_ok' pf l : (4 <= length l)%nat -> bytes (firstn 4 l) ->
  read32le pf (Ptr l) = Ok (le_val (firstn 4 l)).
Proof.
  intros H Hb. rewrite read32le_pref, read32le_ok by (assumption || (rewrite firstn_length; lia)).
  rewrite firstn_firstn. reflexivity.
Qed.
Lemma read64le_ok' pf l : (8 <= length l)%nat -> bytes (firstn 8 l) ->
  read64le pf (Ptr l) = Ok (le_val (firstn 8 l)).
Proof.
  intros H Hb. rewrite read64le_pref, read64le_ok by (assumption || (rewrite firstn_length; lia)).
  rewrite firstn_firstn. reflexivity.
Qed.

Lemma bytes_firstn_le a b l : (a <= b)%nat -> bytes (firstn b l) -> bytes (firstn a l).
Proof. intros H Hb. rewrite <- (firstn_firstn_le a b l H). now apply bytes_firstn. Qed.
Lemma bytes_firstn_skipn a b c l : (a + b <= c)%nat -> bytes (firstn c l) -> bytes (firstn a (skipn b l)).
Proof.
  intros H Hb. rewrite <- (firstn_skipn_firstn a b c l H). now apply bytes_firstn, bytes_skipn.
Qed.

Section While.
Variable St : Type.
Variable B : nat.
Variable tr : St -> ptr -> res St.
Variable compress : St -> list N -> St.
Hypothesis HB : (0 < B)%nat.
Hypothesis Htr : forall st l, (B <= length l)%nat -> bytes (firstn B l) ->
  tr st (Ptr l) = Ok (compress st (firstn B l)).

Lemma wblocks_ok' : forall fuel st l n, (n <= fuel)%nat -> (n <= length l)%nat -> bytes (firstn n l) ->
  wblocks St B tr fuel st (Ptr l) n =
  Ok (fold_left compress (chunks B (firstn n l)) st, Ptr (skipn (B * (n / B)) l), (n mod B)%nat).
Proof.
  induction fuel as [|fuel IH]; intros st l n Hf Hn Hl.
  - cbn [wblocks]. replace n with 0%nat by lia.
    replace (Nat.leb B 0) with false by (symmetry; apply Nat.leb_gt; lia).
    rewrite Nat.div_0_l, Nat.mod_0_l, Nat.mul_0_r by lia. reflexivity.
  - cbn [wblocks]. destruct (Nat.leb_spec B n) as [HBn|HBn].
    + rewrite Htr by (lia || (eapply bytes_firstn_le; [|exact Hl]; lia)). cbn [bind]. rewrite padd_ok by lia. cbn [bind].
      rewrite IH; [|lia|rewrite skipn_length; lia|eapply bytes_firstn_skipn; [|exact Hl]; lia].
      assert (E : (n = n - B + 1 * B)%nat) by lia.
      assert (Ed : (n / B = (n - B) / B + 1)%nat).
      { rewrite E at 1. rewrite Nat.div_add by lia. reflexivity. }
      assert (Em : (n mod B = (n - B) mod B)%nat).
      { rewrite E at 1. rewrite Nat.mod_add by lia. reflexivity. }
      rewrite Ed, Em, skipn_skipn'.
      replace (B * ((n - B) / B + 1))%nat with (B + B * ((n - B) / B))%nat by lia.
      replace (firstn n l) with (firstn B l ++ firstn (n - B) (skipn B l)).
      2:{ rewrite <- firstn_add. f_equal. lia. }
      rewrite (chunks_block B HB) by (apply firstn_length_le; lia). reflexivity.
    + rewrite Nat.div_small, Nat.mod_small, Nat.mul_0_r by lia.
      rewrite (chunks_short B HB) by (rewrite firstn_length; lia). reflexivity.
Qed.

(* for( i = 0; i < k; ++i, p += B ) tr( p ); *)
Fixpoint floop (st : St) (p : ptr) (k : nat) : res St :=
  match k with
  | O => Ok st
  | S k' => st <- tr st p ;; p <- padd p B ;; floop st p k'
  end.
Lemma floop_ok k : forall st l, (k * B <= length l)%nat -> bytes (firstn (k * B) l) ->
  floop st (Ptr l) k = Ok (fold_left compress (chunks B (firstn (k * B) l)) st).
Proof.
  induction k as [|k IH]; intros st l Hk Hl.
  - reflexivity.
  - cbn [floop]. rewrite Htr; [|lia|eapply bytes_firstn_le; [|exact Hl]; lia]. cbn [bind].
    rewrite padd_ok by lia. cbn [bind]. rewrite IH.
    + cbn [Nat.mul]. rewrite firstn_add. rewrite (chunks_block B HB) by (apply firstn_length_le; lia).
      reflexivity.
    + rewrite skipn_length. lia.
    + eapply bytes_firstn_skipn; [|exact Hl]. lia.
Qed.

(* k = n / B; for ...; p += B * k; n -= B * k; *)
Definition fblocks (st : St) (p : ptr) (n : nat) : res (St * ptr * nat) :=
  let k := (n / B)%nat in
  st <- floop st p k ;; p <- padd p (B * k) ;; Ok (st, p, (n - B * k)%nat).
Lemma chunks_firstn_div n (l : list N) : (n <= length l)%nat ->
  chunks B (firstn (n / B * B) l) = chunks B (firstn n l).
Proof.
  intros H. rewrite (chunks_full B HB (firstn n l)). f_equal. unfold full.
  rewrite firstn_length_le by exact H. rewrite firstn_firstn_le.
  - f_equal. lia.
  - pose proof (Nat.mul_div_le n B). lia.
Qed.
Lemma fblocks_ok st l n : (n <= length l)%nat -> bytes (firstn n l) ->
  fblocks st (Ptr l) n =
  Ok (fold_left compress (chunks B (firstn n l)) st, Ptr (skipn (B * (n / B)) l), (n mod B)%nat).
Proof.
  intros Hn Hl. unfold fblocks. cbv zeta.
  assert (HD : (n / B * B <= n)%nat) by (pose proof (Nat.mul_div_le n B); lia).
  rewrite floop_ok; [|lia|eapply bytes_firstn_le; [|exact Hl]; lia]. cbn [bind].
  rewrite padd_ok by lia. cbn [bind]. rewrite chunks_firstn_div by exact Hn.
  do 2 f_equal. pose proof (Nat.div_mod n B). lia.
Qed.
End While.

(* bytewise loops *)
Lemma chunks_1 {A} (l : list A) : chunks 1 l = map (fun b => [b]) l.
Proof.
  induction l as [|a l IH]; [reflexivity|].
  rewrite (chunks_step 1 ltac:(lia)) by (cbn; lia). cbn [firstn skipn map]. now rewrite IH.
Qed.

(* the remainder of a list cut at m bytes *)
Lemma rest_firstn {A} B (HB : (0 < B)%nat) (l : list A) n : (n <= length l)%nat ->
  rest B (firstn n l) = firstn (n mod B) (skipn (B * (n / B)) l).
Proof.
  intros H. unfold rest. rewrite firstn_length_le by exact H.
  rewrite skipn_firstn_comm. f_equal. pose proof (Nat.div_mod n B). lia.
Qed.

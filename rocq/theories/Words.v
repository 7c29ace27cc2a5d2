(* Bridges between the model's word operations and the specifications' ones; the loop over
   whole blocks; reading a block as words. *)
From Verif Require Import Base BaseFacts SpecCommon Gen GenMD.
Open Scope N_scope.

Lemma rotl32_ROTL v k : 0 < k -> k < 32 -> rotl32 v k = ROTL 32 k v.
Proof. intros H1 H2. unfold rotl32. now rewrite (proj2 (N.ltb_lt _ _) H1), (proj2 (N.ltb_lt _ _) H2). Qed.
Lemma rotl64_ROTL v k : 0 < k -> k < 64 -> rotl64 v k = ROTL 64 k v.
Proof. intros H1 H2. unfold rotl64. now rewrite (proj2 (N.ltb_lt _ _) H1), (proj2 (N.ltb_lt _ _) H2). Qed.
Lemma rotr32_ROTR v k : 0 < k -> k < 32 -> rotr32 v k = ROTR 32 k v.
Proof. intros H1 H2. unfold rotr32. now rewrite (proj2 (N.ltb_lt _ _) H1), (proj2 (N.ltb_lt _ _) H2). Qed.
Lemma rotr64_ROTR v k : 0 < k -> k < 64 -> rotr64 v k = ROTR 64 k v.
Proof. intros H1 H2. unfold rotr64. now rewrite (proj2 (N.ltb_lt _ _) H1), (proj2 (N.ltb_lt _ _) H2). Qed.
Lemma add32_ADD a b : add32 a b = ADD 32 a b. Proof. reflexivity. Qed.
Lemma add64_ADD a b : add64 a b = ADD 64 a b. Proof. reflexivity. Qed.
Lemma mul32_MUL a b : mul32 a b = MUL 32 a b. Proof. reflexivity. Qed.
Lemma mul64_MUL a b : mul64 a b = MUL 64 a b. Proof. reflexivity. Qed.
Lemma not32_NOT a : not32 a = NOT 32 a. Proof. reflexivity. Qed.
Lemma not64_NOT a : not64 a = NOT 64 a. Proof. reflexivity. Qed.

Lemma ADD_assoc w a b c : ADD w a (ADD w b c) = ADD w (ADD w a b) c.
Proof.
  unfold ADD. assert (2^w <> 0) by (apply N.pow_nonzero; discriminate).
  rewrite N.add_mod_idemp_r, N.add_mod_idemp_l by assumption. now rewrite N.add_assoc.
Qed.
Lemma ADD_comm w a b : ADD w a b = ADD w b a.
Proof. unfold ADD. now rewrite N.add_comm. Qed.
Lemma ADD_lt w a b : ADD w a b < 2^w.
Proof. apply N.mod_lt, N.pow_nonzero; discriminate. Qed.
Lemma MUL_lt w a b : MUL w a b < 2^w.
Proof. apply N.mod_lt, N.pow_nonzero; discriminate. Qed.
Lemma ADD_0_r w a : ADD w a 0 = a mod 2^w.
Proof. unfold ADD. now rewrite N.add_0_r. Qed.

(* rearrange sums of words *)
Ltac add_norm :=
  rewrite ?ADD_assoc; unfold ADD;
  repeat (rewrite N.add_mod_idemp_l by discriminate; rewrite <- ?N.add_assoc);
  apply (f_equal (fun z => z mod _)); ring.

(* ---------- while( n >= B ) { transform( p ); p += B; n -= B; } ---------- *)
Section WBlocks.
Variable St : Type.
Variable B : nat.
Variable tr : St -> ptr -> res St.
Fixpoint wblocks (fuel : nat) (st : St) (p : ptr) (n : nat) : res (St * ptr * nat) :=
  if Nat.leb B n then
    match fuel with
    | O => OutOfFuel
    | S fuel' => st <- tr st p ;;
                 p <- padd p B ;;
                 wblocks fuel' st p (n - B)
    end
  else Ok (st, p, n).

Variable compress : St -> list N -> St.
Hypothesis HB : (0 < B)%nat.
Hypothesis Htr : forall st l, (B <= length l)%nat -> bytes l ->
  tr st (Ptr l) = Ok (compress st (firstn B l)).

Lemma wblocks_ok : forall fuel st l n, (n <= fuel)%nat -> (n <= length l)%nat -> bytes l ->
  wblocks fuel st (Ptr l) n =
  Ok (fold_left compress (chunks B (firstn n l)) st, Ptr (skipn (B * (n / B)) l), (n mod B)%nat).
Proof.
  induction fuel as [|fuel IH]; intros st l n Hf Hn Hl.
  - cbn [wblocks]. replace n with 0%nat by lia.
    replace (Nat.leb B 0) with false by (symmetry; apply Nat.leb_gt; lia).
    rewrite Nat.div_0_l, Nat.mod_0_l, Nat.mul_0_r by lia. reflexivity.
  - cbn [wblocks]. destruct (Nat.leb_spec B n) as [HBn|HBn].
    + rewrite Htr by (assumption || lia). cbn [bind]. rewrite padd_ok by lia. cbn [bind].
      rewrite IH; [|lia|rewrite skipn_length; lia|now apply bytes_skipn].
      assert (E : (n = n - B + 1 * B)%nat) by lia.
      assert (Ed : (n / B = (n - B) / B + 1)%nat).
      { rewrite E at 1. rewrite Nat.div_add by lia. reflexivity. }
      assert (Em : (n mod B = (n - B) mod B)%nat).
      { rewrite E at 1. rewrite Nat.mod_add by lia. reflexivity. }
      rewrite Ed, Em, skipn_skipn'.
      replace (B * ((n - B) / B + 1))%nat with (B + B * ((n - B) / B))%nat by lia.
      replace (firstn n l) with (firstn B l ++ firstn (n - B) (skipn B l)).
      2:{ rewrite <- firstn_add. f_equal. lia. }
      rewrite (chunks_block B HB) by (apply firstn_length_le; lia). reflexivity.
    + rewrite Nat.div_small, Nat.mod_small, Nat.mul_0_r by lia.
      rewrite (chunks_short B HB) by (rewrite firstn_length; lia). reflexivity.
Qed.
End WBlocks.

(* ---------- a block as words ---------- *)
Lemma mapM_ok {A B} (f : A -> res B) (g : A -> B) l :
  (forall a, In a l -> f a = Ok (g a)) -> mapM f l = Ok (map g l).
Proof.
  induction l as [|a l IH]; intros H; [reflexivity|]. cbn [mapM map].
  rewrite H by (left; reflexivity). cbn [bind]. rewrite IH by (intros; apply H; now right). reflexivity.
Qed.

Lemma chunks_seq {A} B (HB : (0 < B)%nat) k : forall (l : list A), length l = (k * B)%nat ->
  chunks B l = map (fun i => firstn B (skipn (i * B) l)) (seq 0 k).
Proof.
  induction k as [|k IH]; intros l H.
  - apply chunks_short; cbn in *; lia.
  - rewrite (chunks_step B HB) by lia. cbn [seq map]. cbn [Nat.mul skipn]. f_equal.
    rewrite IH by (rewrite skipn_length; lia). rewrite <- seq_shift, map_map.
    apply map_ext. intros i. rewrite skipn_skipn'. reflexivity.
Qed.

Lemma firstn_firstn_le {A} a b (l : list A) : (a <= b)%nat -> firstn a (firstn b l) = firstn a l.
Proof. intros H. rewrite firstn_firstn. f_equal. lia. Qed.
Lemma firstn_skipn_firstn {A} a b c (l : list A) : (a + b <= c)%nat ->
  firstn a (skipn b (firstn c l)) = firstn a (skipn b l).
Proof.
  intros H. rewrite skipn_firstn_comm. apply firstn_firstn_le. lia.
Qed.

Lemma words_of_block (rd : ptr -> res N) (val : list N -> N) wb k l :
  (0 < wb)%nat ->
  (forall l, (wb <= length l)%nat -> bytes l -> rd (Ptr l) = Ok (val (firstn wb l))) ->
  (k * wb <= length l)%nat -> bytes l ->
  mapM (fun i => q <- padd (Ptr l) (i * wb) ;; rd q) (seq 0 k)
  = Ok (map val (chunks wb (firstn (k * wb) l))).
Proof.
  intros Hwb Hrd Hk Hl.
  rewrite (chunks_seq wb Hwb k) by (apply firstn_length_le; lia).
  rewrite map_map. apply mapM_ok. intros i Hi. apply in_seq in Hi.
  rewrite padd_ok by nia. cbn [bind]. rewrite Hrd.
  - rewrite firstn_skipn_firstn by nia. reflexivity.
  - rewrite skipn_length. nia.
  - now apply bytes_skipn.
Qed.

Lemma block_words_length (wb k : nat) (l : list N) : (0 < wb)%nat -> length l = (k * wb)%nat ->
  forall (f : list N -> N), length (map f (chunks wb l)) = k.
Proof.
  intros H E f. rewrite map_length, (chunks_length wb H), E. now rewrite Nat.div_mul by lia.
Qed.

Lemma fold_left_ext {A B} (f g : A -> B -> A) l : (forall a b, In b l -> f a b = g a b) ->
  forall a, fold_left f l a = fold_left g l a.
Proof.
  induction l as [|x l IH]; intros H a; [reflexivity|]. cbn [fold_left].
  rewrite H by now left. apply IH. intros; apply H; now right.
Qed.
Lemma fold_left_map {A B C} (f : A -> B -> A) (g : C -> B) l : forall a,
  fold_left f (map g l) a = fold_left (fun a c => f a (g c)) l a.
Proof. induction l as [|x l IH]; intros a; [reflexivity|]. apply IH. Qed.

(* simulation of a loop over 0 .. n-1 in a step-dependent view *)
Lemma fold_sim {X T} (f : X -> nat -> X) (g : T -> nat -> T) (view : nat -> X -> T) n :
  (forall i s, (i < n)%nat -> view (1 + i)%nat (f s i) = g (view i s) i) ->
  forall k i s, (i + k <= n)%nat ->
  view (i + k)%nat (fold_left f (seq i k) s) = fold_left g (seq i k) (view i s).
Proof.
  intros H. induction k as [|k IH]; intros i s Hk.
  - cbn. now rewrite Nat.add_0_r.
  - cbn [seq fold_left]. rewrite <- H by lia.
    replace (i + S k)%nat with (S i + k)%nat by lia. apply IH. lia.
Qed.

(* ---------- message schedules ---------- *)
Section Ext.
Variable f : list N -> N.
Fixpoint ext (n : nat) (W : list N) : list N :=
  match n with O => W | S n' => ext n' (W ++ [f W]) end.
Lemma ext_snoc n : forall W, ext (S n) W = ext n W ++ [f (ext n W)].
Proof.
  induction n as [|n IH]; intros W; [reflexivity|].
  change (ext (S (S n)) W) with (ext (S n) (W ++ [f W])). rewrite IH. reflexivity.
Qed.
Lemma ext_length n : forall W, length (ext n W) = (length W + n)%nat.
Proof.
  induction n as [|n IH]; intros W; [cbn; lia|]. rewrite ext_snoc, app_length, IH. cbn [length]. lia.
Qed.
Lemma ext_add n m W : ext (n + m) W = ext m (ext n W).
Proof. revert W; induction n as [|n IH]; intros W; [reflexivity|]. cbn [Nat.add ext]. apply IH. Qed.
Lemma ext_firstn n m W : (m <= n)%nat -> firstn (length W + m) (ext n W) = ext m W.
Proof.
  intros H. revert m H. induction n as [|n IH]; intros m H.
  - replace m with 0%nat by lia. cbn [ext]. rewrite Nat.add_0_r. apply firstn_all.
  - destruct (Nat.eq_dec m (S n)) as [->|Hne].
    + rewrite <- ext_length. apply firstn_all.
    + rewrite ext_snoc, firstn_app_le by (rewrite ext_length; lia). apply IH. lia.
Qed.
(* the element after the first length W + m *)
Lemma ext_next n m W : (m < n)%nat ->
  nth_error (ext n W) (length W + m) = Some (f (firstn (length W + m) (ext n W))).
Proof.
  intros H. rewrite ext_firstn by lia.
  replace n with (S m + (n - S m))%nat by lia. rewrite ext_add.
  assert (HP : exists t, ext (n - S m) (ext (S m) W) = ext (S m) W ++ t).
  { generalize (ext (S m) W) as V. induction (n - S m)%nat as [|k IH]; intros V.
    - exists []. now rewrite app_nil_r.
    - rewrite ext_snoc. destruct (IH V) as [t ->]. eexists. rewrite <- app_assoc. reflexivity. }
  destruct HP as [t ->]. rewrite nth_error_app1 by (rewrite ext_length; lia).
  rewrite ext_snoc, nth_error_app2 by (rewrite ext_length; lia).
  rewrite ext_length, Nat.sub_diag. reflexivity.
Qed.
Lemma ext_old n W i : (i < length W)%nat -> nth_error (ext n W) i = nth_error W i.
Proof.
  revert W; induction n as [|n IH]; intros W H; [reflexivity|]. cbn [ext].
  rewrite IH by (rewrite app_length; cbn; lia). now apply nth_error_app1.
Qed.
End Ext.

(* an array of n words whose first i have been computed *)
Lemma arr_part_get (W : list N) i k j : (j < i)%nat -> (i <= length W)%nat ->
  nth_error (firstn i W ++ zeros k) j = Some (nth j W 0).
Proof.
  intros H1 H2. rewrite nth_error_app1 by (rewrite firstn_length; lia).
  rewrite (nth_error_nth' _ 0) by (rewrite firstn_length; lia). f_equal.
  rewrite <- (firstn_skipn i W) at 2. rewrite app_nth1; [reflexivity|]. rewrite firstn_length; lia.
Qed.
Lemma arr_part_store (W : list N) n i v : length W = n -> nth_error W i = Some v ->
  store (firstn i W ++ zeros (n - i)) i v = Ok (firstn (S i) W ++ zeros (n - S i)).
Proof.
  intros HL Hv. assert (Hi : (i < n)%nat) by (rewrite <- HL; apply nth_error_Some; congruence).
  unfold store. rewrite app_length, firstn_length, zeros_length, HL.
  replace (Nat.ltb i (Nat.min i n + (n - i))) with true by (symmetry; apply Nat.ltb_lt; lia).
  f_equal. unfold splice.
  rewrite firstn_app_exact by (rewrite firstn_length; lia).
  rewrite skipn_app, skipn_all2 by (rewrite firstn_length; cbn; lia).
  rewrite firstn_length_le by lia. cbn [app length].
  rewrite skipn_zeros.
  replace (firstn (S i) W) with (firstn i W ++ [v]).
  - rewrite <- app_assoc. f_equal. cbn [app]. f_equal. f_equal. lia.
  - replace (S i) with (i + 1)%nat by lia. rewrite firstn_add. f_equal.
    rewrite <- (Nat.add_0_r i) in Hv. clear -Hv. revert i Hv. induction W as [|x W IH]; intros [|i] Hv; cbn in *; try discriminate.
    + congruence.
    + now apply IH.
Qed.

Lemma mod_mod_dvd y a b : b <> 0 -> a mod b = 0 -> a <> 0 -> (y mod a) mod b = y mod b.
Proof.
  intros Hb Hd Ha. apply N.mod_divide in Hd; [|exact Hb]. destruct Hd as [q Hq].
  rewrite (N.div_mod y a Ha) at 2. rewrite Hq at 2.
  rewrite N.add_comm. replace (q * b * (y / a)) with (q * (y / a) * b) by ring.
  now rewrite N.mod_add by exact Hb.
Qed.

(* Facts about the primitives of Base.v. *)
From Verif Require Import Base.
From Coq Require Import ZifyBool ZifyNat ZifyN.
Open Scope N_scope.

(* ---------- lists ---------- *)
Lemma firstn_app_le {A} (n : nat) (l1 l2 : list A) :
  (n <= length l1)%nat -> firstn n (l1 ++ l2) = firstn n l1.
Proof. intros H. rewrite firstn_app. replace (n - length l1)%nat with 0%nat by lia.
  simpl. now rewrite app_nil_r. Qed.
Lemma skipn_app_le {A} (n : nat) (l1 l2 : list A) :
  (n <= length l1)%nat -> skipn n (l1 ++ l2) = skipn n l1 ++ l2.
Proof. intros H. rewrite skipn_app. replace (n - length l1)%nat with 0%nat by lia. easy. Qed.
Lemma firstn_app_exact {A} (l1 l2 : list A) n : n = length l1 -> firstn n (l1 ++ l2) = l1.
Proof. intros ->. rewrite firstn_app_le by lia. apply firstn_all. Qed.
Lemma skipn_app_exact {A} (l1 l2 : list A) n : n = length l1 -> skipn n (l1 ++ l2) = l2.
Proof. intros ->. rewrite skipn_app, skipn_all, Nat.sub_diag. easy. Qed.
Lemma skipn_skipn' {A} (a b : nat) (l : list A) : skipn a (skipn b l) = skipn (b + a) l.
Proof. revert l; induction b as [|b IH]; intros l; simpl; [easy|]. destruct l; [now rewrite skipn_nil|]. apply IH. Qed.
Lemma firstn_length_le' {A} (n : nat) (l : list A) : (n <= length l)%nat -> length (firstn n l) = n.
Proof. apply firstn_length_le. Qed.
Lemma firstn_add {A} (a b : nat) (l : list A) : firstn (a + b) l = firstn a l ++ firstn b (skipn a l).
Proof. revert l; induction a as [|a IH]; intros l; simpl; [easy|]. destruct l; [now rewrite firstn_nil|]. simpl. now rewrite IH. Qed.

Lemma bytes_app l1 l2 : bytes (l1 ++ l2) <-> bytes l1 /\ bytes l2.
Proof. apply Forall_app. Qed.
Lemma bytes_firstn n l : bytes l -> bytes (firstn n l).
Proof. intros H. rewrite <- (firstn_skipn n l) in H. now apply bytes_app in H. Qed.
Lemma bytes_skipn n l : bytes l -> bytes (skipn n l).
Proof. intros H. rewrite <- (firstn_skipn n l) in H. now apply bytes_app in H. Qed.
Lemma bytes_zeros n : bytes (zeros n).
Proof. unfold zeros, bytes. induction n; simpl; constructor; [lia|easy]. Qed.
Lemma bytes_cons b l : b < 256 -> bytes l -> bytes (b :: l).
Proof. intros; now constructor. Qed.
Lemma bytes_nil : bytes [].
Proof. constructor. Qed.
Lemma bytesb_ok l : bytesb l = true <-> bytes l.
Proof. unfold bytesb, bytes. rewrite forallb_forall, Forall_forall.
  split; intros H x Hx; specialize (H x Hx); lia. Qed.
Lemma bytes_rev l : bytes l -> bytes (rev l).
Proof. intros H. apply Forall_rev. exact H. Qed.
Lemma zeros_length n : length (zeros n) = n.
Proof. apply repeat_length. Qed.

Lemma skipn_zeros k n : skipn k (zeros n) = zeros (n - k).
Proof. unfold zeros. revert n; induction k as [|k IH]; intros [|n]; simpl; auto. Qed.
Lemma firstn_zeros k n : (k <= n)%nat -> firstn k (zeros n) = zeros k.
Proof. unfold zeros. revert n; induction k as [|k IH]; intros [|n] H; simpl; auto; [lia|]. f_equal. apply IH. lia. Qed.
Lemma zeros_app a b : zeros a ++ zeros b = zeros (a + b).
Proof. unfold zeros. now rewrite repeat_app. Qed.

(* ---------- splice / memcpy / memset ---------- *)
Lemma splice_length d off w : (off + length w <= length d)%nat -> length (splice d off w) = length d.
Proof. intros H. unfold splice. rewrite !app_length, firstn_length, skipn_length. lia. Qed.

Lemma splice_0_all d w : length w = length d -> splice d 0 w = w.
Proof. intros H. unfold splice. simpl. rewrite skipn_all2 by lia. apply app_nil_r. Qed.

Lemma splice_nil d off : (off <= length d)%nat -> splice d off [] = d.
Proof. intros H. unfold splice. simpl. rewrite Nat.add_0_r. apply firstn_skipn. Qed.

Lemma splice_splice d off w1 w2 : (off + length w1 + length w2 <= length d)%nat ->
  splice (splice d off w1) (off + length w1) w2 = splice d off (w1 ++ w2).
Proof.
  intros H. unfold splice at 1 3.
  assert (Hf : firstn (off + length w1) (splice d off w1) = firstn off d ++ w1).
  { unfold splice. rewrite app_assoc. rewrite firstn_app_exact; [easy|].
    rewrite app_length, firstn_length. lia. }
  rewrite Hf, <- !app_assoc. f_equal. f_equal. f_equal.
  unfold splice. rewrite app_assoc, skipn_app.
  rewrite app_length, firstn_length.
  rewrite skipn_all2 by (rewrite app_length, firstn_length; lia).
  simpl. rewrite skipn_skipn', app_length. f_equal. lia.
Qed.

Lemma deref_ok l i b : nth_error l i = Some b -> deref (Ptr l) i = Ok b.
Proof. intros H. unfold deref. now rewrite H. Qed.

Lemma firstn_S_nth {A} (l : list A) i n x :
  nth_error l i = Some x -> firstn (S n) (skipn i l) = x :: firstn n (skipn (S i) l).
Proof.
  revert i; induction l as [|y l IH]; intros [|i] H; simpl in *; try discriminate.
  - now injection H as ->.
  - rewrite IH by easy. destruct l; [destruct i; discriminate|]. easy.
Qed.

Lemma copy_loop_ok n : forall d off s i,
  (off + i + n <= length d)%nat -> (i + n <= length s)%nat ->
  copy_loop d off (Ptr s) i n = Ok (splice d (off + i) (firstn n (skipn i s))).
Proof.
  induction n as [|n IH]; intros d off s i Hd Hs; cbn [copy_loop].
  - rewrite firstn_O, splice_nil by lia. easy.
  - destruct (nth_error s i) as [b|] eqn:E.
    2:{ apply nth_error_None in E. lia. }
    rewrite (deref_ok _ _ _ E). cbn [bind]. unfold store.
    replace (Nat.ltb (off + i) (length d)) with true by (symmetry; apply Nat.ltb_lt; lia).
    cbn [bind]. rewrite IH.
    + rewrite (firstn_S_nth _ _ _ _ E).
      replace (off + S i)%nat with (off + i + length [b])%nat by (simpl; lia).
      rewrite splice_splice; [easy|]. simpl. rewrite firstn_length. lia.
    + rewrite splice_length; simpl; lia.
    + lia.
Qed.

Lemma memcpy_ok pf d off s n :
  (off + n <= length d)%nat -> (n <= length s)%nat ->
  memcpy pf d off (Ptr s) n = Ok (splice d off (firstn n s)).
Proof.
  intros Hd Hs. unfold memcpy. destruct (p_cx pf); cbn [negb].
  - rewrite copy_loop_ok by lia. now rewrite Nat.add_0_r.
  - unfold std_memcpy, memread.
    replace (Nat.leb (off + n) (length d)) with true by (symmetry; apply Nat.leb_le; lia).
    replace (Nat.leb n (length s)) with true by (symmetry; apply Nat.leb_le; lia).
    easy.
Qed.

Lemma set_loop_ok ch n : forall d off i,
  (off + i + n <= length d)%nat ->
  set_loop d off ch i n = Ok (splice d (off + i) (repeat ch n)).
Proof.
  induction n as [|n IH]; intros d off i Hd; cbn [set_loop repeat].
  - rewrite splice_nil by lia. easy.
  - unfold store.
    replace (Nat.ltb (off + i) (length d)) with true by (symmetry; apply Nat.ltb_lt; lia).
    cbn [bind]. rewrite IH.
    + replace (off + S i)%nat with (off + i + length [ch])%nat by (simpl; lia).
      rewrite splice_splice; [easy|]. simpl. rewrite repeat_length. lia.
    + rewrite splice_length; simpl; lia.
Qed.

Lemma memset_ok pf d off ch n :
  (off + n <= length d)%nat -> memset pf d off ch n = Ok (splice d off (repeat ch n)).
Proof.
  intros Hd. unfold memset. destruct (p_cx pf); cbn [negb].
  - rewrite set_loop_ok by lia. now rewrite Nat.add_0_r.
  - unfold std_memset.
    replace (Nat.leb (off + n) (length d)) with true by (symmetry; apply Nat.leb_le; lia).
    easy.
Qed.

Lemma padd_ok l k : (k <= length l)%nat -> padd (Ptr l) k = Ok (Ptr (skipn k l)).
Proof. intros H. unfold padd. now replace (Nat.leb k (length l)) with true by (symmetry; apply Nat.leb_le; lia). Qed.

(* ---------- little/big endian numbers ---------- *)
Lemma le_bytes_length k v : length (le_bytes k v) = k.
Proof. revert v; induction k; intros; simpl; auto. Qed.
Lemma le_bytes_bytes k v : bytes (le_bytes k v).
Proof. revert v; induction k; intros; simpl; constructor; [apply N.mod_lt; lia | apply IHk]. Qed.
Lemma le_val_bound l : bytes l -> le_val l < 256 ^ N.of_nat (length l).
Proof.
  induction 1 as [|b l Hb Hl IH]; [cbn; lia|].
  cbn [le_val length]. rewrite Nat2N.inj_succ, N.pow_succ_r'.
  nia.
Qed.
Lemma le_val_bytes k v : le_val (le_bytes k v) = v mod 256 ^ N.of_nat k.
Proof.
  revert v; induction k as [|k IH]; intros v.
  - cbn [le_bytes le_val N.of_nat]. rewrite N.pow_0_r, N.mod_1_r. easy.
  - cbn [le_bytes le_val]. rewrite IH, Nat2N.inj_succ, N.pow_succ_r'.
    rewrite N.mod_mul_r by (try apply N.pow_nonzero; lia). lia.
Qed.
Lemma le_bytes_val l : bytes l -> le_bytes (length l) (le_val l) = l.
Proof.
  induction 1 as [|b l Hb Hl IH]; [easy|].
  cbn [length le_bytes le_val]. f_equal.
  - rewrite N.mul_comm, N.mod_add by lia. now apply N.mod_small.
  - rewrite N.mul_comm, N.div_add by lia. rewrite N.div_small by easy. rewrite N.add_0_l. exact IH.
Qed.
Lemma le_val_app l1 l2 : le_val (l1 ++ l2) = le_val l1 + 256 ^ N.of_nat (length l1) * le_val l2.
Proof.
  induction l1 as [|b l IH].
  { cbn [app le_val length N.of_nat]. rewrite N.pow_0_r. lia. }
  cbn [app le_val length]. rewrite IH, Nat2N.inj_succ, N.pow_succ_r'. lia.
Qed.
Lemma le_bytes_inj k v w : v < 256 ^ N.of_nat k -> w < 256 ^ N.of_nat k ->
  le_bytes k v = le_bytes k w -> v = w.
Proof.
  intros Hv Hw E. apply (f_equal le_val) in E. rewrite !le_val_bytes in E.
  now rewrite !N.mod_small in E by easy.
Qed.
Lemma le_val_inj l1 l2 : bytes l1 -> bytes l2 -> length l1 = length l2 ->
  le_val l1 = le_val l2 -> l1 = l2.
Proof.
  intros H1 H2 HL E. rewrite <- (le_bytes_val l1 H1), <- (le_bytes_val l2 H2). now rewrite HL, E.
Qed.

Lemma land_low_shl a b k : a < 2^k -> N.land a (N.shiftl b k) = 0.
Proof.
  intros H. apply N.bits_inj. intros i. rewrite N.land_spec, N.bits_0.
  destruct (N.lt_ge_cases i k) as [Hi|Hi].
  - rewrite N.shiftl_spec_low by easy. apply andb_false_r.
  - rewrite <- (N.mod_small a (2^k)) by easy.
    rewrite N.mod_pow2_bits_high by easy. easy.
Qed.
Lemma lor_shl a b k : a < 2^k -> N.lor a (N.shiftl b k) = a + 2^k * b.
Proof.
  intros H. pose proof (land_low_shl a b k H) as L.
  rewrite <- (N.lxor_lor _ _ L), <- (N.add_nocarry_lxor _ _ L).
  rewrite N.shiftl_mul_pow2. lia.
Qed.

Lemma shl_small w b k j : b < 2^j -> j + k <= w -> (N.shiftl b k) mod 2^w = N.shiftl b k.
Proof.
  intros Hb Hw. apply N.mod_small. rewrite N.shiftl_mul_pow2.
  apply N.lt_le_trans with (2^j * 2^k).
  - apply N.mul_lt_mono_pos_r; [|easy]. apply N.neq_0_lt_0, N.pow_nonzero. lia.
  - rewrite <- N.pow_add_r. apply N.pow_le_mono_r; lia.
Qed.

Lemma lor_shl32 a b k : a < 2^k -> b < 256 -> 8 + k <= 32 -> N.lor a (shl32 b k) = a + 2^k * b.
Proof. intros Ha Hb Hk. unfold shl32, w32. rewrite (shl_small 32 b k 8) by easy. now apply lor_shl. Qed.
Lemma lor_shl64 a b k : a < 2^k -> b < 256 -> 8 + k <= 64 -> N.lor a (shl64 b k) = a + 2^k * b.
Proof. intros Ha Hb Hk. unfold shl64, w64. rewrite (shl_small 64 b k 8) by easy. now apply lor_shl. Qed.

Definition be_val (l : list N) : N := le_val (rev l).

Ltac lia_p2 :=
  change (2^8) with 256; change (2^16) with 65536; change (2^24) with 16777216; change (2^32) with 4294967296; change (2^40) with 1099511627776; change (2^48) with 281474976710656; change (2^56) with 72057594037927936; lia.

Lemma bytes_cons_inv b l : bytes (b :: l) -> b < 256 /\ bytes l.
Proof. unfold bytes. intros H; inversion H; subst; split; assumption. Qed.
Ltac inv_bytes :=
  repeat match goal with
  | H : bytes (_ :: _) |- _ => apply bytes_cons_inv in H;
      let H1 := fresh "Hb" in destruct H as [H1 H]
  end.

Lemma read32le_ok pf l : (4 <= length l)%nat -> bytes l ->
  read32le pf (Ptr l) = Ok (le_val (firstn 4 l)).
Proof.
  intros HL HB. unfold read32le.
  destruct l as [|b0 [|b1 [|b2 [|b3 l]]]]; try (cbn in HL; lia).
  destruct (negb (p_cx pf) && p_le pf).
  - reflexivity.
  - cbn [deref nth_error bind firstn le_val].
    inv_bytes. f_equal.
    rewrite (lor_shl32 b0 b1 8) by (lia_p2).
    rewrite (lor_shl32 _ b2 16) by (lia_p2).
    rewrite (lor_shl32 _ b3 24) by (lia_p2).
    lia_p2.
Qed.

Lemma read64le_ok pf l : (8 <= length l)%nat -> bytes l ->
  read64le pf (Ptr l) = Ok (le_val (firstn 8 l)).
Proof.
  intros HL HB. unfold read64le.
  destruct l as [|b0 [|b1 [|b2 [|b3 [|b4 [|b5 [|b6 [|b7 l]]]]]]]]; try (cbn in HL; lia).
  destruct (negb (p_cx pf) && p_le pf).
  - reflexivity.
  - cbn [deref nth_error bind firstn le_val].
    inv_bytes. f_equal.
    rewrite (lor_shl64 b0 b1 8) by (lia_p2).
    rewrite (lor_shl64 _ b2 16) by (lia_p2).
    rewrite (lor_shl64 _ b3 24) by (lia_p2).
    rewrite (lor_shl64 _ b4 32) by (lia_p2).
    rewrite (lor_shl64 _ b5 40) by (lia_p2).
    rewrite (lor_shl64 _ b6 48) by (lia_p2).
    rewrite (lor_shl64 _ b7 56) by (lia_p2).
    lia_p2.
Qed.

Lemma read32be_ok l : (4 <= length l)%nat -> bytes l ->
  read32be (Ptr l) = Ok (be_val (firstn 4 l)).
Proof.
  intros HL HB. unfold read32be, be_val.
  destruct l as [|b0 [|b1 [|b2 [|b3 l]]]]; try (cbn in HL; lia).
  cbn [deref nth_error bind firstn le_val rev app].
  inv_bytes. f_equal.
  rewrite (lor_shl32 b3 b2 8) by (lia_p2).
  rewrite (lor_shl32 _ b1 16) by (lia_p2).
  rewrite (lor_shl32 _ b0 24) by (lia_p2).
  lia_p2.
Qed.

Lemma read64be_ok l : (8 <= length l)%nat -> bytes l ->
  read64be (Ptr l) = Ok (be_val (firstn 8 l)).
Proof.
  intros HL HB. unfold read64be, be_val.
  destruct l as [|b0 [|b1 [|b2 [|b3 [|b4 [|b5 [|b6 [|b7 l]]]]]]]]; try (cbn in HL; lia).
  cbn [deref nth_error bind firstn le_val rev app].
  inv_bytes. f_equal.
  rewrite (lor_shl64 b7 b6 8) by (lia_p2).
  rewrite (lor_shl64 _ b5 16) by (lia_p2).
  rewrite (lor_shl64 _ b4 24) by (lia_p2).
  rewrite (lor_shl64 _ b3 32) by (lia_p2).
  rewrite (lor_shl64 _ b2 40) by (lia_p2).
  rewrite (lor_shl64 _ b1 48) by (lia_p2).
  rewrite (lor_shl64 _ b0 56) by (lia_p2).
  lia_p2.
Qed.

Lemma byte_at_div v k : byte_at v k = (v / 2^k) mod 256.
Proof.
  unfold byte_at, shr. change 255 with (N.ones 8). rewrite N.land_ones.
  rewrite N.shiftr_div_pow2. apply N.mod_mod. lia.
Qed.

Lemma le_bytes_nth_div k v : le_bytes (S k) v = v mod 256 :: le_bytes k (v / 256).
Proof. easy. Qed.

Lemma write16le_ok pf v : write16le pf v = le_bytes 2 v.
Proof.
  unfold write16le. destruct (negb (p_cx pf) && p_le pf); [easy|].
  rewrite !byte_at_div. cbn [le_bytes]. rewrite ?N.div_div by lia.
  rewrite N.pow_0_r, N.div_1_r. reflexivity.
Qed.
Lemma write32le_ok pf v : write32le pf v = le_bytes 4 v.
Proof.
  unfold write32le. destruct (negb (p_cx pf) && p_le pf); [easy|].
  rewrite !byte_at_div. cbn [le_bytes]. rewrite ?N.div_div by lia.
  rewrite N.pow_0_r, N.div_1_r. reflexivity.
Qed.
Lemma write64le_ok pf v : write64le pf v = le_bytes 8 v.
Proof.
  unfold write64le. destruct (negb (p_cx pf) && p_le pf); [easy|].
  rewrite !byte_at_div. cbn [le_bytes]. rewrite ?N.div_div by lia.
  rewrite N.pow_0_r, N.div_1_r. reflexivity.
Qed.
Definition be_bytes (k : nat) (v : N) : list N := rev (le_bytes k v).
Lemma write16be_ok v : write16be v = be_bytes 2 v.
Proof.
  unfold write16be, be_bytes.
  rewrite !byte_at_div. cbn [le_bytes rev app]. rewrite ?N.div_div by lia.
  rewrite N.pow_0_r, N.div_1_r. reflexivity.
Qed.
Lemma write32be_ok v : write32be v = be_bytes 4 v.
Proof.
  unfold write32be, be_bytes.
  rewrite !byte_at_div. cbn [le_bytes rev app]. rewrite ?N.div_div by lia.
  rewrite N.pow_0_r, N.div_1_r. reflexivity.
Qed.
Lemma write64be_ok v : write64be v = be_bytes 8 v.
Proof.
  unfold write64be, be_bytes.
  rewrite !byte_at_div. cbn [le_bytes rev app]. rewrite ?N.div_div by lia.
  rewrite N.pow_0_r, N.div_1_r. reflexivity.
Qed.
Lemma be_bytes_length k v : length (be_bytes k v) = k.
Proof. unfold be_bytes. now rewrite rev_length, le_bytes_length. Qed.
Lemma be_bytes_bytes k v : bytes (be_bytes k v).
Proof. apply bytes_rev, le_bytes_bytes. Qed.
Lemma be_val_bytes k v : be_val (be_bytes k v) = v mod 256 ^ N.of_nat k.
Proof. unfold be_val, be_bytes. rewrite rev_involutive. apply le_val_bytes. Qed.
Lemma be_bytes_val l : bytes l -> be_bytes (length l) (be_val l) = l.
Proof. intros H. unfold be_val, be_bytes. rewrite <- rev_length, le_bytes_val by now apply bytes_rev.
  apply rev_involutive. Qed.

(* ---------- words ---------- *)
Lemma w32_pos : w32 <> 0. Proof. discriminate. Qed.
Lemma w64_pos : w64 <> 0. Proof. discriminate. Qed.
Lemma add32_lt a b : add32 a b < w32. Proof. apply N.mod_lt, w32_pos. Qed.
Lemma add64_lt a b : add64 a b < w64. Proof. apply N.mod_lt, w64_pos. Qed.
Lemma mul32_lt a b : mul32 a b < w32. Proof. apply N.mod_lt, w32_pos. Qed.
Lemma mul64_lt a b : mul64 a b < w64. Proof. apply N.mod_lt, w64_pos. Qed.
Lemma add32_comm a b : add32 a b = add32 b a. Proof. unfold add32. now rewrite N.add_comm. Qed.
Lemma add64_comm a b : add64 a b = add64 b a. Proof. unfold add64. now rewrite N.add_comm. Qed.
Lemma add32_assoc a b c : add32 a (add32 b c) = add32 (add32 a b) c.
Proof. unfold add32. rewrite N.add_mod_idemp_r, N.add_mod_idemp_l by apply w32_pos. now rewrite N.add_assoc. Qed.
Lemma add64_assoc a b c : add64 a (add64 b c) = add64 (add64 a b) c.
Proof. unfold add64. rewrite N.add_mod_idemp_r, N.add_mod_idemp_l by apply w64_pos. now rewrite N.add_assoc. Qed.

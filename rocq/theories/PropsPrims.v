(* C37, C38 and the primitive half of C24: read*, write*, rotl/rotr, memcpy, memset, memcmp. *)
From Verif Require Import Base BaseFacts SpecCommon Bits Words ModelMd5 ModelRipemd.
Open Scope N_scope.

(* ---- C37: reading ---- *)
(* The functions read exactly 4 (8) bytes at p, as positional base-256 numbers; with fewer bytes
   there (or a null pointer) they are undefined. *)
Lemma deref_short l i : (length l <= i)%nat -> deref (Ptr l) i = UB.
Proof. intros H. cbn [deref]. apply nth_error_None in H. now rewrite H. Qed.
Lemma bind_UB_r {A B} (x : res A) (f : A -> res B) : (x = UB \/ exists a, x = Ok a /\ f a = UB) -> bind x f = UB.
Proof. intros [->|(a & -> & H)]; [reflexivity|exact H]. Qed.
Lemma deref_two l i : (exists b, deref (Ptr l) i = Ok b) \/ deref (Ptr l) i = UB.
Proof. cbn [deref]. destruct (nth_error l i); eauto. Qed.

Theorem C37_read32le pf l : bytes l ->
  read32le pf (Ptr l) = if Nat.leb 4 (length l) then Ok (LE (firstn 4 l)) else UB.
Proof.
  intros B. destruct (Nat.leb_spec 4 (length l)); [now apply read32le_ok|].
  unfold read32le, memread. destruct (negb (p_cx pf) && p_le pf).
  - destruct (Nat.leb_spec 4 (length l)); [lia|reflexivity].
  - destruct l as [|? [|? [|? [|? ?]]]]; cbn [length] in *; try lia; reflexivity.
Qed.
Theorem C37_read64le pf l : bytes l ->
  read64le pf (Ptr l) = if Nat.leb 8 (length l) then Ok (LE (firstn 8 l)) else UB.
Proof.
  intros B. destruct (Nat.leb_spec 8 (length l)); [now apply read64le_ok|].
  unfold read64le, memread. destruct (negb (p_cx pf) && p_le pf).
  - destruct (Nat.leb_spec 8 (length l)); [lia|reflexivity].
  - destruct l as [|? [|? [|? [|? [|? [|? [|? [|? ?]]]]]]]]; cbn [length] in *; try lia; reflexivity.
Qed.
Theorem C37_read32be l : bytes l ->
  read32be (Ptr l) = if Nat.leb 4 (length l) then Ok (BE (firstn 4 l)) else UB.
Proof.
  intros B. destruct (Nat.leb_spec 4 (length l)); [now apply read32be_ok|].
  destruct l as [|? [|? [|? [|? ?]]]]; cbn [length] in *; try lia; reflexivity.
Qed.
Theorem C37_read64be l : bytes l ->
  read64be (Ptr l) = if Nat.leb 8 (length l) then Ok (BE (firstn 8 l)) else UB.
Proof.
  intros B. destruct (Nat.leb_spec 8 (length l)); [now apply read64be_ok|].
  destruct l as [|? [|? [|? [|? [|? [|? [|? [|? ?]]]]]]]]; cbn [length] in *; try lia; reflexivity.
Qed.

(* ---- C37: writing ---- *)
(* byte [i] of the little-endian encoding is the digit of weight 256^i *)
Lemma nth_toLE k : forall v i, (i < k)%nat -> nth i (toLE k v) 0 = (v / 256 ^ N.of_nat i) mod 256.
Proof.
  induction k; intros v i H; [lia|]. cbn [toLE]. destruct i; cbn [nth].
  - now rewrite N.pow_0_r, N.div_1_r.
  - rewrite IHk by lia. rewrite N.div_div by (try discriminate; now apply N.pow_nonzero).
    now rewrite Nat2N.inj_succ, N.pow_succ_r'.
Qed.
Lemma length_toLE k v : length (toLE k v) = k.
Proof. exact (le_bytes_length k v). Qed.
Theorem C37_write_le pf v :
  (length (write16le pf v) = 2%nat /\ length (write32le pf v) = 4%nat /\ length (write64le pf v) = 8%nat) /\
  (forall i, (i < 2)%nat -> nth i (write16le pf v) 0 = (v / 256 ^ N.of_nat i) mod 256) /\
  (forall i, (i < 4)%nat -> nth i (write32le pf v) 0 = (v / 256 ^ N.of_nat i) mod 256) /\
  (forall i, (i < 8)%nat -> nth i (write64le pf v) 0 = (v / 256 ^ N.of_nat i) mod 256).
Proof.
  rewrite write16le_ok, write32le_ok, write64le_ok. change le_bytes with toLE.
  rewrite !length_toLE. repeat split; intros; now apply nth_toLE.
Qed.
Theorem C37_write_be v :
  (length (write16be v) = 2%nat /\ length (write32be v) = 4%nat /\ length (write64be v) = 8%nat) /\
  (forall i, (i < 2)%nat -> nth i (write16be v) 0 = (v / 256 ^ N.of_nat (1 - i)) mod 256) /\
  (forall i, (i < 4)%nat -> nth i (write32be v) 0 = (v / 256 ^ N.of_nat (3 - i)) mod 256) /\
  (forall i, (i < 8)%nat -> nth i (write64be v) 0 = (v / 256 ^ N.of_nat (7 - i)) mod 256).
Proof.
  assert (R : forall k v i, (i < k)%nat -> nth i (be_bytes k v) 0 = (v / 256 ^ N.of_nat (k - 1 - i)) mod 256).
  { intros k u i H. unfold be_bytes. change le_bytes with toLE.
    rewrite rev_nth by (rewrite length_toLE; lia). rewrite length_toLE, nth_toLE by lia.
    do 3 f_equal. lia. }
  rewrite write16be_ok, write32be_ok, write64be_ok. rewrite !be_bytes_length.
  repeat split; intros; rewrite R by lia; reflexivity.
Qed.

(* ---- C37: mutually inverse, across platforms and evaluation modes ---- *)
Theorem C37_read_write_le pf pf' v t : bytes t ->
  (v < 2^32 -> read32le pf' (Ptr (write32le pf v ++ t)) = Ok v) /\
  (v < 2^64 -> read64le pf' (Ptr (write64le pf v ++ t)) = Ok v).
Proof.
  intros T. split; intros H.
  - rewrite write32le_ok, read32le_ok.
    + rewrite firstn_app_exact by now rewrite le_bytes_length. rewrite le_val_bytes.
      f_equal. now apply N.mod_small.
    + rewrite app_length, le_bytes_length. lia.
    + apply bytes_app. split; [apply le_bytes_bytes|exact T].
  - rewrite write64le_ok, read64le_ok.
    + rewrite firstn_app_exact by now rewrite le_bytes_length. rewrite le_val_bytes.
      f_equal. now apply N.mod_small.
    + rewrite app_length, le_bytes_length. lia.
    + apply bytes_app. split; [apply le_bytes_bytes|exact T].
Qed.
Theorem C37_read_write_be v t : bytes t ->
  (v < 2^32 -> read32be (Ptr (write32be v ++ t)) = Ok v) /\
  (v < 2^64 -> read64be (Ptr (write64be v ++ t)) = Ok v).
Proof.
  intros T. split; intros H.
  - rewrite write32be_ok, read32be_ok.
    + rewrite firstn_app_exact by now rewrite be_bytes_length. rewrite be_val_bytes.
      f_equal. now apply N.mod_small.
    + rewrite app_length, be_bytes_length. lia.
    + apply bytes_app. split; [apply be_bytes_bytes|exact T].
  - rewrite write64be_ok, read64be_ok.
    + rewrite firstn_app_exact by now rewrite be_bytes_length. rewrite be_val_bytes.
      f_equal. now apply N.mod_small.
    + rewrite app_length, be_bytes_length. lia.
    + apply bytes_app. split; [apply be_bytes_bytes|exact T].
Qed.
Theorem C37_write_read pf pf' l :
  bytes l ->
  (length l = 4%nat -> exists v, v < 2^32 /\ read32le pf (Ptr l) = Ok v /\ write32le pf' v = l) /\
  (length l = 8%nat -> exists v, v < 2^64 /\ read64le pf (Ptr l) = Ok v /\ write64le pf' v = l) /\
  (length l = 4%nat -> exists v, v < 2^32 /\ read32be (Ptr l) = Ok v /\ write32be v = l) /\
  (length l = 8%nat -> exists v, v < 2^64 /\ read64be (Ptr l) = Ok v /\ write64be v = l).
Proof.
  intros B. assert (Br : bytes (rev l)) by now apply bytes_rev.
  assert (G := le_val_bound l B). assert (Gr := le_val_bound (rev l) Br). rewrite rev_length in Gr.
  repeat split; intros L; rewrite L in *.
  - exists (le_val l). rewrite read32le_ok by (try lia; exact B). rewrite <- L, firstn_all.
    repeat split; [exact G|]. rewrite write32le_ok. rewrite <- L at 1. now apply le_bytes_val.
  - exists (le_val l). rewrite read64le_ok by (try lia; exact B). rewrite <- L, firstn_all.
    repeat split; [exact G|]. rewrite write64le_ok. rewrite <- L at 1. now apply le_bytes_val.
  - exists (be_val l). rewrite read32be_ok by (try lia; exact B). rewrite <- L, firstn_all.
    repeat split; [exact Gr|]. rewrite write32be_ok. rewrite <- L at 1. now apply be_bytes_val.
  - exists (be_val l). rewrite read64be_ok by (try lia; exact B). rewrite <- L, firstn_all.
    repeat split; [exact Gr|]. rewrite write64be_ok. rewrite <- L at 1. now apply be_bytes_val.
Qed.
Example C37_ex : let rt := {| p_le := true; p_cx := false |} in let cx := {| p_le := false; p_cx := true |} in
  read32le rt (Ptr [0x78;0x56;0x34;0x12;0xff]) = Ok 0x12345678 /\
  write32le cx 0x12345678 = [0x78;0x56;0x34;0x12] /\ write32be 0x12345678 = [0x12;0x34;0x56;0x78] /\
  read64be (Ptr [1;2;3;4;5;6;7]) = UB.
Proof. now vm_compute. Qed.

(* ---- C38: rotations ---- *)
Lemma ROTL_bits w k v i : 0 < k -> k < w -> v < 2^w -> i < w ->
  N.testbit (ROTL w k v) i = N.testbit v ((i + (w - k)) mod w).
Proof.
  intros K0 K V I. unfold ROTL. rewrite N.lor_spec, N.shiftr_spec by lia.
  rewrite N.mod_pow2_bits_low by lia.
  destruct (N.ltb_spec i k) as [L|L].
  - rewrite N.shiftl_spec_low by lia. cbn [orb]. rewrite N.mod_small by lia. reflexivity.
  - rewrite N.shiftl_spec_high by lia.
    rewrite (proj1 (lt_pow2_bits v w) V (i + (w - k))) by lia. rewrite orb_false_r.
    f_equal. replace (i + (w - k)) with ((i - k) + 1 * w) by lia.
    rewrite N.mod_add by lia. now rewrite N.mod_small by lia.
Qed.
Lemma ROTL_lt w k v : k < w -> v < 2^w -> ROTL w k v < 2^w.
Proof.
  intros K V. apply lt_pow2_bits. intros i I. unfold ROTL. rewrite N.lor_spec, N.shiftr_spec by lia.
  rewrite N.mod_pow2_bits_high by lia. apply (proj1 (lt_pow2_bits v w) V). lia.
Qed.
Lemma ROTR_ROTL w k v : k <= w -> ROTR w k v = ROTL w (w - k) v.
Proof. intros K. unfold ROTR, ROTL. rewrite N.lor_comm. do 2 f_equal. lia. Qed.

(* bit i of rotl( v, k ) is bit i - k (cyclically) of v *)
Theorem C38_rotl v k : 0 < k ->
  (k < 32 -> v < 2^32 -> rotl32 v k < 2^32 /\
     forall i, i < 32 -> N.testbit (rotl32 v k) i = N.testbit v ((i + (32 - k)) mod 32)) /\
  (k < 64 -> v < 2^64 -> rotl64 v k < 2^64 /\
     forall i, i < 64 -> N.testbit (rotl64 v k) i = N.testbit v ((i + (64 - k)) mod 64)).
Proof.
  intros K0. split; intros K V.
  - rewrite rotl32_ROTL by assumption. split; [now apply ROTL_lt|]. intros; now apply ROTL_bits.
  - rewrite rotl64_ROTL by assumption. split; [now apply ROTL_lt|]. intros; now apply ROTL_bits.
Qed.
(* bit i of rotr( v, k ) is bit i + k (cyclically) of v *)
Theorem C38_rotr v k : 0 < k ->
  (k < 32 -> v < 2^32 -> rotr32 v k < 2^32 /\
     forall i, i < 32 -> N.testbit (rotr32 v k) i = N.testbit v ((i + k) mod 32)) /\
  (k < 64 -> v < 2^64 -> rotr64 v k < 2^64 /\
     forall i, i < 64 -> N.testbit (rotr64 v k) i = N.testbit v ((i + k) mod 64)).
Proof.
  intros K0. split; intros K V.
  - rewrite rotr32_ROTR, ROTR_ROTL by lia. split; [apply ROTL_lt; lia|].
    intros. rewrite ROTL_bits by lia. do 3 f_equal. lia.
  - rewrite rotr64_ROTR, ROTR_ROTL by lia. split; [apply ROTL_lt; lia|].
    intros. rewrite ROTL_bits by lia. do 3 f_equal. lia.
Qed.
Lemma bits_eq w a b : a < 2^w -> b < 2^w -> (forall i, i < w -> N.testbit a i = N.testbit b i) -> a = b.
Proof.
  intros A B H. apply N.bits_inj. intros i. destruct (N.ltb_spec i w) as [L|L]; [now apply H|].
  rewrite (proj1 (lt_pow2_bits a w) A i L), (proj1 (lt_pow2_bits b w) B i L). reflexivity.
Qed.
Theorem C38_inverse v k : 0 < k ->
  (k < 32 -> v < 2^32 -> rotr32 (rotl32 v k) k = v /\ rotl32 (rotr32 v k) k = v) /\
  (k < 64 -> v < 2^64 -> rotr64 (rotl64 v k) k = v /\ rotl64 (rotr64 v k) k = v).
Proof.
  intros K0.
  assert (G : forall w a b i, 0 < w -> i < w -> (a + b) mod w = 0 -> ((i + a) mod w + b) mod w = i).
  { intros w a b i W I E. rewrite N.add_mod_idemp_l by lia. rewrite <- N.add_assoc.
    rewrite N.add_mod, E, N.add_0_r, N.mod_mod by lia. now apply N.mod_small. }
  split; intros K V; split.
  - destruct (proj1 (C38_rotl v k K0) K V) as [L B].
    destruct (proj1 (C38_rotr (rotl32 v k) k K0) K L) as [L' B'].
    apply (bits_eq 32); [exact L'|exact V|]. intros i I. rewrite B' by exact I.
    rewrite B by (now apply N.mod_lt). rewrite G; [reflexivity|lia|exact I|].
    replace (k + (32 - k)) with 32 by lia. reflexivity.
  - destruct (proj1 (C38_rotr v k K0) K V) as [L B].
    destruct (proj1 (C38_rotl (rotr32 v k) k K0) K L) as [L' B'].
    apply (bits_eq 32); [exact L'|exact V|]. intros i I. rewrite B' by exact I.
    rewrite B by (now apply N.mod_lt). rewrite G; [reflexivity|lia|exact I|].
    replace (32 - k + k) with 32 by lia. reflexivity.
  - destruct (proj2 (C38_rotl v k K0) K V) as [L B].
    destruct (proj2 (C38_rotr (rotl64 v k) k K0) K L) as [L' B'].
    apply (bits_eq 64); [exact L'|exact V|]. intros i I. rewrite B' by exact I.
    rewrite B by (now apply N.mod_lt). rewrite G; [reflexivity|lia|exact I|].
    replace (k + (64 - k)) with 64 by lia. reflexivity.
  - destruct (proj2 (C38_rotr v k K0) K V) as [L B].
    destruct (proj2 (C38_rotl (rotr64 v k) k K0) K L) as [L' B'].
    apply (bits_eq 64); [exact L'|exact V|]. intros i I. rewrite B' by exact I.
    rewrite B by (now apply N.mod_lt). rewrite G; [reflexivity|lia|exact I|].
    replace (64 - k + k) with 64 by lia. reflexivity.
Qed.
Example C38_ex : rotl32 0x80000001 4 = 0x18 /\ rotr64 1 1 = 2^63.
Proof. now vm_compute. Qed.

(* The rotation counts of the table-driven transforms are strictly between 0 and the width. *)
Definition md5_count (i : md5_ins) : N :=
  match i with FF _ _ _ _ _ s _ | GG _ _ _ _ _ s _ | HH _ _ _ _ _ s _ | II _ _ _ _ _ s _ => s end.
Definition rmd128_count (i : rmd128_ins) : N :=
  match i with
  | JR1 _ _ _ _ _ s | JR2 _ _ _ _ _ s | JR3 _ _ _ _ _ s | JR4 _ _ _ _ _ s
  | JRR1 _ _ _ _ _ s | JRR2 _ _ _ _ _ s | JRR3 _ _ _ _ _ s | JRR4 _ _ _ _ _ s => s
  end.
Definition rmd160_count (i : rmd160_ins) : N :=
  match i with
  | KR1 _ _ _ _ _ _ s | KR2 _ _ _ _ _ _ s | KR3 _ _ _ _ _ _ s | KR4 _ _ _ _ _ _ s | KR5 _ _ _ _ _ _ s
  | KRR1 _ _ _ _ _ _ s | KRR2 _ _ _ _ _ _ s | KRR3 _ _ _ _ _ _ s | KRR4 _ _ _ _ _ _ s | KRR5 _ _ _ _ _ _ s => s
  end.
Theorem C38_table_counts :
  Forall (fun i => 0 < md5_count i < 32) md5_program /\
  Forall (fun i => 0 < rmd128_count i < 32) rmd128_program /\
  Forall (fun i => 0 < rmd160_count i < 32) rmd160_program.
Proof.
  assert (H : forall (A : Type) (f : A -> N) l, forallb (fun i => (0 <? f i) && (f i <? 32)) l = true ->
    Forall (fun i => 0 < f i < 32) l).
  { intros A f l E. apply Forall_forall. intros i I. rewrite forallb_forall in E. specialize (E i I).
    apply andb_prop in E. destruct E as [E1 E2]. apply N.ltb_lt in E1, E2. now split. }
  repeat split; apply H; vm_compute; reflexivity.
Qed.

(* ---- C24: the two code paths of memcpy, memset and memcmp ---- *)
Definition run_time (le : bool) : plat := {| p_le := le; p_cx := false |}.
Definition const_eval (le : bool) : plat := {| p_le := le; p_cx := true |}.

Lemma copy_loop_short s off k : forall i d, (i <= length s)%nat -> (off + i <= length d)%nat ->
  (length s < i + k \/ length d < off + i + k)%nat -> copy_loop d off (Ptr s) i k = UB.
Proof.
  induction k; intros i d S D H; [lia|]. cbn [copy_loop].
  destruct (nth_error s i) as [b|] eqn:E.
  - assert (i < length s)%nat by (apply nth_error_Some; congruence).
    rewrite (deref_ok _ _ _ E). cbn [bind]. unfold store.
    destruct (Nat.ltb_spec (off + i) (length d)); [|reflexivity]. cbn [bind].
    apply IHk; [lia| |]; rewrite splice_length by (cbn [length]; lia); lia.
  - apply nth_error_None in E. now rewrite deref_short by exact E.
Qed.
Lemma set_loop_short ch off k : forall i d, (off + i <= length d)%nat ->
  (length d < off + i + k)%nat -> set_loop d off ch i k = UB.
Proof.
  induction k; intros i d D H; [lia|]. cbn [set_loop]. unfold store.
  destruct (Nat.ltb_spec (off + i) (length d)); [|reflexivity]. cbn [bind].
  apply IHk; rewrite splice_length by (cbn [length]; lia); lia.
Qed.

(* Copying n > 0 bytes, from null or from any object, to any place of any array: the two paths
   have the same outcome, whether that is the new array or undefined. *)
Theorem C24_memcpy le d off s n : (0 < n)%nat -> (off <= length d)%nat ->
  memcpy (run_time le) d off s n = memcpy (const_eval le) d off s n.
Proof.
  intros N0 O. unfold memcpy, run_time, const_eval. cbn [p_cx negb].
  destruct s as [|s].
  - unfold std_memcpy. destruct n; [lia|]. cbn [copy_loop deref bind memread].
    now destruct (Nat.leb _ _).
  - unfold std_memcpy, memread.
    destruct (Nat.leb_spec (off + n) (length d)) as [D|D].
    + destruct (Nat.leb_spec n (length s)) as [S|S]; cbn [bind].
      * rewrite copy_loop_ok by lia. now rewrite Nat.add_0_r.
      * symmetry. apply copy_loop_short; lia.
    + symmetry. apply copy_loop_short; lia.
Qed.
(* With n = 0 they differ exactly for a null source: undefined at run time, nothing during
   constant evaluation. *)
Theorem C24_memcpy_0 le d off s : (off <= length d)%nat ->
  memcpy (const_eval le) d off s 0 = Ok d /\
  memcpy (run_time le) d off s 0 = match s with Null => UB | Ptr _ => Ok d end.
Proof.
  intros O. unfold memcpy, run_time, const_eval. cbn [p_cx negb copy_loop]. split; [reflexivity|].
  unfold std_memcpy. destruct (Nat.leb_spec (off + 0) (length d)); [|lia].
  destruct s; cbn [memread bind Nat.leb firstn]; [reflexivity|]. now rewrite splice_nil.
Qed.
Theorem C24_memset le d off ch n : (off <= length d)%nat ->
  memset (run_time le) d off ch n = memset (const_eval le) d off ch n.
Proof.
  intros O. unfold memset, run_time, const_eval. cbn [p_cx negb]. unfold std_memset.
  destruct (Nat.leb_spec (off + n) (length d)).
  - rewrite set_loop_ok by lia. now rewrite Nat.add_0_r.
  - symmetry. apply set_loop_short; lia.
Qed.
(* what they write: exactly the n bytes from offset off on, nothing else *)
Theorem C24_memcpy_effect pf d off s n : (off + n <= length d)%nat -> (n <= length s)%nat ->
  memcpy pf d off (Ptr s) n = Ok (firstn off d ++ firstn n s ++ skipn (off + n) d).
Proof.
  intros D S. rewrite memcpy_ok by assumption. unfold splice. now rewrite firstn_length_le by exact S.
Qed.
Theorem C24_memset_effect pf d off ch n : (off + n <= length d)%nat ->
  memset pf d off ch n = Ok (firstn off d ++ repeat ch n ++ skipn (off + n) d).
Proof. intros D. rewrite memset_ok by assumption. unfold splice. now rewrite repeat_length. Qed.

(* memcmp: the sign of the result is the same on both paths (the value itself is unspecified for
   std::memcmp) *)
Lemma cmp_loop_lex k : forall i l1 l2, (i + k <= length l1)%nat -> (i + k <= length l2)%nat ->
  exists z, cmp_loop (Ptr l1) (Ptr l2) i k = Ok z /\
    Z.sgn z = Z.sgn (lex (firstn k (skipn i l1)) (firstn k (skipn i l2))).
Proof.
  induction k; intros i l1 l2 L1 L2; cbn [cmp_loop]; [exists 0%Z; split; reflexivity|].
  destruct (nth_error l1 i) as [x|] eqn:E1; [|apply nth_error_None in E1; lia].
  destruct (nth_error l2 i) as [y|] eqn:E2; [|apply nth_error_None in E2; lia].
  rewrite (firstn_S_nth _ _ _ _ E1), (firstn_S_nth _ _ _ _ E2), (deref_ok _ _ _ E1), (deref_ok _ _ _ E2).
  cbn [bind lex]. destruct (N.eqb_spec x y) as [->|N]; cbn [negb].
  - rewrite !(proj2 (N.ltb_ge y y)) by lia. apply IHk; lia.
  - eexists; split; [reflexivity|].
    destruct (N.ltb_spec x y); [|destruct (N.ltb_spec y x)]; lia.
Qed.
Theorem C24_memcmp le l1 l2 n : (n <= length l1)%nat -> (n <= length l2)%nat ->
  exists z z', memcmp (run_time le) (Ptr l1) (Ptr l2) n = Ok z /\
    memcmp (const_eval le) (Ptr l1) (Ptr l2) n = Ok z' /\ Z.sgn z = Z.sgn z' /\
    (z = 0%Z <-> firstn n l1 = firstn n l2).
Proof.
  intros L1 L2. unfold memcmp, run_time, const_eval. cbn [p_cx negb].
  destruct (cmp_loop_lex n 0 l1 l2) as (z' & E & S); [lia|lia|].
  exists (lex (firstn n l1) (firstn n l2)), z'. cbn [skipn] in S.
  split; [|split; [exact E|split; [now rewrite S|]]].
  - unfold std_memcmp, memread. destruct (Nat.leb_spec n (length l1)); [|lia].
    destruct (Nat.leb_spec n (length l2)); [|lia]. reflexivity.
  - assert (L : length (firstn n l1) = length (firstn n l2)) by (rewrite !firstn_length_le by lia; reflexivity).
    revert L. generalize (firstn n l1) (firstn n l2). clear.
    induction l as [|x a IH]; intros [|y b] L; cbn in L; try lia; [easy|]. cbn [lex].
    destruct (N.ltb_spec x y); [split; [discriminate|intros E; injection E; intros; lia]|].
    destruct (N.ltb_spec y x); [split; [discriminate|intros E; injection E; intros; lia]|].
    assert (x = y) as -> by lia. rewrite IH by lia. split; [now intros ->|now intros [= ->]].
Qed.
(* read* and write*: every platform, both evaluation modes *)
Theorem C24_read pf pf' l v : bytes l ->
  read32le pf (Ptr l) = read32le pf' (Ptr l) /\ read64le pf (Ptr l) = read64le pf' (Ptr l) /\
  write16le pf v = write16le pf' v /\ write32le pf v = write32le pf' v /\ write64le pf v = write64le pf' v.
Proof.
  intros B. rewrite !C37_read32le, !C37_read64le by exact B.
  rewrite !write16le_ok, !write32le_ok, !write64le_ok. repeat split.
Qed.
Example C24_prims_ex :
  memcpy (run_time true) [1;2;3;4] 1 (Ptr [9;8;7]) 2 = Ok [1;9;8;4] /\
  memcpy (const_eval false) [1;2;3;4] 1 (Ptr [9;8;7]) 2 = Ok [1;9;8;4] /\
  memcmp (run_time true) (Ptr [1;2]) (Ptr [1;3]) 2 = Ok (-1)%Z.
Proof. now vm_compute. Qed.

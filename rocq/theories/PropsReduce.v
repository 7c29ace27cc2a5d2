(* C55: equal digests of different inputs are collisions of the compression function of the standard;
   update, hash_append, seeding and HMAC add no collisions of their own. *)
From Verif Require Import Base BaseFacts SpecCommon Gen Bits GenMD Hasher GenBlk Types ModelResult ModelAppend SpecAppend ProofMsg ProofMsgEq
  Behaves Instances ProofRuns Samples PropsHistory PropsAlg PropsAppend PropsResults ProofLocal ProofMurmurDistinct ProofReduce.
From Verif Require Import SpecMd5 SpecSha1 SpecRipemd SpecSha2 SpecHmac ProofSha2 ProofHmac.
Open Scope N_scope.

(* the chaining values, compression function and output transformation of the standards *)
Record core := { cr_St : Type; cr_IV : cr_St; cr_compress : cr_St -> list N -> cr_St; cr_out : cr_St -> list N }.
Definition core_of (m : md_alg) : core :=
  match m with
  | Amd5 => {| cr_IV := MD5_IV; cr_compress := MD5_compress; cr_out := MD5_out |}
  | Asha1 => {| cr_IV := SHA1_IV; cr_compress := SHA1_compress; cr_out := SHA1_out |}
  | Armd128 => {| cr_IV := RMD128_IV; cr_compress := RMD128_compress; cr_out := RMD128_out |}
  | Armd160 => {| cr_IV := RMD160_IV; cr_compress := RMD160_compress; cr_out := RMD160_out |}
  | Asha256 => {| cr_IV := IV256; cr_compress := compress F256; cr_out := fun s => firstn 32 (out F256 s) |}
  | Asha224 => {| cr_IV := IV224; cr_compress := compress F256; cr_out := fun s => firstn 28 (out F256 s) |}
  | Asha512 => {| cr_IV := IV512; cr_compress := compress F512; cr_out := fun s => firstn 64 (out F512 s) |}
  | Asha384 => {| cr_IV := IV384; cr_compress := compress F512; cr_out := fun s => firstn 48 (out F512 s) |}
  | Asha512_224 => {| cr_IV := IV512_224; cr_compress := compress F512; cr_out := fun s => firstn 28 (out F512 s) |}
  | Asha512_256 => {| cr_IV := IV512_256; cr_compress := compress F512; cr_out := fun s => firstn 32 (out F512 s) |}
  end.
(* the blocks of the padded message *)
Definition blocks (m : md_alg) (l : list N) : list (list N) := chunks (block_of m) (pad_of m l).
(* somewhere in the computation of the hashes of l1 and of l2, different (chaining value, block) pairs are compressed
   to the same chaining value *)
Definition collision (m : md_alg) (l1 l2 : list N) : Prop :=
  collide_in (cr_St (core_of m)) (cr_IV (core_of m)) (cr_compress (core_of m)) (fun s => s) (blocks m l1) (blocks m l2).
(* ... or to chaining values that agree in the bytes that make up the digest *)
Definition output_collision (m : md_alg) (l1 l2 : list N) : Prop :=
  collide_in (cr_St (core_of m)) (cr_IV (core_of m)) (cr_compress (core_of m)) (cr_out (core_of m)) (blocks m l1) (blocks m l2).
(* the whole chaining value is output *)
Definition untruncated (m : md_alg) : Prop :=
  match m with Amd5 | Asha1 | Armd128 | Armd160 | Asha256 | Asha512 => True | _ => False end.

Lemma core_dec m : forall s1 s2 : cr_St (core_of m), {s1 = s2} + {s1 <> s2}.
Proof. destruct m; cbn [core_of cr_St]; repeat (decide equality; try apply N.eq_dec). Qed.
Lemma hash_core m l : hash_of m l = cr_out (core_of m) (fold_left (cr_compress (core_of m)) (chunks (block_of m) (pad_of m l)) (cr_IV (core_of m))).
Proof.
  destruct m; cbn [hash_of core_of cr_St cr_IV cr_compress cr_out block_of pad_of];
    unfold MD5, SHA1, RIPEMD128, RIPEMD160, SHA256_64, SHA224_64, SHA512_64, SHA384_64, SHA512_224_64, SHA512_256_64; reflexivity.
Qed.
Definition lb_of (m : md_alg) : nat := match m with Asha512 | Asha384 | Asha512_224 | Asha512_256 => 16%nat | _ => 8%nat end.
Definition enc_of (m : md_alg) : N -> list N :=
  match m with
  | Amd5 | Armd128 | Armd160 => toLE 8
  | Asha1 | Asha256 | Asha224 => toBE 8
  | _ => fun b => zeros 8 ++ toBE 8 b
  end.
Lemma pad_md m l : pad_of m l = MDpad (block_of m) (lb_of m) (enc_of m) l.
Proof. destruct m; reflexivity. Qed.
Lemma toLE8_inj a b : a < 2^64 -> b < 2^64 -> toLE 8 a = toLE 8 b -> a = b.
Proof.
  intros Ha Hb E. rewrite !toLE_le_bytes in E. apply (f_equal le_val) in E. rewrite !le_val_bytes in E.
  change (256 ^ N.of_nat 8) with (2^64) in E. now rewrite !N.mod_small in E.
Qed.
Lemma toBE8_inj a b : a < 2^64 -> b < 2^64 -> toBE 8 a = toBE 8 b -> a = b.
Proof. intros Ha Hb E. unfold toBE in E. apply (f_equal (@rev N)) in E. rewrite !rev_involutive in E. now apply toLE8_inj. Qed.
Theorem C55_hash m l1 l2 : bytes l1 -> bytes l2 -> N.of_nat (length l1) < 2^61 -> N.of_nat (length l2) < 2^61 -> l1 <> l2 ->
  hash_of m l1 = hash_of m l2 -> output_collision m l1 l2.
Proof.
  intros B1 B2 L1 L2 HN E. rewrite !hash_core in E. unfold output_collision, blocks. rewrite !pad_md in *.
  assert (X : forall n, n < 2^61 -> 8 * n < 2^64) by (intros n Hn; change (2^64) with (8 * 2^61); lia).
  revert E. apply md_reduce; try assumption; try (now apply X).
  - apply core_dec.
  - destruct m; cbn; lia.
  - destruct m; cbn; lia.
  - intros n. destruct m; cbn [enc_of lb_of]; unfold toBE; rewrite ?app_length, ?rev_length, ?toLE_le_bytes, ?le_bytes_length; reflexivity.
  - intros n. destruct m; cbn [enc_of]; unfold toBE; rewrite ?bytes_app; try split; try apply bytes_rev; rewrite ?toLE_le_bytes; try apply le_bytes_bytes; repeat constructor.
  - intros a b Ha Hb. destruct m; cbn [enc_of]; intros E; try (now apply toLE8_inj); try (now apply toBE8_inj); apply app_inv_head in E; now apply toBE8_inj.
  - intros l. rewrite <- pad_md. apply pad_multiple.
Qed.
(* the output transformation is injective on words *)
Lemma toLE4_inj a b : a < 2^32 -> b < 2^32 -> toLE 4 a = toLE 4 b -> a = b.
Proof.
  intros Ha Hb E. rewrite !toLE_le_bytes in E. apply (f_equal le_val) in E. rewrite !le_val_bytes in E.
  change (256 ^ N.of_nat 4) with (2^32) in E. now rewrite !N.mod_small in E.
Qed.
Lemma toBE4_inj a b : a < 2^32 -> b < 2^32 -> toBE 4 a = toBE 4 b -> a = b.
Proof. intros Ha Hb E. unfold toBE in E. apply (f_equal (@rev N)) in E. rewrite !rev_involutive in E. now apply toLE4_inj. Qed.
Lemma words_inj {A} (k : nat) (w : A -> list N) (P : A -> Prop) : (forall a, length (w a) = k) -> (forall a b, P a -> P b -> w a = w b -> a = b) ->
  forall l1 l2, length l1 = length l2 -> Forall P l1 -> Forall P l2 -> flat_map w l1 = flat_map w l2 -> l1 = l2.
Proof.
  intros HK HI l1. induction l1 as [|a l1 IH]; intros [|b l2] HL P1 P2 E; try discriminate; [reflexivity|].
  cbn [flat_map] in E. inversion P1; inversion P2; subst. apply app_inj_len in E; [|now rewrite !HK]. destruct E as [E1 E2].
  f_equal; [now apply HI|apply IH; try assumption; now injection HL].
Qed.
Lemma toLE_length k v : length (toLE k v) = k. Proof. rewrite toLE_le_bytes. apply le_bytes_length. Qed.
Lemma toBE_length k v : length (toBE k v) = k. Proof. unfold toBE. rewrite rev_length. apply toLE_length. Qed.
Definition w4 (h : N * N * N * N) : list N := let '(a, b, c, d) := h in [a; b; c; d].
Definition w5 (h : N * N * N * N * N) : list N := let '(a, b, c, d, e) := h in [a; b; c; d; e].
Definition w8 (h : N * N * N * N * N * N * N * N) : list N := let '(a, b, c, d, e, f, g, k) := h in [a; b; c; d; e; f; g; k].
Lemma out4 h : MD5_out h = flat_map (toLE 4) (w4 h) /\ RMD128_out h = flat_map (toLE 4) (w4 h).
Proof. destruct h as [[[a b] c] d]. unfold MD5_out, RMD128_out, w4. cbn [flat_map]. now rewrite app_nil_r. Qed.
Lemma out5 h : SHA1_out h = flat_map (toBE 4) (w5 h) /\ RMD160_out h = flat_map (toLE 4) (w5 h).
Proof. destruct h as [[[[a b] c] d] e]. unfold SHA1_out, RMD160_out, w5. cbn [flat_map]. now rewrite !app_nil_r. Qed.
Lemma out8 F h : out F h = flat_map (toBE (wb F)) (w8 h).
Proof. destruct h as [[[[[[[a b] c] d] e] f] g] k]. reflexivity. Qed.
Lemma w4_inj h k : w4 h = w4 k -> h = k.
Proof. destruct h as [[[? ?] ?] ?], k as [[[? ?] ?] ?]. cbn. intros E. injection E as -> -> -> ->. reflexivity. Qed.
Lemma w5_inj h k : w5 h = w5 k -> h = k.
Proof. destruct h as [[[[? ?] ?] ?] ?], k as [[[[? ?] ?] ?] ?]. cbn. intros E. injection E as -> -> -> -> ->. reflexivity. Qed.
Lemma w8_inj h k : w8 h = w8 k -> h = k.
Proof. destruct h as [[[[[[[? ?] ?] ?] ?] ?] ?] ?], k as [[[[[[[? ?] ?] ?] ?] ?] ?] ?]. cbn. intros E. injection E as -> -> -> -> -> -> -> ->. reflexivity. Qed.
Ltac add_words := repeat (constructor; [apply ADD_lt'|]); constructor.
Lemma md5_words s b : Forall (fun a => a < 2^32) (w4 (MD5_compress s b)).
Proof. unfold MD5_compress. cbv zeta. destruct (fold_left _ _ s) as [[[x y] z] t], s as [[[a c] d] e]. cbn [w4]. add_words. Qed.
Lemma rmd128_words s b : Forall (fun a => a < 2^32) (w4 (RMD128_compress s b)).
Proof.
  unfold RMD128_compress. cbv zeta. destruct (fold_left (RMD128_left _) _ s) as [[[x y] z] t], (fold_left (RMD128_right _) _ s) as [[[x' y'] z'] t'], s as [[[a c] d] e].
  cbn [w4]. add_words.
Qed.
Lemma rmd160_words s b : Forall (fun a => a < 2^32) (w5 (RMD160_compress s b)).
Proof.
  unfold RMD160_compress. cbv zeta. destruct (fold_left (RMD160_left _) _ s) as [[[[x y] z] t] u], (fold_left (RMD160_right _) _ s) as [[[[x' y'] z'] t'] u'], s as [[[[a c] d] e] f].
  cbn [w5]. add_words.
Qed.
Lemma sha1_words s b : Forall (fun a => a < 2^32) (w5 (SHA1_compress s b)).
Proof. unfold SHA1_compress. destruct (fold_left _ _ s) as [[[[x y] z] t] u], s as [[[[a c] d] e] f]. cbn [w5]. add_words. Qed.
Lemma sha2_words F s b : Forall (fun a => a < 2 ^ w F) (w8 (compress F s b)).
Proof.
  unfold compress, compress_with. cbv zeta. destruct (fold_left _ _ s) as [[[[[[[x0 x1] x2] x3] x4] x5] x6] x7], s as [[[[[[[y0 y1] y2] y3] y4] y5] y6] y7].
  cbn [w8]. add_words.
Qed.
Lemma w4_len h : length (w4 h) = 4%nat. Proof. now destruct h as [[[? ?] ?] ?]. Qed.
Lemma w5_len h : length (w5 h) = 5%nat. Proof. now destruct h as [[[[? ?] ?] ?] ?]. Qed.
Lemma w8_len h : length (w8 h) = 8%nat. Proof. now destruct h as [[[[[[[? ?] ?] ?] ?] ?] ?] ?]. Qed.
Lemma flat_length {A} (k : nat) (f : A -> list N) l : (forall a, length (f a) = k) -> length (flat_map f l) = (length l * k)%nat.
Proof. intros H. induction l as [|a l IH]; [reflexivity|]. cbn [flat_map length]. rewrite app_length, IH, H. lia. Qed.
Lemma sha2_out_inj F n s1 b1 s2 b2 : (n = 8 * wb F)%nat ->
  (forall a b, a < 2 ^ w F -> b < 2 ^ w F -> toBE (wb F) a = toBE (wb F) b -> a = b) ->
  firstn n (out F (compress F s1 b1)) = firstn n (out F (compress F s2 b2)) -> compress F s1 b1 = compress F s2 b2.
Proof.
  intros -> HI E. rewrite !out8 in E. rewrite !firstn_all2 in E by (rewrite (flat_length (wb F)) by (intros; apply toBE_length); rewrite w8_len; lia).
  apply w8_inj. revert E. apply (words_inj (wb F) (toBE (wb F)) (fun a => a < 2 ^ w F)); [intros; apply toBE_length|exact HI|now rewrite !w8_len|apply sha2_words|apply sha2_words].
Qed.
Lemma out_inj m : untruncated m -> forall s1 b1 s2 b2,
  cr_out (core_of m) (cr_compress (core_of m) s1 b1) = cr_out (core_of m) (cr_compress (core_of m) s2 b2) ->
  cr_compress (core_of m) s1 b1 = cr_compress (core_of m) s2 b2.
Proof.
  intros HU s1 b1 s2 b2. destruct m; try contradiction; cbn [core_of cr_out cr_compress cr_St] in *.
  - rewrite !(proj1 (out4 _)). intros E. apply w4_inj. revert E.
    apply (words_inj 4 (toLE 4) (fun a => a < 2^32)); [intros; apply toLE_length|exact toLE4_inj|now rewrite !w4_len|apply md5_words|apply md5_words].
  - rewrite !(proj1 (out5 _)). intros E. apply w5_inj. revert E.
    apply (words_inj 4 (toBE 4) (fun a => a < 2^32)); [intros; apply toBE_length|exact toBE4_inj|now rewrite !w5_len|apply sha1_words|apply sha1_words].
  - rewrite !(proj2 (out4 _)). intros E. apply w4_inj. revert E.
    apply (words_inj 4 (toLE 4) (fun a => a < 2^32)); [intros; apply toLE_length|exact toLE4_inj|now rewrite !w4_len|apply rmd128_words|apply rmd128_words].
  - rewrite !(proj2 (out5 _)). intros E. apply w5_inj. revert E.
    apply (words_inj 4 (toLE 4) (fun a => a < 2^32)); [intros; apply toLE_length|exact toLE4_inj|now rewrite !w5_len|apply rmd160_words|apply rmd160_words].
  - apply sha2_out_inj; [reflexivity|exact toBE4_inj].
  - apply sha2_out_inj; [reflexivity|exact toBE8_inj].
Qed.
Lemma collides_untruncated m l1 l2 : untruncated m -> output_collision m l1 l2 -> collision m l1 l2.
Proof. intros HU. apply collide_full, (out_inj m HU). Qed.

(* ---------- the library's classes ---------- *)
Lemma MDpad_length B lb enc l : (0 < B)%nat -> (forall n, length (enc n) = lb) -> (length (MDpad B lb enc l) <= length l + 1 + B + lb)%nat.
Proof.
  intros HB HE. unfold MDpad. rewrite !app_length, repeat_length, HE. cbn [length].
  pose proof (Nat.mod_upper_bound (2 * B - 1 - lb - length l mod B) B ltac:(lia)). lia.
Qed.
Lemma pad_length m l : (length (pad_of m l) <= length l + 145)%nat.
Proof.
  rewrite pad_md. etransitivity; [apply MDpad_length|].
  - destruct m; cbn; lia.
  - intros n. destruct m; cbn [enc_of lb_of]; rewrite ?app_length, ?toBE_length, ?toLE_length; reflexivity.
  - destruct m; cbn; lia.
Qed.
Lemma pad_bytes' m l : bytes l -> bytes (pad_of m l).
Proof.
  intros Hl. rewrite pad_md. unfold MDpad. rewrite !bytes_app. split; [exact Hl|]. split; [repeat constructor|]. split.
  - apply Forall_forall. intros x Hx. apply repeat_spec in Hx. subst. reflexivity.
  - destruct m; cbn [enc_of]; unfold toBE; rewrite ?bytes_app; try split; try apply bytes_rev; rewrite ?toLE_le_bytes; try apply le_bytes_bytes; repeat constructor.
Qed.
(* the number of bytes of a seed *)
Definition seed_bytes (c : ctor) : nat := match c with CDefault => 0 | CSeed _ => 8 | CBytes _ n => n end.
Lemma vstart_facts m c : valid_ctor c -> bytes (vstart (pad_of m) c) /\ (length (vstart (pad_of m) c) <= seed_bytes c + 145)%nat.
Proof.
  intros HC. destruct c as [|n|p n]; cbn [vstart seed_bytes].
  - split; [constructor|cbn; lia].
  - destruct (n =? 0); [split; [constructor|cbn; lia]|]. split; [apply pad_bytes', le_bytes_bytes|]. etransitivity; [apply pad_length|]. now rewrite le_bytes_length.
  - cbn [valid_ctor] in HC. pose proof (valid_data _ _ _ HC) as [Hb Hl]. destruct (Nat.eqb n 0); [split; [constructor|cbn; lia]|].
    split; [now apply pad_bytes'|]. etransitivity; [apply pad_length|]. now rewrite Hl.
Qed.
Lemma hmac_pad_facts m c x : valid_ctor c -> x < 256 ->
  bytes (map (N.lxor x) (HMAC_key (block_of m) (hash_of m) (hkey c))) /\ length (map (N.lxor x) (HMAC_key (block_of m) (hash_of m) (hkey c))) = block_of m.
Proof.
  intros HC Hx. rewrite map_length, (ProofHmacInst.HMAC_key_len (block_of m) (hash_of m) (size_of_md m)); [|destruct m; cbn; lia|apply hash_length]. split; [|reflexivity].
  assert (HK : bytes (hkey c)).
  { destruct c as [|n|p n]; cbn [hkey]; [constructor|destruct (n =? 0); [constructor|rewrite toLE_le_bytes; apply le_bytes_bytes]|]. cbn [valid_ctor] in HC. now apply (valid_data _ _ _ HC). }
  assert (HB : bytes (HMAC_key (block_of m) (hash_of m) (hkey c))).
  { unfold HMAC_key. apply bytes_app. split; [destruct (Nat.leb _ _); [exact HK|apply hash_bytes]|]. apply Forall_forall. intros y Hy. apply repeat_spec in Hy. now subst. }
  apply Forall_map. eapply Forall_impl; [|exact HB]. intros b Hb. cbn beta in Hb |- *. change 256 with (2^8) in *. now apply lxor_lt.
Qed.
Definition based_on (a : alg) (m : md_alg) : Prop := a = Amd m \/ a = Ahmac m.
(* The messages hashed to compute the digest of d with a hash object made by c: the seed (with its padding) and d;
   for hmac those of the inner and of the outer hash *)
Definition hashed (a : alg) (m : md_alg) (c : ctor) (d : list N) : list (list N) :=
  match a with
  | Ahmac _ => let inner := HMAC_ikey (block_of m) (hash_of m) (hkey c) ++ d in
               [inner; HMAC_okey (block_of m) (hash_of m) (hkey c) ++ hash_of m inner]
  | _ => [vstart (pad_of m) c ++ d]
  end.
(* hashing d1 with one object and d2 with the other exhibits a collision of the compression function *)
Definition exhibits (m : md_alg) (ms1 ms2 : list (list N)) : Prop :=
  exists k l1 l2, nth_error ms1 k = Some l1 /\ nth_error ms2 k = Some l2 /\
    output_collision m l1 l2 /\ (untruncated m -> collision m l1 l2).
Lemma exhibits_at m ms1 ms2 k l1 l2 : nth_error ms1 k = Some l1 -> nth_error ms2 k = Some l2 -> output_collision m l1 l2 -> exhibits m ms1 ms2.
Proof. intros H1 H2 G. exists k, l1, l2. repeat (split; [assumption|]). intros HU. now apply collides_untruncated. Qed.
Lemma exhibits_0 m x y t1 t2 : output_collision m x y -> exhibits m (x :: t1) (y :: t2).
Proof. exact (exhibits_at m (x :: t1) (y :: t2) 0 x y eq_refl eq_refl). Qed.
Lemma exhibits_1 m u v x y t1 t2 : output_collision m x y -> exhibits m (u :: x :: t1) (v :: y :: t2).
Proof. exact (exhibits_at m (u :: x :: t1) (v :: y :: t2) 1 x y eq_refl eq_refl). Qed.
Theorem C55_messages e a m f c cs1 cs2 : based_on a m -> valid_env e -> valid_ctor c -> valid_pieces a cs1 -> valid_pieces a cs2 ->
  N.of_nat (seed_bytes c) + N.of_nat (length (fed cs1)) < 2^60 -> N.of_nat (seed_bytes c) + N.of_nat (length (fed cs2)) < 2^60 ->
  fed cs1 <> fed cs2 -> runs e a f c (hash_pieces cs1) = runs e a f c (hash_pieces cs2) ->
  exhibits m (hashed a m c (fed cs1)) (hashed a m c (fed cs2)).
Proof.
  intros HA HE HC V1 V2 L1 L2 HN E.
  pose proof (pieces_bytes _ _ V1) as B1. pose proof (pieces_bytes _ _ V2) as B2.
  rewrite !first_result' in E by (assumption || (destruct HA as [-> | ->]; discriminate)).
  assert (Q : forall A (x y : A), Ok [x] = Ok [y] -> x = y) by (intros A x y X; now injection X). apply Q in E. clear Q.
  assert (QD : forall x y, RDigest x = RDigest y -> x = y) by (intros x y X; now injection X).
  destruct HA as [-> | ->]; cbn [machine_of md_machine hmac_machine mc_start mc_ar mc_au fst snd] in E; apply QD in E; clear QD; cbn [hashed].
  - destruct (vstart_facts m c HC) as [BV LV]. apply exhibits_0. revert E.
    apply C55_hash; rewrite ?bytes_app, ?app_length; try tauto; try lia.
    intros X. now apply app_inv_head in X.
  - destruct (hmac_pad_facts m c 0x36 HC eq_refl) as [BI LI]. destruct (hmac_pad_facts m c 0x5C HC eq_refl) as [BO LO].
    fold (HMAC_ikey (block_of m) (hash_of m) (hkey c)) in BI, LI. fold (HMAC_okey (block_of m) (hash_of m) (hkey c)) in BO, LO.
    cbv zeta. revert E. generalize dependent (HMAC_ikey (block_of m) (hash_of m) (hkey c)). generalize dependent (HMAC_okey (block_of m) (hash_of m) (hkey c)). intros ok BO LO ik BI LI E.
    assert (LB : (block_of m <= 128)%nat) by (destruct m; cbn; lia). assert (LH : (size_of_md m <= 64)%nat) by (destruct m; cbn; lia).
    destruct (list_eq_dec N.eq_dec (hash_of m (ik ++ fed cs1)) (hash_of m (ik ++ fed cs2))) as [EI|NI].
    + apply exhibits_0. revert EI.
      apply C55_hash; rewrite ?bytes_app, ?app_length; try tauto; try lia. intros X. now apply app_inv_head in X.
    + apply exhibits_1. revert E.
      apply C55_hash; rewrite ?bytes_app, ?app_length, ?hash_length; try (split; [exact BO|apply hash_bytes]); try lia.
      intros X. now apply app_inv_head in X.
Qed.
(* different values hashed with hash_append *)
Theorem C55_values e a m f c t v1 v2 q : based_on a m -> valid_env e -> decodable t ->
  valid_program e a c [SAppend t v1; SResult] -> valid_program e a c [SAppend t v2; SResult] ->
  regular (fl_size f) t v1 -> regular (fl_size f) t v2 ->
  N.of_nat (seed_bytes c) + N.of_nat (length (message (e_impl e) f t v1 q)) < 2^60 ->
  N.of_nat (seed_bytes c) + N.of_nat (length (message (e_impl e) f t v2 q)) < 2^60 ->
  ~ equal t v1 v2 -> runs e a f c [SAppend t v1; SResult] = runs e a f c [SAppend t v2; SResult] ->
  exhibits m (hashed a m c (message (e_impl e) f t v1 q)) (hashed a m c (message (e_impl e) f t v2 q)).
Proof.
  intros HA HE HD V1 V2 R1 R2 L1 L2 HN E. pose proof (decodable_ordered t HD) as HO.
  assert (HR : forall xs, room e a c xs) by (intros xs; unfold room, roomy; destruct HA as [-> | ->]; exact I).
  destruct (append_feeds_ordered e a f c [] t v1 [SResult] q HE HO V1 (HR _)) as (rs1 & E1 & F1).
  destruct (append_feeds_ordered e a f c [] t v2 [SResult] q HE HO V2 (HR _)) as (rs2 & E2 & F2).
  cbn [app] in E1, E2, F1, F2. rewrite E1, E2 in E.
  assert (FD : forall l, fed [(Ptr l, length l)] = l) by (intros l; cbn; now rewrite app_nil_r, firstn_all).
  assert (VP : forall v, valid_pieces a [(Ptr (message (e_impl e) f t v q), length (message (e_impl e) f t v q))]).
  { intros v. constructor; [|constructor]. split; [cbn; lia|]. cbn. apply msg_bytes. }
  destruct V1 as [HC V1], V2 as [_ V2].
  assert (T1 : has_type (im_psz (e_impl e)) t v1) by (inversion V1 as [|? ? X _]; exact (proj1 X)).
  assert (T2 : has_type (im_psz (e_impl e)) t v2) by (inversion V2 as [|? ? X _]; exact (proj1 X)).
  rewrite <- (FD (message (e_impl e) f t v1 q)), <- (FD (message (e_impl e) f t v2 q)).
  apply (C55_messages e a m f c _ _ HA HE HC (VP v1) (VP v2)); rewrite ?FD; try assumption.
  - intros X. apply HN. now apply (C28_parse (e_impl e) f t v1 v2 [] [] q q).
  - change (runs e a f c [feed (message (e_impl e) f t v1 q); SResult] = runs e a f c [feed (message (e_impl e) f t v2 q); SResult]). congruence.
Qed.

(* ---------- concrete case: the MD5 collision of Wang et al. (2004) ---------- *)
From Verif Require Import PropsFlood.
Definition wang1 : list N := toBE 128 0xd131dd02c5e6eec4693d9a0698aff95c2fcab58712467eab4004583eb8fb7f8955ad340609f4b30283e488832571415a085125e8f7cdc99fd91dbdf280373c5bd8823e3156348f5bae6dacd436c919c6dd53e2b487da03fd02396306d248cda0e99f33420f577ee8ce54b67080a80d1ec69821bcb6a8839396f9652b6ff72a70.
Definition wang2 : list N := toBE 128 0xd131dd02c5e6eec4693d9a0698aff95c2fcab50712467eab4004583eb8fb7f8955ad340609f4b30283e4888325f1415a085125e8f7cdc99fd91dbd7280373c5bd8823e3156348f5bae6dacd436c919c6dd53e23487da03fd02396306d248cda0e99f33420f577ee8ce54b67080280d1ec69821bcb6a8839396f965ab6ff72a70.
Lemma wang_distinct : wang1 <> wang2.
Proof. intros E. apply (f_equal BE) in E. revert E. vm_compute. discriminate. Qed.
Lemma wang_bytes : bytes wang1 /\ bytes wang2.
Proof. split; unfold wang1, wang2, toBE; apply bytes_rev; rewrite toLE_le_bytes; apply le_bytes_bytes. Qed.
Example C55_messages_ex : runs env_pc (Amd Amd5) le_flavor CDefault (hash_pieces [(Ptr wang1, 128%nat)]) =
  Ok [RDigest (toBE 16 0x79054025255fb1a26e4bc422aef54eb4)] /\ collision Amd5 wang1 wang2.
Proof.
  assert (V : forall l, bytes l -> length l = 128%nat -> valid_pieces (Amd Amd5) [(Ptr l, 128%nat)]).
  { intros l Hb Hl. constructor; [|constructor]. split; [cbn; lia|exact Hb]. }
  assert (F : forall l : list N, length l = 128%nat -> fed [(Ptr l, 128%nat)] = l) by (intros l Hl; unfold fed; cbn [map concat fst snd data]; rewrite app_nil_r; apply firstn_all2; lia).
  destruct wang_bytes as [W1 W2]. assert (L1 : length wang1 = 128%nat) by (unfold wang1; apply toBE_length). assert (L2 : length wang2 = 128%nat) by (unfold wang2; apply toBE_length).
  assert (R1 : runs env_pc (Amd Amd5) le_flavor CDefault (hash_pieces [(Ptr wang1, 128%nat)]) = Ok [RDigest (toBE 16 0x79054025255fb1a26e4bc422aef54eb4)]).
  { rewrite (C02_md5 env_pc le_flavor _ env_pc_valid (V _ W1 L1)), (F _ L1). vm_compute. reflexivity. }
  assert (R2 : runs env_pc (Amd Amd5) le_flavor CDefault (hash_pieces [(Ptr wang2, 128%nat)]) = Ok [RDigest (toBE 16 0x79054025255fb1a26e4bc422aef54eb4)]).
  { rewrite (C02_md5 env_pc le_flavor _ env_pc_valid (V _ W2 L2)), (F _ L2). vm_compute. reflexivity. }
  split; [exact R1|].
  assert (LT : N.of_nat (seed_bytes CDefault) + N.of_nat 128 < 2^60) by reflexivity.
  assert (X : exhibits Amd5 [wang1] [wang2]).
  { pose proof (C55_messages env_pc (Amd Amd5) Amd5 le_flavor CDefault [(Ptr wang1, 128%nat)] [(Ptr wang2, 128%nat)]
      (or_introl eq_refl) env_pc_valid I (V _ W1 L1) (V _ W2 L2)) as X. rewrite (F _ L1), (F _ L2), L1, L2 in X.
    exact (X LT LT wang_distinct (eq_trans R1 (eq_sym R2))). }
  destruct X as ([|[|k]] & l1 & l2 & H1 & H2 & _ & HC); [|discriminate|discriminate].
  cbn [nth_error] in H1, H2. assert (Q : forall x y : list N, Some x = Some y -> x = y) by (intros x y X; now injection X).
  apply Q in H1, H2. rewrite H1, H2. exact (HC I).
Qed.
(* two different std::vector<unsigned char> with the same md5_128 *)
Example C55_values_ex : byte_vector wang1 <> byte_vector wang2 /\
  runs env_pc (Amd Amd5) le_flavor CDefault [SAppend (TVec (TInt I8 false)) (byte_vector wang1); SResult] =
  runs env_pc (Amd Amd5) le_flavor CDefault [SAppend (TVec (TInt I8 false)) (byte_vector wang2); SResult].
Proof. split; [vm_compute; discriminate|]. vm_compute. reflexivity. Qed.

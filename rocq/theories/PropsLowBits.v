(* C82: fnv1a: the low k bits of a result depend only on the low k bits of each byte of the message; the low 8 bits are perfectly balanced in each byte. *)
From Coq Require Import ZArith Permutation.
From Verif Require Import Base BaseFacts SpecCommon Gen Bits GenMD Hasher GenBlk Types ModelResult ModelAppend SpecAppend ProofMsg ProofMsgEq
  Behaves Instances ProofRuns Samples PropsHistory PropsAlg PropsAppend PropsSeeds PropsPrims ProofLocal ProofMurmurDistinct PropsLong
  PropsLocal PropsLocal64 PropsLocalKeys PropsAnywhere PropsLocalHistory PropsFlood PropsEven PropsIntegral ModelExamples PropsObjects ProofTails PropsTails.
From Verif Require Import ProofMsgExt SpecFnv ProofFnv ProofFnvPeriod ProofSpooky.
Open Scope N_scope.

(* the index of the bucket in a table of 2^k buckets: result() & ( 2^k - 1 ) *)
Definition low (k : N) (r : result) : N := match r with RInt _ z => z mod 2^k | RDigest _ => 0 end.
Definition fnv_width (a : alg) : N := match a with Afnv32 => 32 | Afnv64 => 64 | _ => 0 end.
Definition is_fnv (a : alg) : Prop := match a with Afnv32 | Afnv64 => True | _ => False end.
(* sequences of bytes of the same length whose bytes have the same low k bits *)
Definition alike (k : N) (l1 l2 : list N) : Prop := Forall2 (fun b1 b2 => b1 mod 2^k = b2 mod 2^k) l1 l2.
(* calls that append such sequences, whatever the object *)
Definition alike_step (k : N) (i : impl) (f : flavor) (x y : ustep) : Prop :=
  match x, y with
  | SUpdate p1 n1, SUpdate p2 n2 => alike k (data p1 n1) (data p2 n2)
  | SResult, SResult => True
  | SCall c1, SCall c2 => forall q1 q2, alike k (call_message i f c1 q1) (call_message i f c2 q2)
  | _, _ => False
  end.
(* after the steps xs, the steps ys1 and ys2 give one result each, and the low k bits of the two are different *)
Definition low_apart (k : N) (e : env) (a : alg) (f : flavor) (c : ctor) (xs ys1 ys2 : list ustep) : Prop :=
  exists rs r1 r2, length rs = results_in xs /\ runs e a f c (xs ++ ys1) = Ok (rs ++ [r1]) /\ runs e a f c (xs ++ ys2) = Ok (rs ++ [r2]) /\ low k r1 <> low k r2.

(* ---------- one octet ---------- *)
Lemma lxor_low k a b : N.lxor a b mod 2^k = N.lxor (a mod 2^k) (b mod 2^k).
Proof.
  rewrite <- !N.land_ones. apply N.bits_inj. intros i. rewrite N.lxor_spec, !N.land_spec, N.lxor_spec.
  now destruct (N.testbit a i), (N.testbit b i), (N.testbit (N.ones k) i).
Qed.
Lemma pow_split k w : k <= w -> 2^w = 2^k * 2^(w - k).
Proof. intros H. rewrite <- N.pow_add_r. f_equal. lia. Qed.
Lemma mod_low k w x : k <= w -> (x mod 2^w) mod 2^k = x mod 2^k.
Proof.
  intros H. assert (NZ : forall n, 2^n <> 0) by (intros n; now apply N.pow_nonzero).
  rewrite (pow_split k w H). rewrite N.mod_mul_r by apply NZ. rewrite N.mul_comm, N.mod_add by apply NZ. apply N.mod_mod, NZ.
Qed.
Lemma octet_low F k s b : k <= fnv_w F -> FNV1a_octet F s b mod 2^k = (N.lxor (s mod 2^k) (b mod 2^k) * fnv_prime F) mod 2^k.
Proof.
  intros H. unfold FNV1a_octet, MUL. rewrite mod_low by exact H. rewrite <- lxor_low. symmetry. apply N.mul_mod_idemp_l. now apply N.pow_nonzero.
Qed.
Lemma octets_low F k l1 l2 : k <= fnv_w F -> alike k l1 l2 -> forall s1 s2, s1 mod 2^k = s2 mod 2^k ->
  fold_left (FNV1a_octet F) l1 s1 mod 2^k = fold_left (FNV1a_octet F) l2 s2 mod 2^k.
Proof.
  intros H HA. induction HA as [|b1 b2 l1 l2 HB HA IH]; intros s1 s2 HS; [exact HS|]. cbn [fold_left]. apply IH. rewrite !octet_low by exact H. now rewrite HS, HB.
Qed.
Lemma octet_low_inj F inv k s1 s2 b1 b2 : k <= fnv_w F -> (fnv_prime F * inv) mod 2^fnv_w F = 1 mod 2^fnv_w F ->
  FNV1a_octet F s1 b1 mod 2^k = FNV1a_octet F s2 b2 mod 2^k -> N.lxor (s1 mod 2^k) (b1 mod 2^k) = N.lxor (s2 mod 2^k) (b2 mod 2^k).
Proof.
  intros H HI E. rewrite !octet_low in E by exact H. assert (NZ : 2^k <> 0) by now apply N.pow_nonzero.
  apply (mul_inj k (fnv_prime F) inv) in E.
  - exact E.
  - rewrite <- (mod_low k (fnv_w F)), HI by exact H. now apply mod_low.
  - rewrite <- lxor_low. now apply N.mod_lt.
  - rewrite <- lxor_low. now apply N.mod_lt.
Qed.
Lemma octets_low_inj F inv k l1 l2 : k <= fnv_w F -> (fnv_prime F * inv) mod 2^fnv_w F = 1 mod 2^fnv_w F -> alike k l1 l2 -> forall s1 s2,
  fold_left (FNV1a_octet F) l1 s1 mod 2^k = fold_left (FNV1a_octet F) l2 s2 mod 2^k -> s1 mod 2^k = s2 mod 2^k.
Proof.
  intros H HI HA. induction HA as [|b1 b2 l1 l2 HB HA IH]; intros s1 s2 E; [exact E|]. cbn [fold_left] in E. apply IH in E.
  apply (octet_low_inj F inv) in E; try assumption. rewrite HB in E. now apply lxor_inj_r in E.
Qed.
Lemma one_octet F inv k u1 u2 b1 b2 w1 w2 s : k <= fnv_w F -> (fnv_prime F * inv) mod 2^fnv_w F = 1 mod 2^fnv_w F -> alike k u1 u2 -> alike k w1 w2 ->
  fold_left (FNV1a_octet F) (u1 ++ b1 :: w1) s mod 2^k = fold_left (FNV1a_octet F) (u2 ++ b2 :: w2) s mod 2^k -> b1 mod 2^k = b2 mod 2^k.
Proof.
  intros H HI HU HW E. rewrite !fold_left_app in E. cbn [fold_left] in E. apply (octets_low_inj F inv) in E; try assumption.
  apply (octet_low_inj F inv) in E; try assumption. pose proof (octets_low F k u1 u2 H HU s s eq_refl) as E2. rewrite E2 in E. now apply lxor_inj_l in E.
Qed.

(* ---------- whole programs ---------- *)
Lemma low_runs F s k i f xs ys : k <= fnv_w F -> Forall2 (alike_step k i f) xs ys -> forall l1 l2, FNV1a F l1 mod 2^k = FNV1a F l2 mod 2^k ->
  Forall2 (fun r1 r2 => low k r1 = low k r2)
    (aprun (mc_au (fnv_machine F s)) (mc_ar (fnv_machine F s)) result64 (call_message i f) l1 xs)
    (aprun (mc_au (fnv_machine F s)) (mc_ar (fnv_machine F s)) result64 (call_message i f) l2 ys).
Proof.
  intros H HX.
  assert (U : forall d1 d2, alike k d1 d2 -> forall l1 l2, FNV1a F l1 mod 2^k = FNV1a F l2 mod 2^k -> FNV1a F (l1 ++ d1) mod 2^k = FNV1a F (l2 ++ d2) mod 2^k).
  { intros d1 d2 HD l1 l2 E. rewrite <- !fnv_app. now apply octets_low. }
  induction HX as [|x y xs ys HS HX IH]; intros l1 l2 E; [constructor|].
  destruct x as [p1 n1| |c1], y as [p2 n2| |c2]; cbn [alike_step] in HS; try contradiction; cbn [aprun fnv_machine mc_au mc_ar].
  - apply IH. now apply U.
  - constructor; [exact E|]. apply IH. cbn [snd]. unfold fnv_pad. apply U; [|exact E]. constructor; [reflexivity|constructor].
  - apply IH. apply U; [apply HS|exact E].
Qed.
Theorem C82_low e a f c k xs ys : valid_env e -> is_fnv a -> k <= fnv_width a -> valid_program e a c xs -> valid_program e a c ys -> Forall2 (alike_step k (e_impl e) f) xs ys ->
  exists rs1 rs2, runs e a f c xs = Ok rs1 /\ runs e a f c ys = Ok rs2 /\ Forall2 (fun r1 r2 => low k r1 = low k r2) rs1 rs2.
Proof.
  intros HE HA HK V1 V2 HX. exists (expected e a f c xs), (expected e a f c ys).
  rewrite !runs_expected by (try assumption; destruct a; try contradiction; exact I). split; [reflexivity|]. split; [reflexivity|].
  unfold expected. destruct a; try contradiction; apply low_runs; try assumption; reflexivity.
Qed.

(* after a common history *)
Theorem C82_after e a f c k xs ys1 ys2 : valid_env e -> is_fnv a -> k <= fnv_width a -> valid_program e a c (xs ++ ys1) -> valid_program e a c (xs ++ ys2) ->
  Forall2 (alike_step k (e_impl e) f) ys1 ys2 ->
  exists rs ts1 ts2, length rs = results_in xs /\ runs e a f c (xs ++ ys1) = Ok (rs ++ ts1) /\ runs e a f c (xs ++ ys2) = Ok (rs ++ ts2) /\ Forall2 (fun r1 r2 => low k r1 = low k r2) ts1 ts2.
Proof.
  intros HE HA HK V1 V2 HX. exists (expected e a f c xs). do 2 eexists. split; [unfold expected; apply aprun_length|].
  rewrite !runs_expected by (try assumption; destruct a; try contradiction; exact I). unfold expected. rewrite !aprun_app. split; [reflexivity|]. split; [reflexivity|].
  destruct a; try contradiction; apply low_runs; try assumption; reflexivity.
Qed.

(* ---------- one byte ---------- *)
Theorem C82_byte e a f c k xs cs1 cs2 u1 b1 w1 u2 b2 w2 : valid_env e -> is_fnv a -> k <= fnv_width a -> valid_program e a c xs -> valid_pieces a cs1 -> valid_pieces a cs2 ->
  fed cs1 = u1 ++ b1 :: w1 -> fed cs2 = u2 ++ b2 :: w2 -> alike k u1 u2 -> alike k w1 w2 -> b1 mod 2^k <> b2 mod 2^k ->
  low_apart k e a f c xs (hash_pieces cs1) (hash_pieces cs2).
Proof.
  intros HE HA HK HV V1 V2 E1 E2 HU HW HN. assert (A0 : a <> Aspooky) by (intros ->; exact HA).
  exists (expected e a f c xs). do 2 eexists. split; [unfold expected; apply aprun_length|].
  rewrite !(runs_expected e a f c _ HE) by (try apply pieces_after; try apply room_any; assumption). rewrite !after_expected. split; [reflexivity|]. split; [reflexivity|].
  generalize (state e a f c xs). rewrite E1, E2. intros pre X. apply HN. clear HV V1 V2.
  destruct a; try contradiction; cbn [machine_of fnv_machine mc_start mc_ar mc_au mc_A fst low] in pre, X; unfold FNV1a, FNV1a_from in X; rewrite !(fold_left_app _ pre) in X; revert X.
  - apply (one_octet FNV32 0x359c449b); try assumption; reflexivity.
  - apply (one_octet FNV64 0xce965057aff6957b); try assumption; reflexivity.
Qed.
(* exactly one value of any byte of a message gives any low 8 bits *)
Theorem C82_even e a f c xs u w t : valid_env e -> is_fnv a -> valid_program e a c xs -> bytes u -> bytes w -> t < 256 ->
  exists! b, b < 256 /\ exists rs r, length rs = results_in xs /\
    runs e a f c (xs ++ [SUpdate (Ptr (u ++ b :: w)) (length (u ++ b :: w)); SResult]) = Ok (rs ++ [r]) /\ low 8 r = t.
Proof.
  intros HE HA HV HU HW Ht. assert (A0 : a <> Aspooky) by (intros ->; exact HA).
  assert (BY : forall b, b < 256 -> bytes (u ++ b :: w)) by (intros b Hb; apply bytes_app; split; [exact HU|constructor; assumption]).
  assert (VP : forall b, b < 256 -> valid_pieces a [(Ptr (u ++ b :: w), length (u ++ b :: w))]) by (intros b Hb; constructor; [split; [apply le_n|now apply BY]|constructor]).
  set (r b := fst (mc_ar (machine_of (e_cw e) a) (mc_au (machine_of (e_cw e) a) (state e a f c xs) (u ++ b :: w)))).
  assert (RU : forall b, b < 256 -> runs e a f c (xs ++ [SUpdate (Ptr (u ++ b :: w)) (length (u ++ b :: w)); SResult]) = Ok (expected e a f c xs ++ [r b])).
  { intros b Hb. change [SUpdate (Ptr (u ++ b :: w)) (length (u ++ b :: w)); SResult] with (hash_pieces [(Ptr (u ++ b :: w), length (u ++ b :: w))]).
    rewrite (runs_expected e a f c _ HE) by (try apply pieces_after; try apply room_any; try apply VP; assumption). rewrite after_expected. unfold r.
    unfold fed. cbn [map concat data fst snd]. now rewrite app_nil_r, firstn_all. }
  assert (LX : length (expected e a f c xs) = results_in xs) by (unfold expected; apply aprun_length).
  assert (RL : forall b, b < 256 -> low 8 (r b) < 256) by (intros b Hb; destruct a; try contradiction; apply N.mod_lt; discriminate).
  assert (RI : forall b1 b2, b1 < 256 -> b2 < 256 -> low 8 (r b1) = low 8 (r b2) -> b1 = b2).
  { intros b1 b2 H1 H2. rewrite <- (N.mod_small b1 256), <- (N.mod_small b2 256) by assumption. change 256 with (2^8).
    assert (AL : forall l, alike 8 l l) by (intros l; induction l; constructor; [reflexivity|assumption]).
    rewrite !N.mod_small by assumption. intros X. rewrite <- (N.mod_small b1 (2^8)), <- (N.mod_small b2 (2^8)) by assumption.
    revert X. unfold r. generalize (state e a f c xs). clear r RU RL.
    destruct a; try contradiction; cbn [machine_of fnv_machine mc_start mc_ar mc_au mc_A fst low]; intros pre; unfold FNV1a, FNV1a_from; rewrite !(fold_left_app _ pre).
    - apply (one_octet FNV32 0x359c449b); try apply AL; easy.
    - apply (one_octet FNV64 0xce965057aff6957b); try apply AL; easy. }
  destruct (onto_of_inj 256 (fun b => low 8 (r b)) RL RI t Ht) as (b & Hb & E). exists b. split.
  - split; [exact Hb|]. exists (expected e a f c xs), (r b). split; [exact LX|]. split; [now apply RU|exact E].
  - intros b' [Hb' (rs & r' & L & R & E')]. rewrite RU in R by exact Hb'. injection R as R. apply app_inj_tail in R. destruct R as [_ <-]. apply RI; try assumption. now rewrite E, E'.
Qed.

(* ---------- strings ---------- *)
Definition ascii (l : list N) : Prop := Forall (fun b => b < 128) l.
(* two strings of ASCII characters that differ only in the case of letters *)
Definition same_but_case (l1 l2 : list N) : Prop :=
  Forall2 (fun b1 b2 => b1 = b2 \/ (65 <= b1 <= 90 /\ b2 = b1 + 32) \/ (65 <= b2 <= 90 /\ b1 = b2 + 32)) l1 l2.
(* std::string, where char is signed (or std::vector<signed char>, ...) or not *)
Definition string_type (sg : bool) : ty := TVec (TInt I8 sg).
Lemma ascii_key e a c xs sg l : nul_of a = true -> valid_program e a c xs -> ascii l -> valid_program e a c (xs ++ [SAppend (string_type sg) (byte_vector l); SResult]).
Proof.
  intros HN [HC HX] Hb. split; [exact HC|]. apply Forall_app. split; [exact HX|]. constructor; [|constructor; [exact I|constructor]]. split.
  - cbn. apply Forall_map. eapply Forall_impl; [|exact Hb]. intros b H. cbn beta in H |- *. unfold in_int. destruct sg; cbn; lia.
  - intros _. now left.
Qed.
Lemma string_message i f sg l q : bytes l -> message i f (string_type sg) (byte_vector l) q = l ++ int_bytes f (fl_size f) (Z.of_nat (length l)).
Proof. intros Hb. rewrite <- (byte_message i f l q Hb). reflexivity. Qed.
Lemma ascii_bytes l : ascii l -> bytes l.
Proof. intros H. eapply Forall_impl; [|exact H]. intros b Hb. cbn beta in Hb |- *. lia. Qed.
(* the same bucket of any table of at most 32 buckets (whose number is a power of two) *)
Theorem C82_case e a f c k xs sg l1 l2 : valid_env e -> is_fnv a -> k <= 5 -> valid_program e a c xs -> ascii l1 -> ascii l2 -> same_but_case l1 l2 ->
  exists rs r1 r2, length rs = results_in xs /\ low k r1 = low k r2 /\
    runs e a f c (xs ++ [SAppend (string_type sg) (byte_vector l1); SResult]) = Ok (rs ++ [r1]) /\
    runs e a f c (xs ++ [SAppend (string_type sg) (byte_vector l2); SResult]) = Ok (rs ++ [r2]).
Proof.
  intros HE HA HK HV A1 A2 HC. pose proof (ascii_bytes _ A1) as B1. pose proof (ascii_bytes _ A2) as B2. assert (HNu : nul_of a = true) by (destruct a; try contradiction; reflexivity).
  assert (HL : length l1 = length l2) by (eapply Forall2_len; exact HC).
  assert (AL : alike k l1 l2).
  { assert (M : forall b, (b + 32) mod 2^k = b mod 2^k).
    { intros b. replace (b + 32) with (b + 2^(5 - k) * 2^k) by (rewrite <- N.pow_add_r; f_equal; replace (5 - k + k) with 5 by lia; reflexivity). apply N.mod_add. now apply N.pow_nonzero. }
    clear - HC M. induction HC as [|b1 b2 l1 l2 HB HC IH]; constructor; [|exact IH]. destruct HB as [-> | [[_ ->] | [_ ->]]]; [reflexivity|now rewrite M|now rewrite M]. }
  destruct (C82_after e a f c k xs [SAppend (string_type sg) (byte_vector l1); SResult] [SAppend (string_type sg) (byte_vector l2); SResult]) as (rs & ts1 & ts2 & L & R1 & R2 & F);
    try assumption; try (now apply ascii_key).
  - destruct a; try contradiction; cbn [fnv_width]; lia.
  - constructor; [|constructor; [exact I|constructor]]. cbn [alike_step]. intros q1 q2. cbn [call_message]. 
    change (alike k (message (e_impl e) f (string_type sg) (byte_vector l1) q1) (message (e_impl e) f (string_type sg) (byte_vector l2) q2)).
    rewrite !string_message by assumption. rewrite HL. apply Forall2_app; [exact AL|]. clear. generalize (int_bytes f (fl_size f) (Z.of_nat (length l2))). intros l. induction l; constructor; [reflexivity|assumption].
  - assert (T : forall l ts rs', length rs' = results_in xs -> runs e a f c (xs ++ [SAppend (string_type sg) (byte_vector l); SResult]) = Ok (rs' ++ ts) ->
      valid_program e a c (xs ++ [SAppend (string_type sg) (byte_vector l); SResult]) -> exists t, ts = [t]).
    { intros l ts rs' L' R V. rewrite runs_expected in R by (try assumption; destruct a; try contradiction; exact I). injection R as R.
      apply (f_equal (@length _)) in R. rewrite app_length, L' in R.
      assert (LE : length (expected e a f c (xs ++ [SAppend (string_type sg) (byte_vector l); SResult])) = results_in (xs ++ [SAppend (string_type sg) (byte_vector l); SResult])) by (unfold expected; apply aprun_length).
      rewrite LE in R.
      assert (RX : results_in (xs ++ [SAppend (string_type sg) (byte_vector l); SResult]) = (results_in xs + 1)%nat).
      { unfold results_in. rewrite filter_app, app_length. reflexivity. }
      rewrite RX in R. destruct ts as [|t [|? ?]]; cbn [length] in R; try lia. now exists t. }
    destruct (T l1 ts1 rs L R1) as (t1 & ->); [now apply ascii_key|]. destruct (T l2 ts2 rs L R2) as (t2 & ->); [now apply ascii_key|].
    exists rs, t1, t2. split; [exact L|]. split; [now inversion F|]. split; assumption.
Qed.

(* the function object of example/hash_with_any_seed.cpp, where std::size_t is at least as wide as the results *)
Theorem C82_table e a c k sg l1 l2 : valid_env e -> is_fnv a -> 2 ^ fnv_width a <= e_cw e -> k <= 5 -> valid_ctor c -> ascii l1 -> ascii l2 -> same_but_case l1 l2 ->
  exists z1 z2, hash_with_any_seed e a (string_type sg) c [byte_vector l1; byte_vector l2] = Ok [z1; z2] /\ z1 mod 2^k = z2 mod 2^k.
Proof.
  intros HE HA HW HK HC A1 A2 HS. assert (HNu : nul_of a = true) by (destruct a; try contradiction; reflexivity).
  assert (V0 : valid_program e a c []) by (split; [exact HC|constructor]).
  assert (VK : forall l, ascii l -> valid_key e a c (string_type sg) (byte_vector l)).
  { intros l Hl. split; [now apply (ascii_key e a c [])|]. destruct a; try contradiction; exact I. }
  destruct (C47_values e a c (string_type sg) [byte_vector l1; byte_vector l2] HE HC) as (zs & EZ & HF); [apply Forall_cons; [now apply VK|apply Forall_cons; [now apply VK|apply Forall_nil]]|discriminate|].
  inversion HF as [|? z1 ? zs1 [_ (r1 & K1 & S1)] HF1]; subst. inversion HF1 as [|? z2 ? zs2 [_ (r2 & K2 & S2)] HF2]; subst. inversion HF2; subst.
  exists z1, z2. split; [exact EZ|].
  destruct (C82_case e a (default_flavor (e_pf e)) c k [] sg l1 l2 HE HA HK V0 A1 A2 HS) as (rs & t1 & t2 & L & HL & R1 & R2).
  destruct rs; [|discriminate]. cbn [app] in R1, R2. unfold key_result in K1, K2. rewrite K1 in R1. rewrite K2 in R2. injection R1 as <-. injection R2 as <-.
  assert (SH : forall l r, ascii l -> runs e a (default_flavor (e_pf e)) c [SAppend (string_type sg) (byte_vector l); SResult] = Ok [r] ->
     exists s x, r = RInt s x /\ x < 2 ^ fnv_width a /\ ibits s = fnv_width a).
  { intros l r Hl R. destruct (VK l Hl) as [VP RO]. rewrite runs_expected in R by assumption. injection R as R.
    rewrite <- R. clear R.
    destruct a; try contradiction; cbn [machine_of fnv_machine mc_ar fst]; do 2 eexists; (split; [reflexivity|]); (split; [apply FNV1a_lt; reflexivity|reflexivity]). }
  destruct (SH l1 r1 A1 K1) as (s1 & x1 & -> & X1 & I1). destruct (SH l2 r2 A2 K2) as (s2 & x2 & -> & X2 & I2). cbn [low] in HL. cbn [size_value] in S1, S2.
  assert (ES : s1 = s2) by (rewrite <- I1 in I2; destruct s1, s2; (reflexivity || discriminate)). subst s2. clear I2.
  assert (LS : (ibytes s1 <= ibytes (size_t e))%nat).
  { rewrite <- I1, <- (size_t_cw e HE) in HW. apply N.pow_le_mono_r_iff in HW; [|reflexivity]. unfold ibits in HW. lia. }
  assert (G : forall x z, x < 2 ^ fnv_width a -> get_integral_result (size_t e) false s1 x = Ok (Z.of_N z) -> z mod 2^k = (x mod 2^k * multiplier (size_t e) s1) mod 2^k).
  { intros x z Hx E. unfold get_integral_result in E. rewrite gir_up in E by (try exact LS; change (x < 2 ^ ibits s1); rewrite I1; exact Hx). cbn [bind] in E. injection E as E. unfold to_int in E. cbn [andb] in E. apply N2Z.inj in E. rewrite <- E.
    rewrite mod_low; [symmetry; apply N.mul_mod_idemp_l; now apply N.pow_nonzero|]. unfold ibits. clear - HK. destruct (size_t e); cbn; lia. }
  rewrite (G x1 z1 X1 S1), (G x2 z2 X2 S2), HL. reflexivity.
Qed.

(* ---------- the lowest bit: a sum ---------- *)
Definition sum (l : list N) : N := fold_right N.add 0 l.
Lemma sum_perm l1 l2 : Permutation l1 l2 -> sum l1 = sum l2.
Proof. intros H. induction H; cbn [sum fold_right] in *; unfold sum in *; lia. Qed.
Lemma lxor_parity a b : N.lxor a b mod 2 = (a + b) mod 2.
Proof.
  change 2 with (2^1) at 1. rewrite lxor_low. change (2^1) with 2. rewrite (N.add_mod a b 2) by discriminate.
  assert (C : forall x, x mod 2 = 0 \/ x mod 2 = 1) by (intros x; pose proof (N.mod_lt x 2 ltac:(discriminate)); lia).
  destruct (C a) as [-> | ->], (C b) as [-> | ->]; reflexivity.
Qed.
Lemma octets_parity F l : 1 <= fnv_w F -> fnv_prime F mod 2 = 1 -> forall s, fold_left (FNV1a_octet F) l s mod 2 = (s mod 2 + sum l) mod 2.
Proof.
  intros H HP. induction l as [|b l IH]; intros s; cbn [fold_left].
  - cbn. rewrite N.add_0_r. symmetry. now apply N.mod_mod.
  - rewrite IH. change 2 with (2^1) at 1 2. rewrite octet_low by exact H. rewrite <- lxor_low. change (2^1) with 2.
    rewrite N.mul_mod by discriminate. rewrite HP, N.mul_1_r, !N.mod_mod by discriminate. rewrite lxor_parity.
    change (sum (b :: l)) with (b + sum l). rewrite !N.add_mod_idemp_l by discriminate. now rewrite N.add_assoc.
Qed.
(* the lowest bit of a result after further bytes is that of the result without them plus their sum *)
Theorem C82_parity e a f c xs cs : valid_env e -> is_fnv a -> valid_program e a c xs -> valid_pieces a cs ->
  exists rs r0 r1, length rs = results_in xs /\ runs e a f c (xs ++ [SResult]) = Ok (rs ++ [r0]) /\ runs e a f c (xs ++ hash_pieces cs) = Ok (rs ++ [r1]) /\
    low 1 r1 = (low 1 r0 + sum (fed cs)) mod 2.
Proof.
  intros HE HA HV VC. assert (A0 : a <> Aspooky) by (intros ->; exact HA). assert (V0 : valid_pieces a []) by constructor.
  change [SResult] with (hash_pieces []).
  exists (expected e a f c xs). do 2 eexists. split; [unfold expected; apply aprun_length|].
  rewrite !(runs_expected e a f c _ HE) by (try apply pieces_after; try apply room_any; assumption). rewrite !after_expected. split; [reflexivity|]. split; [reflexivity|].
  generalize (state e a f c xs). generalize (fed cs). change (fed []) with (@nil N). clear HV VC V0.
  destruct a; try contradiction; cbn [machine_of fnv_machine mc_start mc_ar mc_au mc_A fst low]; intros l pre; rewrite app_nil_r; unfold FNV1a, FNV1a_from; rewrite (fold_left_app _ pre); change (2^1) with 2;
    apply octets_parity; (reflexivity || (cbn; lia)).
Qed.
(* so rearranging the bytes of a message does not change it, however they are divided into calls *)
Theorem C82_anagram e a f c xs cs1 cs2 : valid_env e -> is_fnv a -> valid_program e a c xs -> valid_pieces a cs1 -> valid_pieces a cs2 -> Permutation (fed cs1) (fed cs2) ->
  exists rs r1 r2, length rs = results_in xs /\ runs e a f c (xs ++ hash_pieces cs1) = Ok (rs ++ [r1]) /\ runs e a f c (xs ++ hash_pieces cs2) = Ok (rs ++ [r2]) /\ low 1 r1 = low 1 r2.
Proof.
  intros HE HA HV V1 V2 HP. destruct (C82_parity e a f c xs cs1 HE HA HV V1) as (rs & r0 & r1 & L & R0 & R1 & E1).
  destruct (C82_parity e a f c xs cs2 HE HA HV V2) as (rs' & r0' & r2 & L' & R0' & R2 & E2).
  rewrite R0 in R0'. injection R0' as X. apply app_inj_tail in X. destruct X as [<- <-].
  exists rs, r1, r2. split; [exact L|]. split; [exact R1|]. split; [exact R2|]. now rewrite E1, E2, (sum_perm _ _ HP).
Qed.

(* so do sequence containers with the same elements in any order: they share a bucket of a table of two buckets *)
Lemma seq_perm {X : Type} (m : X -> (list N -> N) -> list N) (q0 : list N -> N) vs1 vs2 : (forall v q1 q2, m v q1 = m v q2) -> Permutation vs1 vs2 ->
  forall q1 q2, Permutation (seq_msg m vs1 q1) (seq_msg m vs2 q2).
Proof.
  intros HQ. assert (E : forall vs q, seq_msg m vs q = concat (map (fun v => m v q0) vs)).
  { induction vs as [|v vs IH]; intros q; [reflexivity|]. cbn [seq_msg map concat]. now rewrite IH, (HQ v q q0). }
  intros HP q1 q2. rewrite !E. induction HP as [|v l1 l2 HP IH|v w l|l1 l2 l3 H1 I1 H2 I2]; cbn [map concat].
  - apply Permutation_refl.
  - now apply Permutation_app_head.
  - rewrite !app_assoc. apply Permutation_app_tail, Permutation_app_comm.
  - now apply Permutation_trans with (concat (map (fun v => m v q0) l2)).
Qed.
Theorem C82_sequences e a f c xs t vs1 vs2 : valid_env e -> is_fnv a -> ordered t ->
  valid_program e a c (xs ++ [SAppend (TVec t) (VList vs1); SResult]) -> valid_program e a c (xs ++ [SAppend (TVec t) (VList vs2); SResult]) -> Permutation vs1 vs2 ->
  exists rs r1 r2, length rs = results_in xs /\ low 1 r1 = low 1 r2 /\
    runs e a f c (xs ++ [SAppend (TVec t) (VList vs1); SResult]) = Ok (rs ++ [r1]) /\
    runs e a f c (xs ++ [SAppend (TVec t) (VList vs2); SResult]) = Ok (rs ++ [r2]).
Proof.
  intros HE HA HO V1 V2 HP. assert (RM : forall ys, room e a c ys) by (intros ys; destruct a; try contradiction; exact I).
  set (q := fun _ : list N => 0). set (M := fun vs => message (e_impl e) f (TVec t) (VList vs) q).
  assert (BM : forall vs, bytes (M vs)) by (intros vs; apply msg_bytes).
  assert (VP : forall vs, valid_pieces a [(Ptr (M vs), length (M vs))]) by (intros vs; constructor; [split; [apply le_n|apply BM]|constructor]).
  assert (FD : forall vs, fed [(Ptr (M vs), length (M vs))] = M vs).
  { intros vs. unfold fed. cbn [map concat data fst snd]. now rewrite app_nil_r, firstn_all. }
  assert (PM : Permutation (M vs1) (M vs2)).
  { unfold M, message. cbn [msg]. rewrite (Permutation_length HP). apply Permutation_app_tail. apply (seq_perm _ q); [|exact HP]. intros v q1 q2. now apply msg_q_indep. }
  destruct (append_feeds_ordered e a f c xs (TVec t) (VList vs1) [SResult] q HE HO V1 (RM _)) as (s1 & A1 & B1).
  destruct (append_feeds_ordered e a f c xs (TVec t) (VList vs2) [SResult] q HE HO V2 (RM _)) as (s2 & A2 & B2).
  assert (HX : valid_program e a c xs) by (eapply valid_app; exact V1).
  destruct (C82_anagram e a f c xs [(Ptr (M vs1), length (M vs1))] [(Ptr (M vs2), length (M vs2))] HE HA HX (VP _) (VP _)) as (rs & r1 & r2 & L & R1 & R2 & EL).
  { rewrite !FD. exact PM. }
  exists rs, r1, r2. split; [exact L|]. split; [exact EL|].
  change (runs e a f c (xs ++ hash_pieces [(Ptr (M vs1), length (M vs1))]) = Ok s1) in B1.
  change (runs e a f c (xs ++ hash_pieces [(Ptr (M vs2), length (M vs2))]) = Ok s2) in B2.
  rewrite R1 in B1. rewrite R2 in B2. cbn [app] in A1, A2. rewrite A1, A2. split; symmetry; assumption.
Qed.

(* ---------- concrete cases ---------- *)
(* { "ab", "c", "d" } and { "d", "ab", "c" } as std::vector<std::string> *)
Example C82_sequences_ex : exists rs r1 r2, length rs = results_in past /\ low 1 r1 = low 1 r2 /\
  runs env_pc Afnv64 le_flavor (CSeed 7) (past ++ [SAppend (TVec (string_type true)) (VList [byte_vector [97; 98]; byte_vector [99]; byte_vector [100]]); SResult]) = Ok (rs ++ [r1]) /\
  runs env_pc Afnv64 le_flavor (CSeed 7) (past ++ [SAppend (TVec (string_type true)) (VList [byte_vector [100]; byte_vector [97; 98]; byte_vector [99]]); SResult]) = Ok (rs ++ [r2]).
Proof.
  assert (V : forall vs, Forall (has_type (im_psz (e_impl env_pc)) (string_type true)) vs -> valid_program env_pc Afnv64 (CSeed 7) (past ++ [SAppend (TVec (string_type true)) (VList vs); SResult])).
  { intros vs H. split; [reflexivity|]. apply Forall_app. split; [apply (past_valid env_pc Afnv64 (CSeed 7)); ok|]. constructor; [|constructor; [exact I|constructor]]. split; [exact H|]. intros _. now left. }
  apply (C82_sequences env_pc Afnv64 le_flavor (CSeed 7) past); [exact env_pc_valid|exact I|exact I|apply V|apply V|].
  - repeat constructor; cbn; lia.
  - repeat constructor; cbn; lia.
  - apply (Permutation_trans (Permutation_app_comm [byte_vector [97; 98]; byte_vector [99]] [byte_vector [100]])). apply Permutation_refl.
Qed.
(* "listen" and "silent" *)
Example C82_anagram_ex : exists rs r1 r2, length rs = results_in past /\
  runs env_pc Afnv64 le_flavor (CSeed 7) (past ++ hash_pieces [(Ptr [108; 105; 115; 116; 101; 110], 6%nat)]) = Ok (rs ++ [r1]) /\
  runs env_pc Afnv64 le_flavor (CSeed 7) (past ++ hash_pieces [(Ptr [115; 105; 108], 3%nat); (Ptr [101; 110; 116], 3%nat)]) = Ok (rs ++ [r2]) /\ low 1 r1 = low 1 r2.
Proof.
  apply (C82_anagram env_pc Afnv64 le_flavor (CSeed 7) past); [exact env_pc_valid|exact I|apply past_valid; ok|repeat constructor; cbn; lia|repeat constructor; cbn; lia|].
  change (Permutation [108; 105; 115; 116; 101; 110] [115; 105; 108; 101; 110; 116]).
  apply (Permutation_cons_app [115; 105] [101; 110; 116] 108). apply (Permutation_cons_app [115] [101; 110; 116] 105). cbn [app]. apply Permutation.perm_skip.
  apply (Permutation_cons_app [101; 110] [] 116). apply Permutation_refl.
Qed.
Example C82_parity_ex : exists rs r0 r1, length rs = results_in past /\
  runs env_be Afnv32 be32_flavor (CSeed 7) (past ++ [SResult]) = Ok (rs ++ [r0]) /\ runs env_be Afnv32 be32_flavor (CSeed 7) (past ++ hash_pieces [(Ptr [1; 2; 4], 3%nat)]) = Ok (rs ++ [r1]) /\
  low 1 r1 = (low 1 r0 + 7) mod 2.
Proof. apply (C82_parity env_be Afnv32 be32_flavor (CSeed 7) past [(Ptr [1; 2; 4], 3%nat)]); [exact env_be_valid|exact I|apply past_valid; ok|repeat constructor; cbn; lia]. Qed.
(* "Hash" and "hASH", sixteen buckets and thirty-two *)
Lemma letters_ok : same_but_case [72; 97; 115; 104] [104; 65; 83; 72].
Proof. repeat constructor; lia. Qed.
Example C82_case_ex : exists rs r1 r2, length rs = results_in past /\ low 5 r1 = low 5 r2 /\
  runs env_pc Afnv64 le_flavor (CSeed 7) (past ++ [SAppend (string_type true) (byte_vector [72; 97; 115; 104]); SResult]) = Ok (rs ++ [r1]) /\
  runs env_pc Afnv64 le_flavor (CSeed 7) (past ++ [SAppend (string_type true) (byte_vector [104; 65; 83; 72]); SResult]) = Ok (rs ++ [r2]).
Proof. apply (C82_case env_pc Afnv64 le_flavor (CSeed 7) 5 past); [exact env_pc_valid|exact I|lia|now apply past_valid|repeat constructor|repeat constructor|exact letters_ok]. Qed.
Example C82_low_ex : exists rs1 rs2,
  runs env_pc Afnv32 le_flavor (CSeed 7) [SUpdate (Ptr [72; 97]) 2; SResult; SUpdate (Ptr [1; 2; 3]) 3; SResult; SResult] = Ok rs1 /\
  runs env_pc Afnv32 le_flavor (CSeed 7) [SUpdate (Ptr [104; 65]) 2; SResult; SUpdate (Ptr [33; 66; 131]) 3; SResult; SResult] = Ok rs2 /\
  Forall2 (fun r1 r2 => low 5 r1 = low 5 r2) rs1 rs2.
Proof.
  apply (C82_low env_pc Afnv32 le_flavor (CSeed 7) 5); [exact env_pc_valid|exact I|cbn; lia| | |repeat constructor].
  - split; [reflexivity|]. repeat constructor; cbn; lia.
  - split; [reflexivity|]. repeat constructor; cbn; lia.
Qed.
(* "cab" and "cat": in different buckets of any table of at least 2^2 buckets: 98 and 116 differ modulo 4 *)
Example C82_byte_ex : low_apart 2 env_be Afnv32 be32_flavor (CSeed 7) past (hash_pieces [(Ptr [99; 97; 98], 3%nat)]) (hash_pieces [(Ptr [99; 97], 2%nat); (Ptr [116], 1%nat)]).
Proof.
  apply (C82_byte env_be Afnv32 be32_flavor (CSeed 7) 2 past _ _ [99; 97] 98 [] [99; 97] 116 []);
    [exact env_be_valid|exact I|cbn; lia|apply past_valid; ok|repeat constructor; cbn; lia|repeat constructor; cbn; lia|reflexivity|reflexivity|repeat constructor|constructor|discriminate].
Qed.
Example C82_even_ex : exists! b, b < 256 /\ exists rs r, length rs = results_in past /\
  runs env_pc Afnv64 le_flavor (CSeed 7) (past ++ [SUpdate (Ptr ([1; 2] ++ b :: [3])) (length ([1; 2] ++ b :: [3])); SResult]) = Ok (rs ++ [r]) /\ low 8 r = 200.
Proof. apply (C82_even env_pc Afnv64 le_flavor (CSeed 7) past [1; 2] [3] 200); [exact env_pc_valid|exact I|apply past_valid; ok|ok|ok|reflexivity]. Qed.
(* "H" and "h" in 64 buckets: the bound 5 of C82_case is the best *)
Example C82_bound_ex : exists r1 r2, low 6 r1 <> low 6 r2 /\
  runs env_pc Afnv64 le_flavor CDefault [SAppend (TVec (TInt I8 false)) (byte_vector [72]); SResult] = Ok [r1] /\
  runs env_pc Afnv64 le_flavor CDefault [SAppend (TVec (TInt I8 false)) (byte_vector [104]); SResult] = Ok [r2].
Proof. do 2 eexists. split; [|split; vm_compute; reflexivity]. vm_compute. discriminate. Qed.
(* std::unordered_map with a seeded fnv1a_32, where std::size_t has 64 bits *)
Example C82_table_ex : exists z1 z2, hash_with_any_seed env_pc Afnv32 (string_type true) (CSeed 7) [byte_vector [72; 97; 115; 104]; byte_vector [104; 65; 83; 72]] = Ok [z1; z2] /\ z1 mod 2^5 = z2 mod 2^5.
Proof. apply C82_table; [exact env_pc_valid|exact I|vm_compute; discriminate|lia|reflexivity|repeat constructor|repeat constructor|exact letters_ok]. Qed.

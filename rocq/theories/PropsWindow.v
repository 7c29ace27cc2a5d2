(* C80: fnv1a: messages of the same length that differ only within 3 (fnv1a_32) or 6 (fnv1a_64) consecutive bytes never collide. *)
From Coq Require Import ZArith.
From Verif Require Import Base BaseFacts SpecCommon Gen Bits GenMD Hasher GenBlk Types ModelResult ModelAppend SpecAppend ProofMsg ProofMsgEq
  Behaves Instances ProofRuns Samples PropsHistory PropsAlg PropsAppend PropsSeeds PropsPrims ProofLocal ProofMurmurDistinct PropsLong
  PropsLocal PropsLocal64 PropsLocalKeys PropsAnywhere PropsLocalHistory PropsFlood ProofTails PropsTails ProofWindow.
From Verif Require Import SpecFnv ProofFnv ProofSpooky.
Open Scope N_scope.

Lemma differ_window {A} p L (m1 m2 : list A) : differ_at p L m1 m2 ->
  exists a x y t, m1 = a ++ x ++ t /\ m2 = a ++ y ++ t /\ length x = length y /\ (length x <= L)%nat /\ x <> y.
Proof.
  intros (HL & HN & E1 & E2). exists (firstn p m1), (firstn L (skipn p m1)), (firstn L (skipn p m2)), (skipn (p + L) m1).
  assert (D : forall m : list A, m = firstn p m ++ firstn L (skipn p m) ++ skipn (p + L) m).
  { intros m. rewrite Nat.add_comm, <- skipn_twice, firstn_skipn, firstn_skipn. reflexivity. }
  split; [apply D|]. split; [rewrite E1, E2; apply D|]. split; [rewrite !firstn_length, !skipn_length; lia|]. split; [rewrite firstn_length; lia|].
  intros E. apply HN. rewrite (D m1), (D m2). now rewrite E1, E2, E.
Qed.

(* ---------- the difference of the states of two runs ---------- *)
Definition horner (p d : Z) (es : list Z) : Z := fold_left (fun d e => (d + e) * p)%Z es d.
Lemma horner_shift p M es : forall d k, exists k', (horner p (d + M * k) es = horner p d es + M * k')%Z.
Proof.
  induction es as [|e es IH]; intros d k; [now exists k|]. unfold horner in *. cbn [fold_left].
  replace ((d + M * k + e) * p)%Z with ((d + e) * p + M * (k * p))%Z by ring. apply IH.
Qed.
Section Window.
Variables (F : FNV) (inv : N).
Hypothesis HI : (fnv_prime F * inv) mod 2 ^ fnv_w F = 1 mod 2 ^ fnv_w F.
Hypothesis HW : 8 <= fnv_w F.
Lemma octets_lt l : forall s, s < 2 ^ fnv_w F -> fold_left (FNV1a_octet F) l s < 2 ^ fnv_w F.
Proof. induction l as [|b l IH]; intros s Hs; [exact Hs|]. cbn [fold_left]. apply IH, MUL_lt'. Qed.
Lemma octets_states : forall l s1 s2, bytes l -> s1 < 2 ^ fnv_w F -> s2 < 2 ^ fnv_w F -> fold_left (FNV1a_octet F) l s1 = fold_left (FNV1a_octet F) l s2 -> s1 = s2.
Proof.
  induction l as [|b l IH]; intros s1 s2 Hl L1 L2 E; [exact E|]. inversion Hl as [|? ? Hb Hl']; subst. cbn [fold_left] in E. apply IH in E; [|exact Hl'|apply MUL_lt'|apply MUL_lt'].
  unfold FNV1a_octet in E. pose proof (byte_lt _ _ HW Hb). apply (mul_inj _ _ inv) in E; [|exact HI|apply lxor_lt; assumption|apply lxor_lt; assumption].
  now apply lxor_inj_r in E.
Qed.
Lemma octet_diff s1 s2 b1 b2 : b1 < 256 -> b2 < 256 -> exists e k, (-510 <= e <= 510)%Z /\
  (Z.of_N (FNV1a_octet F s1 b1) - Z.of_N (FNV1a_octet F s2 b2) = (Z.of_N s1 - Z.of_N s2 + e) * Z.of_N (fnv_prime F) + Z.of_N (2 ^ fnv_w F) * k)%Z /\
  (s1 = s2 -> e = 0%Z -> b1 = b2).
Proof.
  intros H1 H2. exists ((Z.of_N (N.lxor s1 b1) - Z.of_N s1) - (Z.of_N (N.lxor s2 b2) - Z.of_N s2))%Z.
  pose proof (near_diff 8 s1 b1 H1) as N1. pose proof (near_diff 8 s2 b2 H2) as N2. change (2 ^ Z.of_N 8)%Z with 256%Z in N1, N2.
  unfold FNV1a_octet, MUL. set (x1 := N.lxor s1 b1) in *. set (x2 := N.lxor s2 b2) in *. set (P := fnv_prime F) in *. assert (NZ : 2 ^ fnv_w F <> 0) by (apply N.pow_nonzero; discriminate). set (M := 2 ^ fnv_w F) in *.
  exists (Z.of_N (x2 * P / M) - Z.of_N (x1 * P / M))%Z. split; [clear - N1 N2; lia|]. split.
  - pose proof (N.div_mod (x1 * P) M NZ) as D1. pose proof (N.div_mod (x2 * P) M NZ) as D2. apply (f_equal Z.of_N) in D1. apply (f_equal Z.of_N) in D2. rewrite N2Z.inj_add, !N2Z.inj_mul in D1, D2.
    set (r1 := (x1 * P) mod M) in *. set (r2 := (x2 * P) mod M) in *. set (q1 := x1 * P / M) in *. set (q2 := x2 * P / M) in *. clearbody q1 q2 r1 r2 x1 x2 M P.
    replace (Z.of_N s1 - Z.of_N s2 + (Z.of_N x1 - Z.of_N s1 - (Z.of_N x2 - Z.of_N s2)))%Z with (Z.of_N x1 - Z.of_N x2)%Z by ring. rewrite Z.mul_sub_distr_r, D1, D2. ring.
  - intros <- E. assert (EX : x1 = x2) by (clear - E; lia). unfold x1, x2 in EX. now apply lxor_inj_l in EX.
Qed.
Lemma octets_diff : forall x y s1 s2, length x = length y -> bytes x -> bytes y -> exists es k, length es = length x /\ Forall (fun e => -510 <= e <= 510)%Z es /\
  (Z.of_N (fold_left (FNV1a_octet F) x s1) - Z.of_N (fold_left (FNV1a_octet F) y s2) = horner (Z.of_N (fnv_prime F)) (Z.of_N s1 - Z.of_N s2) es + Z.of_N (2 ^ fnv_w F) * k)%Z /\
  (s1 = s2 -> Forall (fun e => e = 0%Z) es -> x = y).
Proof.
  induction x as [|b1 x IH]; intros [|b2 y] s1 s2 HL B1 B2; try discriminate.
  - exists [], 0%Z. split; [reflexivity|]. split; [constructor|]. split; [cbn; ring|reflexivity].
  - inversion B1 as [|? ? X1 B1']; inversion B2 as [|? ? X2 B2']; subst. injection HL as HL.
    destruct (octet_diff s1 s2 b1 b2 X1 X2) as (e & k & He & Ek & Ez).
    destruct (IH y (FNV1a_octet F s1 b1) (FNV1a_octet F s2 b2) HL B1' B2') as (es & k' & Le & Hes & Ek' & Ez').
    destruct (horner_shift (Z.of_N (fnv_prime F)) (Z.of_N (2 ^ fnv_w F)) es ((Z.of_N s1 - Z.of_N s2 + e) * Z.of_N (fnv_prime F)) k) as (k2 & Eh).
    exists (e :: es), (k2 + k')%Z. split; [cbn; now rewrite Le|]. split; [now constructor|]. cbn [fold_left]. split.
    + rewrite Ek', Ek, Eh. unfold horner at 2. cbn [fold_left]. fold (horner (Z.of_N (fnv_prime F)) ((Z.of_N s1 - Z.of_N s2 + e) * Z.of_N (fnv_prime F)) es). ring.
    + intros E0 HZ. inversion HZ as [|? ? Z1 Z2]; subst. pose proof (Ez eq_refl eq_refl) as ->. f_equal. now apply Ez'.
Qed.
Variable n : nat.
Hypothesis HS : forall es z, length es = n -> Forall (fun e => -510 <= e <= 510)%Z es -> horner (Z.of_N (fnv_prime F)) 0 es = (Z.of_N (2 ^ fnv_w F) * z)%Z -> Forall (fun e => e = 0%Z) es.
Lemma exact_window x y s : length x = n -> length y = n -> bytes x -> bytes y -> fold_left (FNV1a_octet F) x s = fold_left (FNV1a_octet F) y s -> x = y.
Proof.
  intros L1 L2 B1 B2 E. destruct (octets_diff x y s s (eq_trans L1 (eq_sym L2)) B1 B2) as (es & k & Le & He & Ek & Ez).
  apply Ez; [reflexivity|]. rewrite E, !Z.sub_diag in Ek. apply (HS es (- k)); [congruence|exact He|]. rewrite Z.mul_opp_r. clear - Ek. lia.
Qed.
Lemma window p m1 m2 s : s < 2 ^ fnv_w F -> bytes m1 -> bytes m2 -> differ_at p n m1 m2 -> fold_left (FNV1a_octet F) m1 s <> fold_left (FNV1a_octet F) m2 s.
Proof.
  intros Hs B1 B2 HD E. destruct (differ_window _ _ _ _ HD) as (a & x & y & t & -> & -> & HL & HLn & HN).
  rewrite !bytes_app in B1, B2. destruct B1 as (A1 & X1 & T1), B2 as (_ & X2 & _). rewrite !fold_left_app in E.
  pose proof (octets_lt a s Hs) as Ha. apply octets_states in E; [|exact T1|now apply octets_lt|now apply octets_lt].
  apply HN. apply (f_equal (fold_left (FNV1a_octet F) (repeat 0 (n - length x)))) in E. rewrite <- (fold_left_app _ x), <- (fold_left_app _ y) in E.
  assert (BZ : bytes (repeat 0 (n - length x))) by (apply Forall_forall; intros b Hb; apply repeat_spec in Hb; subst b; reflexivity).
  apply exact_window in E; [now apply app_inv_tail in E|rewrite app_length, repeat_length; lia|rewrite app_length, repeat_length; lia|now apply bytes_app|now apply bytes_app].
Qed.
End Window.

Lemma fnv32_window : forall es z, length es = 3%nat -> Forall (fun e => -510 <= e <= 510)%Z es ->
  horner (Z.of_N (fnv_prime FNV32)) 0 es = (Z.of_N (2 ^ fnv_w FNV32) * z)%Z -> Forall (fun e => e = 0%Z) es.
Proof.
  intros es z HL HF E. destruct es as [|e1 [|e2 [|e3 [|]]]]; try discriminate. clear HL.
  repeat match goal with H : Forall _ (_ :: _) |- _ => inversion H; subst; clear H end.
  destruct (three e1 e2 e3 z) as (-> & -> & ->); try assumption. repeat constructor.
Qed.
Lemma fnv64_window : forall es z, length es = 6%nat -> Forall (fun e => -510 <= e <= 510)%Z es ->
  horner (Z.of_N (fnv_prime FNV64)) 0 es = (Z.of_N (2 ^ fnv_w FNV64) * z)%Z -> Forall (fun e => e = 0%Z) es.
Proof.
  intros es z HL HF E. destruct es as [|e1 [|e2 [|e3 [|e4 [|e5 [|e6 [|]]]]]]]; try discriminate. clear HL.
  repeat match goal with H : Forall _ (_ :: _) |- _ => inversion H; subst; clear H end.
  destruct (six e1 e2 e3 e4 e5 e6 z) as (-> & -> & -> & -> & -> & ->); try assumption. repeat constructor.
Qed.

(* ---------- after any history ---------- *)
Theorem C80_fnv32 e f c xs cs1 cs2 p : valid_env e -> valid_program e Afnv32 c xs -> valid_pieces Afnv32 cs1 -> valid_pieces Afnv32 cs2 ->
  differ_at p 3 (fed cs1) (fed cs2) -> told_apart e Afnv32 f c xs (hash_pieces cs1) (hash_pieces cs2).
Proof.
  intros HE HV V1 V2 HD. apply told_by; try assumption; [discriminate|].
  assert (HB : bytes (state e Afnv32 f c xs)).
  { destruct HV as [HC HX]. apply (fnv_state_bytes e FNV32 I32 result64 c); try assumption. intros k q. apply call_msg_bytes. }
  revert HB. generalize (state e Afnv32 f c xs). cbn [machine_of fnv_machine mc_start mc_ar mc_au mc_A fst]. intros pre HB.
  intros E. injection E as E. unfold FNV1a, FNV1a_from in E. rewrite !fold_left_app in E. revert E.
  apply (window FNV32 0x359c449b) with (n := 3%nat) (p := p); try assumption; try reflexivity; try discriminate.
  - exact fnv32_window. - now apply octets_lt. - now apply (pieces_bytes Afnv32). - now apply (pieces_bytes Afnv32).
Qed.
Theorem C80_fnv64 e f c xs cs1 cs2 p : valid_env e -> valid_program e Afnv64 c xs -> valid_pieces Afnv64 cs1 -> valid_pieces Afnv64 cs2 ->
  differ_at p 6 (fed cs1) (fed cs2) -> told_apart e Afnv64 f c xs (hash_pieces cs1) (hash_pieces cs2).
Proof.
  intros HE HV V1 V2 HD. apply told_by; try assumption; [discriminate|].
  assert (HB : bytes (state e Afnv64 f c xs)).
  { destruct HV as [HC HX]. apply (fnv_state_bytes e FNV64 I64 result64 c); try assumption. intros k q. apply call_msg_bytes. }
  revert HB. generalize (state e Afnv64 f c xs). cbn [machine_of fnv_machine mc_start mc_ar mc_au mc_A fst]. intros pre HB.
  intros E. injection E as E. unfold FNV1a, FNV1a_from in E. rewrite !fold_left_app in E. revert E.
  apply (window FNV64 0xce965057aff6957b) with (n := 6%nat) (p := p); try assumption; try reflexivity; try discriminate.
  - exact fnv64_window. - now apply octets_lt. - now apply (pieces_bytes Afnv64). - now apply (pieces_bytes Afnv64).
Qed.

(* ---------- values ---------- *)
Definition narrow (a : alg) (L : nat) : Prop := match a with Afnv32 => L = 3%nat | Afnv64 => L = 6%nat | _ => False end.
(* two values, of any types without unordered containers, whose messages differ in so few consecutive bytes *)
Theorem C80_values e a f c xs T1 v1 T2 v2 q p L : valid_env e -> narrow a L -> ordered T1 -> ordered T2 ->
  valid_program e a c (xs ++ [SAppend T1 v1; SResult]) -> valid_program e a c (xs ++ [SAppend T2 v2; SResult]) ->
  differ_at p L (message (e_impl e) f T1 v1 q) (message (e_impl e) f T2 v2 q) ->
  told_apart e a f c xs [SAppend T1 v1; SResult] [SAppend T2 v2; SResult].
Proof.
  intros HE HN O1 O2 V1 V2 HD. assert (HV : valid_program e a c xs) by now apply valid_app in V1.
  assert (HA : a <> Aspooky) by (intros ->; exact HN). assert (HR : forall ys, room e a c ys) by (intros ys; destruct a; try contradiction; exact I).
  apply (told_values e a f c xs T1 v1 T2 v2 q); try assumption. intros cs1 cs2 W1 W2 F1 F2. rewrite <- F1, <- F2 in HD.
  destruct a; try contradiction; cbn [narrow] in HN; subst L; [now apply (C80_fnv32 e f c xs cs1 cs2 p)|now apply (C80_fnv64 e f c xs cs1 cs2 p)].
Qed.
(* values of one type, with messages of the same length, of at most 3 (6) bytes *)
Theorem C80_keys e a f c xs t v1 v2 q L : valid_env e -> narrow a L -> decodable t ->
  valid_program e a c (xs ++ [SAppend t v1; SResult]) -> valid_program e a c (xs ++ [SAppend t v2; SResult]) ->
  regular (fl_size f) t v1 -> regular (fl_size f) t v2 ->
  (length (message (e_impl e) f t v1 q) <= L)%nat -> length (message (e_impl e) f t v1 q) = length (message (e_impl e) f t v2 q) -> ~ equal t v1 v2 ->
  told_apart e a f c xs [SAppend t v1; SResult] [SAppend t v2; SResult].
Proof.
  intros HE HN HD V1 V2 R1 R2 HL HL2 HE2. pose proof (decodable_ordered t HD) as HO.
  assert (T : forall v, valid_program e a c (xs ++ [SAppend t v; SResult]) -> has_type (im_psz (e_impl e)) t v).
  { intros v [_ V]. apply Forall_app in V. destruct V as [_ V]. inversion V as [|? ? X _]. exact (proj1 X). }
  apply (C80_values e a f c xs t v1 t v2 q 0 L); try assumption. apply all_differ; try assumption.
  intros E. pose proof (T v1 V1) as T1. pose proof (T v2 V2) as T2. apply HE2. apply (C28_parse (e_impl e) f t v1 v2 [] [] q q); assumption.
Qed.
(* in particular integers (enumerators, addresses, ...) of at most 3 (6) bytes *)
Theorem C80_integers e a f c xs t z1 z2 L : valid_env e -> narrow a L -> integer_like t ->
  valid_program e a c (xs ++ [SAppend t (VInt z1); SResult]) -> valid_program e a c (xs ++ [SAppend t (VInt z2); SResult]) ->
  (length (scalar_bytes (e_impl e) f t z1) <= L)%nat -> z1 <> z2 ->
  told_apart e a f c xs [SAppend t (VInt z1); SResult] [SAppend t (VInt z2); SResult].
Proof.
  intros HE HNa HI V1 V2 HU HN.
  assert (EL : forall z, length (message (e_impl e) f t (VInt z) (fun _ => 0)) = length (scalar_bytes (e_impl e) f t z)).
  { intros z. destruct t; try contradiction; unfold message, scalar_bytes, int_bytes; cbn [msg]; try (destruct (fl_order f)); rewrite ?enc_length, ?repeat_length; reflexivity. }
  assert (ES : length (scalar_bytes (e_impl e) f t z1) = length (scalar_bytes (e_impl e) f t z2)).
  { destruct t; try contradiction; unfold scalar_bytes, int_bytes; try (destruct (fl_order f)); rewrite ?enc_length; reflexivity. }
  assert (T : forall v, valid_program e a c (xs ++ [SAppend t v; SResult]) -> has_type (im_psz (e_impl e)) t v).
  { intros v [_ V]. apply Forall_app in V. destruct V as [_ V]. inversion V as [|? ? X _]. exact (proj1 X). }
  pose proof (T _ V1) as T1. pose proof (T _ V2) as T2.
  apply (C80_keys e a f c xs t (VInt z1) (VInt z2) (fun _ => 0) L); try assumption; rewrite ?EL; try assumption.
  - destruct t; try contradiction; exact I.
  - destruct t; try contradiction; exact I.
  - destruct t; try contradiction; exact I.
  - destruct t; try contradiction; cbn [equal has_type] in *; congruence.
Qed.
(* strings, or vectors of bytes, of the same length that differ in so few consecutive characters *)
Theorem C80_strings e a f c xs l1 l2 p L : valid_env e -> narrow a L -> valid_program e a c xs -> bytes l1 -> bytes l2 -> differ_at p L l1 l2 ->
  told_apart e a f c xs [SAppend (TVec (TInt I8 false)) (byte_vector l1); SResult] [SAppend (TVec (TInt I8 false)) (byte_vector l2); SResult].
Proof.
  intros HE HN HV B1 B2 HD. assert (HNu : nul_of a = true) by (destruct a; try contradiction; reflexivity).
  apply (C80_values e a f c xs _ _ _ _ (fun _ => 0) p L); try assumption; try exact I; try (now apply byte_key_after).
  rewrite !byte_message by assumption. pose proof (differ_lt _ _ _ _ HD) as HLt. destruct (differ_window _ _ _ _ HD) as (a0 & x & y & t & E1 & E2 & HLx & HLL & HNx). destruct HD as (HL & HNl & F1 & F2). rewrite <- HL.
  set (s := int_bytes f (fl_size f) (Z.of_nat (length l1))). split; [rewrite !app_length; lia|]. split; [intros E; apply HNl; now apply app_inv_tail in E|].
  assert (F1' : forall l : list N, length l = length l1 -> firstn p (l ++ s) = firstn p l).
  { intros l Hl. rewrite firstn_app. replace (p - length l)%nat with 0%nat by lia. cbn. apply app_nil_r. }
  split; [rewrite !F1' by auto; exact F1|]. rewrite !skipn_app, F2, HL. reflexivity.
Qed.

(* ---------- one more byte is too many ---------- *)
Definition collide (e : env) (a : alg) (f : flavor) (c : ctor) (xs ys : list ustep) : Prop :=
  exists r, runs e a f c xs = Ok [r] /\ runs e a f c ys = Ok [r].
Lemma fnv_collide32 e f c cs1 cs2 : valid_env e -> valid_ctor c -> valid_pieces Afnv32 cs1 -> valid_pieces Afnv32 cs2 ->
  FNV1a FNV32 (fnv_start c ++ fed cs1) = FNV1a FNV32 (fnv_start c ++ fed cs2) -> collide e Afnv32 f c (hash_pieces cs1) (hash_pieces cs2).
Proof.
  intros HE HC V1 V2 E. eexists. rewrite !first_result' by (assumption || discriminate). split; [reflexivity|]. apply (f_equal (fun r => Ok [r])). cbn [machine_of fnv_machine mc_start mc_ar mc_au mc_A fst]. now rewrite E.
Qed.
Lemma fnv_collide64 e f c cs1 cs2 : valid_env e -> valid_ctor c -> valid_pieces Afnv64 cs1 -> valid_pieces Afnv64 cs2 ->
  FNV1a FNV64 (fnv_start c ++ fed cs1) = FNV1a FNV64 (fnv_start c ++ fed cs2) -> collide e Afnv64 f c (hash_pieces cs1) (hash_pieces cs2).
Proof.
  intros HE HC V1 V2 E. eexists. rewrite !first_result' by (assumption || discriminate). split; [reflexivity|]. apply (f_equal (fun r => Ok [r])). cbn [machine_of fnv_machine mc_start mc_ar mc_au mc_A fst]. now rewrite E.
Qed.
Definition four1 : list N := [195; 102; 232; 232].
Definition four2 : list N := [48; 87; 147; 53].
Definition seven1 : list N := [36; 228; 97; 110; 90; 15; 101].
Definition seven2 : list N := [203; 206; 199; 167; 86; 117; 159].
Theorem C80_four_refuted e f : valid_env e ->
  collide e Afnv32 f CDefault (hash_pieces [(Ptr four1, 4%nat)]) (hash_pieces [(Ptr four2, 4%nat)]).
Proof. intros HE. apply fnv_collide32; [exact HE|exact I|one|one|]. vm_compute. reflexivity. Qed.
Theorem C80_seven_refuted e f : valid_env e ->
  collide e Afnv64 f CDefault (hash_pieces [(Ptr seven1, 7%nat)]) (hash_pieces [(Ptr seven2, 7%nat)]).
Proof. intros HE. apply fnv_collide64; [exact HE|exact I|one|one|]. vm_compute. reflexivity. Qed.
(* so 32-bit integers collide under fnv1a_32, and 64-bit integers under fnv1a_64 *)
Lemma scalar_collide e a f t z1 z2 : valid_env e -> (a = Afnv32 \/ a = Afnv64) -> integer_like t ->
  valid_program e a CDefault [SAppend t (VInt z1); SResult] -> valid_program e a CDefault [SAppend t (VInt z2); SResult] ->
  (forall m1 m2, m1 = scalar_bytes (e_impl e) f t z1 -> m2 = scalar_bytes (e_impl e) f t z2 ->
     collide e a f CDefault (hash_pieces [(Ptr m1, length m1)]) (hash_pieces [(Ptr m2, length m2)])) ->
  collide e a f CDefault [SAppend t (VInt z1); SResult] [SAppend t (VInt z2); SResult].
Proof.
  intros HE HA HI V1 V2 H. assert (HR : forall ys, room e a CDefault ys) by (intros ys; destruct HA as [-> | ->]; exact I).
  destruct (C26_scalars e a f CDefault [] t z1 [SResult]) as (rs1 & E1 & F1); try assumption; [apply HR|].
  destruct (C26_scalars e a f CDefault [] t z2 [SResult]) as (rs2 & E2 & F2); try assumption; [apply HR|].
  cbn [app] in E1, E2, F1, F2. specialize (H _ _ eq_refl eq_refl).
  change (hash_pieces [(Ptr ?m, length ?m)]) with [feed m; SResult] in H. destruct H as (r & H1 & H2). exists r. split; congruence.
Qed.
Lemma int_program e a t z : nul_of a = true -> (exists s b, t = TInt s b) -> has_type (im_psz (e_impl e)) t (VInt z) -> valid_program e a CDefault [SAppend t (VInt z); SResult].
Proof.
  intros HN (s & b & ->) HT. split; [exact I|]. constructor; [|constructor; [exact I|constructor]]. split; [exact HT|]. intros _. now left.
Qed.
Theorem C80_int32_refuted e f : valid_env e -> fl_order f = ELittle ->
  collide e Afnv32 f CDefault [SAppend (TInt I32 false) (VInt 0xe8e866c3); SResult] [SAppend (TInt I32 false) (VInt 0x35935730); SResult].
Proof.
  intros HE HO. apply scalar_collide; [exact HE|now left|exact I| | |].
  - apply int_program; [reflexivity|eauto|]. cbn. unfold in_int. cbn. lia.
  - apply int_program; [reflexivity|eauto|]. cbn. unfold in_int. cbn. lia.
  - unfold scalar_bytes, int_bytes. rewrite HO. intros m1 m2 -> ->. change (enc true (ibytes I32) 0xe8e866c3) with four1. change (enc true (ibytes I32) 0x35935730) with four2. now apply C80_four_refuted.
Qed.
Theorem C80_int64_refuted e f : valid_env e -> fl_order f = ELittle ->
  collide e Afnv64 f CDefault [SAppend (TInt I64 false) (VInt (Z.of_N (LE seven1))); SResult] [SAppend (TInt I64 false) (VInt (Z.of_N (LE seven2))); SResult].
Proof.
  intros HE HO. apply scalar_collide; [exact HE|now right|exact I| | |].
  - apply int_program; [reflexivity|eauto|]. cbn. unfold in_int. cbn. lia.
  - apply int_program; [reflexivity|eauto|]. cbn. unfold in_int. cbn. lia.
  - unfold scalar_bytes, int_bytes. rewrite HO. intros m1 m2 -> ->. change (enc true (ibytes I64) (Z.of_N (LE seven1))) with (seven1 ++ [0]). change (enc true (ibytes I64) (Z.of_N (LE seven2))) with (seven2 ++ [0]).
    apply fnv_collide64; [exact HE|exact I|one|one|]. vm_compute. reflexivity.
Qed.

(* ---------- concrete cases ---------- *)
Example C80_fnv32_ex : told_apart env_pc Afnv32 le_flavor (CSeed 7) past (hash_pieces whole40) (hash_pieces (altered 17 [255; 254; 253])).
Proof. apply (C80_fnv32 _ _ _ _ _ _ 17); [exact env_pc_valid|now apply past_valid|apply whole40_ok|apply altered_ok; [cbn; lia|ok]|differs]. Qed.
Example C80_fnv64_ex : told_apart env_pc Afnv64 le_flavor CDefault past (hash_pieces whole40) (hash_pieces (altered 33 [255; 254; 253; 252; 251; 250])).
Proof. apply (C80_fnv64 _ _ _ _ _ _ 33); [exact env_pc_valid|now apply past_valid|apply whole40_ok|apply altered_ok; [cbn; lia|ok]|differs]. Qed.
(* "cat" and "dog" by fnv1a_32 *)
Example C80_strings_ex : told_apart env_be Afnv32 be32_flavor (CSeed 7) past
  [SAppend (TVec (TInt I8 false)) (byte_vector [99; 97; 116]); SResult] [SAppend (TVec (TInt I8 false)) (byte_vector [100; 111; 103]); SResult].
Proof. apply (C80_strings env_be Afnv32 be32_flavor (CSeed 7) past _ _ 0 3); [exact env_be_valid|reflexivity|apply past_valid; ok|ok|ok|differs]. Qed.
(* int 1 and -1 by fnv1a_64 *)
Example C80_integers_ex : told_apart env_pc Afnv64 le_flavor (CSeed 7) past [SAppend (TInt I32 true) (VInt 1); SResult] [SAppend (TInt I32 true) (VInt (-1)); SResult].
Proof. apply (C80_integers env_pc Afnv64 le_flavor (CSeed 7) past (TInt I32 true) 1 (-1) 6); [exact env_pc_valid|reflexivity|exact I|key_ok|key_ok|cbn; lia|discriminate]. Qed.
(* pairs of std::int16_t by fnv1a_64 *)
Example C80_keys_ex : told_apart env_pc Afnv64 be32_flavor (CSeed 7) past
  [SAppend (TTuple [TInt I16 true; TInt I16 true]) (VList [VInt 1; VInt 2]); SResult] [SAppend (TTuple [TInt I16 true; TInt I16 true]) (VList [VInt 2; VInt 1]); SResult].
Proof.
  apply (C80_keys env_pc Afnv64 be32_flavor (CSeed 7) past (TTuple [TInt I16 true; TInt I16 true]) (VList [VInt 1; VInt 2]) (VList [VInt 2; VInt 1]) (fun _ => 0) 6);
    [exact env_pc_valid|reflexivity|ok|key_ok|key_ok|ok|ok|apply Nat.leb_le; vm_compute; reflexivity|reflexivity|cbn; intuition discriminate].
Qed.
(* a wchar_t of two bytes and a pair of characters *)
Example C80_values_ex : told_apart env_pc Afnv32 le_flavor (CSeed 7) past [SAppend (TInt I16 false) (VInt 258); SResult] [SAppend (TTuple [TInt I8 false; TInt I8 false]) (VList [VInt 1; VInt 2]); SResult].
Proof. apply (C80_values env_pc Afnv32 le_flavor (CSeed 7) past _ _ _ _ (fun _ => 0) 0 3); [exact env_pc_valid|reflexivity|exact I|ok|key_ok|key_ok|differs]. Qed.

(* C63: with fnv1a_64, sets of integers in unordered containers that no seed and no history tells
   apart.  (hash_append adds up the results of the elements of an unordered container.) *)
From Coq Require Import Permutation.
From Verif Require Import Base BaseFacts SpecCommon Gen Bits Hasher GenBlk Types ModelResult ModelAppend SpecAppend ProofMsg ProofMsgEq ProofMsgExt
  ProofAppend Behaves Instances ProofRuns Samples PropsHistory PropsAlg PropsAppend.
From Verif Require Import SpecFnv ProofFnv.
Open Scope N_scope.

(* ---------- (s xor b) + (s xor b xor 3) = (s xor b xor 1) + (s xor b xor 2) ---------- *)
Lemma xor_low x k : k < 4 -> N.lxor x k = 4 * (x / 4) + N.lxor (x mod 4) k.
Proof.
  intros Hk. assert (H4 : forall z, z < 4 -> forall i, 2 <= i -> N.testbit z i = false).
  { intros z Hz i Hi. apply (proj1 (lt_pow2_bits z 2) Hz). exact Hi. }
  pose proof (N.mod_lt x 4 ltac:(discriminate)) as Hm.
  assert (HL : N.lxor (x mod 4) k < 4). { apply (lt_pow2_bits _ 2). intros i Hi. rewrite N.lxor_spec, (H4 _ Hm i Hi), (H4 _ Hk i Hi). reflexivity. }
  rewrite N.add_nocarry_lxor.
  - rewrite <- N.lxor_assoc. f_equal. rewrite <- N.add_nocarry_lxor; [apply N.div_mod; discriminate|].
    apply N.bits_inj. intros i. rewrite N.land_spec, N.bits_0. change 4 with (2^2) at 1. rewrite N.mul_comm.
    destruct (N.lt_ge_cases i 2) as [G|G]; [rewrite N.mul_pow2_bits_low by exact G; reflexivity|rewrite (H4 _ Hm i G); apply andb_false_r].
  - apply N.bits_inj. intros i. rewrite N.land_spec, N.bits_0. change 4 with (2^2) at 1. rewrite N.mul_comm.
    destruct (N.lt_ge_cases i 2) as [G|G]; [rewrite N.mul_pow2_bits_low by exact G; reflexivity|rewrite (H4 _ HL i G); apply andb_false_r].
Qed.
Lemma xor_balance x : x + N.lxor x 3 = N.lxor x 1 + N.lxor x 2.
Proof.
  pose proof (N.mod_lt x 4 ltac:(discriminate)) as Hm. rewrite (xor_low x 3), (xor_low x 1), (xor_low x 2) by reflexivity.
  pose proof (N.div_mod x 4 ltac:(discriminate)) as E. set (q := x / 4) in *. set (r := x mod 4) in *. clearbody q r.
  assert (C : r = 0 \/ r = 1 \/ r = 2 \/ r = 3) by lia. destruct C as [G | [G | [G | G]]]; rewrite G in E |- *; [change (N.lxor 0 3) with 3; change (N.lxor 0 1) with 1; change (N.lxor 0 2) with 2|change (N.lxor 1 3) with 2; change (N.lxor 1 1) with 0; change (N.lxor 1 2) with 3|change (N.lxor 2 3) with 1; change (N.lxor 2 1) with 3; change (N.lxor 2 2) with 0|change (N.lxor 3 3) with 0; change (N.lxor 3 1) with 2; change (N.lxor 3 2) with 1]; lia.
Qed.
Definition octet := FNV1a_octet FNV64.
Lemma octet_balance s b : (octet s b + octet s (N.lxor b 3)) mod 2^64 = (octet s (N.lxor b 1) + octet s (N.lxor b 2)) mod 2^64.
Proof.
  unfold octet, FNV1a_octet, MUL. change (fnv_w FNV64) with 64. set (p := fnv_prime FNV64). clearbody p.
  rewrite <- !N.add_mod by (apply N.pow_nonzero; discriminate). rewrite <- !N.mul_add_distr_r. f_equal. f_equal.
  rewrite <- !N.lxor_assoc. apply xor_balance.
Qed.

(* ---------- the hash of an element ---------- *)
Lemma query_fnv e f c pre m : query e Afnv64 f c pre m = FNV1a FNV64 (state e Afnv64 f c pre ++ m).
Proof.
  unfold query, aq. cbn [machine_of fnv_machine mc_ar mc_au fst result64].
  change (multiplier I64 I64) with 1. rewrite N.mul_1_r. apply N.mod_small.
  unfold FNV1a, FNV1a_from. induction (state e Afnv64 f c pre ++ m) as [|x l IH] using rev_ind; [reflexivity|].
  rewrite fold_left_app. cbn [fold_left]. apply N.mod_lt. discriminate.
Qed.
Lemma query_last e f c pre u b : query e Afnv64 f c pre (u ++ [b]) = octet (query e Afnv64 f c pre u) b.
Proof. rewrite !query_fnv. rewrite app_assoc. unfold FNV1a, FNV1a_from. rewrite fold_left_app. reflexivity. Qed.

(* ---------- the sets ---------- *)
(* four values whose messages differ only in the two low bits of the last byte *)
Record quad := { q_u : list N; q_b : N; q_0 : val; q_1 : val; q_2 : val; q_3 : val }.
Definition last_byte (i : impl) (f : flavor) (t : ty) (d : quad) : Prop :=
  forall q, message i f t (q_0 d) q = q_u d ++ [q_b d] /\ message i f t (q_1 d) q = q_u d ++ [N.lxor (q_b d) 1] /\
            message i f t (q_2 d) q = q_u d ++ [N.lxor (q_b d) 2] /\ message i f t (q_3 d) q = q_u d ++ [N.lxor (q_b d) 3].
(* two of them: the first and the last, or the others *)
Definition half (d : quad) (x : bool) : list val := if x then [q_0 d; q_3 d] else [q_1 d; q_2 d].
Definition halves (ds : list quad) (xs : list bool) : list val := concat (map (fun p => half (fst p) (snd p)) (combine ds xs)).

Lemma sum64_app l1 l2 : sum64 (l1 ++ l2) = (sum64 l1 + sum64 l2) mod 2^64.
Proof.
  unfold sum64. rewrite <- N.add_mod by (apply N.pow_nonzero; discriminate). f_equal.
  induction l1 as [|x l1 IH]; cbn [app fold_right]; lia.
Qed.
Lemma half_sum e f c pre t d x : last_byte (e_impl e) f t d ->
  sum64 (map (fun v => query e Afnv64 f c pre (message (e_impl e) f t v (query e Afnv64 f c pre))) (half d x)) =
  sum64 (map (fun v => query e Afnv64 f c pre (message (e_impl e) f t v (query e Afnv64 f c pre))) (half d true)).
Proof.
  intros H. destruct x; [reflexivity|]. destruct (H (query e Afnv64 f c pre)) as (E0 & E1 & E2 & E3). cbn [half map].
  rewrite E0, E1, E2, E3, !query_last. unfold sum64. cbn [fold_right]. rewrite !N.add_0_r. symmetry. apply octet_balance.
Qed.
Lemma halves_sum e f c pre t ds : Forall (last_byte (e_impl e) f t) ds -> forall xs ys, length xs = length ds -> length ys = length ds ->
  sum64 (map (fun v => query e Afnv64 f c pre (message (e_impl e) f t v (query e Afnv64 f c pre))) (halves ds xs)) =
  sum64 (map (fun v => query e Afnv64 f c pre (message (e_impl e) f t v (query e Afnv64 f c pre))) (halves ds ys)) /\
  length (halves ds xs) = length (halves ds ys).
Proof.
  induction 1 as [|d ds H HD IH]; intros [|x xs] [|y ys] LX LY; try discriminate; [split; reflexivity|].
  injection LX as LX. injection LY as LY. destruct (IH xs ys LX LY) as [IH1 IH2].
  unfold halves in *. cbn [combine map concat fst snd] in *. rewrite !map_app, !sum64_app, !app_length, IH1, IH2, (half_sum _ _ _ _ _ _ x H), (half_sum _ _ _ _ _ _ y H).
  split; [reflexivity|]. destruct x, y; reflexivity.
Qed.
(* For every environment, flavor, seed, history and continuation: all 2^n containers made of one half
   of each of n such quadruples have the same effect *)
Theorem C63_sets e f c pre t ds xs ys post : valid_env e -> Forall (last_byte (e_impl e) f t) ds ->
  length xs = length ds -> length ys = length ds ->
  valid_program e Afnv64 c (pre ++ [SAppend (TUnord t) (VList (halves ds xs))] ++ post) ->
  valid_program e Afnv64 c (pre ++ [SAppend (TUnord t) (VList (halves ds ys))] ++ post) ->
  exists rs, runs e Afnv64 f c (pre ++ [SAppend (TUnord t) (VList (halves ds xs))] ++ post) = Ok rs /\
             runs e Afnv64 f c (pre ++ [SAppend (TUnord t) (VList (halves ds ys))] ++ post) = Ok rs.
Proof.
  intros HE HD LX LY V1 V2. eexists. split; [apply runs_expected; [exact HE|exact V1|apply room_any; discriminate]|].
  rewrite runs_expected; [|exact HE|exact V2|apply room_any; discriminate].
  apply (f_equal (@Ok _)). apply same_state; try reflexivity.
  rewrite !call_state. apply (f_equal (steps_to e Afnv64 f c pre)).
  destruct (halves_sum e f c pre t ds HD xs ys LX LY) as [ES EL].
  unfold call_message. cbn [call_msg form_msg msg]. unfold message in ES. rewrite ES, EL. reflexivity.
Qed.

(* ---------- integers ---------- *)
(* 1 for the last byte of an integer of size s: 1, or the value of the highest byte *)
Definition unit (f : flavor) (s : isz) : Z :=
  match fl_order f with EBig => 1 | ELittle => 2 ^ (8 * (Z.of_nat (ibytes s) - 1)) end.
(* {4j, 4j+3} or {4j+1, 4j+2}, times u, for the j-th of the bits *)
Fixpoint int_set (u j : Z) (xs : list bool) : list Z :=
  match xs with
  | [] => []
  | x :: xs => (if x then [4*j*u; (4*j+3)*u] else [(4*j+1)*u; (4*j+2)*u])%Z ++ int_set u (j + 1) xs
  end.
Definition int_quad (s : isz) (u j : Z) : quad :=
  {| q_u := repeat 0 (ibytes s - 1); q_b := Z.to_N (4*j); q_0 := VInt (4*j*u); q_1 := VInt ((4*j+1)*u); q_2 := VInt ((4*j+2)*u); q_3 := VInt ((4*j+3)*u) |}.
Fixpoint int_quads (s : isz) (u j : Z) (n : nat) : list quad := match n with O => [] | S n => int_quad s u j :: int_quads s u (j + 1) n end.
Lemma int_halves s u xs : forall j, map VInt (int_set u j xs) = halves (int_quads s u j (length xs)) xs.
Proof.
  induction xs as [|x xs IH]; intros j; [reflexivity|]. cbn [int_set length int_quads]. unfold halves in *. cbn [combine map concat fst snd].
  rewrite map_app, IH. now destruct x.
Qed.
Lemma int_quads_length s u n : forall j, length (int_quads s u j n) = n.
Proof. induction n as [|n IH]; intros j; [reflexivity|]. cbn [int_quads length]. now rewrite IH. Qed.
Lemma le_high n k : k < 256 -> le_bytes (S n) (k * 2 ^ (8 * N.of_nat n)) = repeat 0 n ++ [k].
Proof.
  intros Hk. induction n as [|n IH].
  - cbn [le_bytes repeat app]. change (2 ^ (8 * N.of_nat 0)) with 1. rewrite N.mul_1_r. now rewrite N.mod_small.
  - cbn [le_bytes repeat app]. replace (8 * N.of_nat (S n)) with (8 + 8 * N.of_nat n) by lia. rewrite N.pow_add_r. change (2^8) with 256.
    replace (k * (256 * 2 ^ (8 * N.of_nat n))) with (k * 2 ^ (8 * N.of_nat n) * 256) by lia.
    rewrite N.mod_mul, N.div_mul by discriminate. apply (f_equal (cons 0)). exact IH.
Qed.
Lemma le_low n k : k < 256 -> le_bytes (S n) k = k :: repeat 0 n.
Proof.
  intros Hk. cbn [le_bytes]. rewrite N.mod_small, N.div_small by exact Hk. f_equal.
  clear. induction n as [|n IH]; [reflexivity|]. cbn [le_bytes repeat]. change (0 mod 256) with 0. change (0 / 256) with 0. now rewrite IH.
Qed.
Lemma rev_repeat {A} (x : A) n : rev (repeat x n) = repeat x n.
Proof.
  induction n as [|n IH]; [reflexivity|]. cbn [repeat rev]. rewrite IH. clear. induction n as [|n IH]; [reflexivity|]. cbn [repeat app]. now rewrite IH.
Qed.
Lemma last_enc f s k : (0 <= k < 256)%Z -> enc (order_le (fl_order f)) (ibytes s) (k * unit f s) = repeat 0 (ibytes s - 1) ++ [Z.to_N k].
Proof.
  intros Hk. assert (E : exists n, ibytes s = S n) by (destruct s; eexists; reflexivity). destruct E as (n & E).
  unfold enc, unit. cbv zeta. change toLE with le_bytes. unfold toBE. change toLE with le_bytes.
  replace (ibytes s - 1)%nat with n by lia. replace (Z.of_nat (ibytes s) - 1)%Z with (Z.of_nat n) by lia. rewrite E.
  assert (HP : (0 < 2 ^ (8 * Z.of_nat n))%Z) by (apply Z.pow_pos_nonneg; lia).
  assert (HQ : (2 ^ (8 * Z.of_nat (S n)) = 256 * 2 ^ (8 * Z.of_nat n))%Z).
  { replace (8 * Z.of_nat (S n))%Z with (8 + 8 * Z.of_nat n)%Z by lia. rewrite Z.pow_add_r by lia. reflexivity. }
  destruct (fl_order f); cbn [order_le].
  - rewrite Z.mod_small by (rewrite HQ; split; [apply Z.mul_nonneg_nonneg; lia|apply Z.mul_lt_mono_pos_r; lia]).
    rewrite Z2N.inj_mul by lia. replace (Z.to_N (2 ^ (8 * Z.of_nat n))) with (2 ^ (8 * N.of_nat n)).
    + apply le_high. lia.
    + rewrite Z2N.inj_pow by lia. f_equal. lia.
  - rewrite Z.mul_1_r. rewrite Z.mod_small by (rewrite HQ; lia). rewrite le_low by lia. cbn [rev]. now rewrite rev_repeat.
Qed.
Lemma int_last i f s sg j : (0 <= j < 64)%Z -> last_byte i f (TInt s sg) (int_quad s (unit f s) j).
Proof.
  intros Hj q. unfold message. cbn [msg int_quad q_u q_b q_0 q_1 q_2 q_3].
  assert (E : forall k, (0 <= k < 4)%Z -> N.lxor (Z.to_N (4*j)) (Z.to_N k) = Z.to_N (4*j + k)).
  { intros k Hk. rewrite xor_low by lia. replace (Z.to_N (4*j)) with (4 * Z.to_N j) by lia.
    replace (4 * Z.to_N j / 4) with (Z.to_N j) by (rewrite (N.mul_comm 4); now rewrite N.div_mul). replace (4 * Z.to_N j mod 4) with 0 by (rewrite (N.mul_comm 4); now rewrite N.mod_mul). rewrite N.lxor_0_l. lia. }
  rewrite !last_enc by lia. change 1 with (Z.to_N 1). change 2 with (Z.to_N 2). change 3 with (Z.to_N 3). rewrite !E by lia. repeat split.
Qed.
Lemma int_quads_last i f s sg n : forall j, (0 <= j)%Z -> (j + Z.of_nat n <= 64)%Z -> Forall (last_byte i f (TInt s sg)) (int_quads s (unit f s) j n).
Proof.
  induction n as [|n IH]; intros j H1 H2; cbn [int_quads]; constructor; [apply int_last; lia|apply IH; lia].
Qed.
Lemma unit_pos f s : (0 < unit f s)%Z.
Proof. unfold unit. destruct (fl_order f); [apply Z.pow_pos_nonneg; destruct s; cbn; lia|lia]. Qed.
Lemma unit_top f s : (256 * unit f s <= 2 ^ (8 * Z.of_nat (ibytes s)))%Z.
Proof.
  unfold unit. assert (H : (1 <= Z.of_nat (ibytes s))%Z) by (destruct s; cbn; lia).
  replace (8 * Z.of_nat (ibytes s))%Z with (8 + 8 * (Z.of_nat (ibytes s) - 1))%Z by lia. rewrite Z.pow_add_r by lia. change (2 ^ 8)%Z with 256%Z.
  destruct (fl_order f); [lia|]. assert (0 < 2 ^ (8 * (Z.of_nat (ibytes s) - 1)))%Z by (apply Z.pow_pos_nonneg; lia). lia.
Qed.
Lemma int_set_range u xs : (0 < u)%Z -> forall j z, (0 <= j)%Z -> In z (int_set u j xs) -> (4*j*u <= z <= (4 * (j + Z.of_nat (length xs)) - 1) * u)%Z.
Proof.
  intros Hu. induction xs as [|x xs IH]; intros j z Hj HI; [contradiction|]. cbn [int_set] in HI. apply in_app_iff in HI. cbn [length].
  rewrite Nat2Z.inj_succ. set (m := Z.of_nat (length xs)) in *. assert (0 <= m)%Z by lia.
  assert (B : forall a b, (a <= b)%Z -> (a * u <= b * u)%Z) by (intros; apply Z.mul_le_mono_nonneg_r; lia).
  destruct HI as [HI|HI].
  - destruct x; cbn [In] in HI; destruct HI as [<- | [<- | []]]; split; apply B; lia.
  - apply IH in HI; [|lia]. destruct HI as [H1 H2]. split; [refine (Z.le_trans _ _ _ _ H1)|refine (Z.le_trans _ _ _ H2 _)]; apply B; lia.
Qed.
Lemma int_set_nodup u xs : (0 < u)%Z -> forall j, (0 <= j)%Z -> NoDup (int_set u j xs).
Proof.
  intros Hu. assert (B : forall a b, (a < b)%Z -> (a * u < b * u)%Z) by (intros; apply Z.mul_lt_mono_pos_r; lia).
  induction xs as [|x xs IH]; intros j Hj; [constructor|].
  assert (HR : forall z, In z (int_set u (j + 1) xs) -> (4*(j+1)*u <= z)%Z) by (intros z HI; apply int_set_range in HI; lia).
  specialize (IH (j + 1)%Z ltac:(lia)). pose proof (B (4*j) (4*j+3) ltac:(lia))%Z as B1. pose proof (B (4*j+1) (4*j+2) ltac:(lia))%Z as B2.
  pose proof (B (4*j) (4*(j+1)) ltac:(lia))%Z as B3. pose proof (B (4*j+3) (4*(j+1)) ltac:(lia))%Z as B4.
  pose proof (B (4*j+1) (4*(j+1)) ltac:(lia))%Z as B5. pose proof (B (4*j+2) (4*(j+1)) ltac:(lia))%Z as B6.
  cbn [int_set]. destruct x; cbn [app]; (constructor; [|constructor; [|exact IH]]); cbn [In];
    intros H; repeat (destruct H as [H|H]); try (apply HR in H); lia.
Qed.
Lemma int_set_other u xs : (0 < u)%Z -> forall j ys, (0 <= j)%Z -> length xs = length ys -> xs <> ys -> exists z, In z (int_set u j xs) /\ ~ In z (int_set u j ys).
Proof.
  intros Hu. assert (B : forall a b, (a < b)%Z -> (a * u < b * u)%Z) by (intros; apply Z.mul_lt_mono_pos_r; lia).
  induction xs as [|x xs IH]; intros j [|y ys] Hj HL HN; try discriminate; [easy|]. injection HL as HL.
  assert (HR : forall z, In z (int_set u (j + 1) ys) -> (4*(j+1)*u <= z)%Z) by (intros z HI; apply int_set_range in HI; lia).
  pose proof (B (4*j) (4*j+1) ltac:(lia))%Z as B1. pose proof (B (4*j+1) (4*j+2) ltac:(lia))%Z as B2. pose proof (B (4*j+2) (4*j+3) ltac:(lia))%Z as B3.
  pose proof (B (4*j+3) (4*(j+1)) ltac:(lia))%Z as B4.
  destruct (Bool.bool_dec x y) as [->|NE].
  - destruct (IH (j + 1)%Z ys ltac:(lia) HL ltac:(congruence)) as (z & I1 & I2). exists z. cbn [int_set]. split; [apply in_app_iff; now right|].
    rewrite in_app_iff. intros [H|H]; [|contradiction]. apply int_set_range in I1; [|lia|lia]. destruct I1 as [I1 _].
    destruct y; cbn [In] in H; destruct H as [<- | [<- | []]]; lia.
  - exists (if x then 4*j*u else (4*j+1)*u)%Z. cbn [int_set]. split; [apply in_app_iff; left; destruct x; now left|].
    rewrite in_app_iff. intros [H|H]; [|apply HR in H; destruct x; lia].
    destruct x, y; try congruence; cbn [In] in H; destruct H as [H | [H | []]]; lia.
Qed.
(* Sets of unsigned integers of any size: for all n <= 64, the 2^n sets given by the lists of n bits
   have the same effect in every program.  They are sets: no element occurs twice, and they differ. *)
Definition set_of (f : flavor) (s : isz) (xs : list bool) : list Z := int_set (unit f s) 0 xs.
Theorem C63_integers e f c pre s xs ys post : valid_env e -> length xs = length ys -> (length xs <= 64)%nat ->
  valid_program e Afnv64 c (pre ++ post) ->
  (exists rs, runs e Afnv64 f c (pre ++ [SAppend (TUnord (TInt s false)) (VList (map VInt (set_of f s xs)))] ++ post) = Ok rs /\
              runs e Afnv64 f c (pre ++ [SAppend (TUnord (TInt s false)) (VList (map VInt (set_of f s ys)))] ++ post) = Ok rs) /\
  NoDup (set_of f s xs) /\ (xs <> ys -> exists z, In z (set_of f s xs) /\ ~ In z (set_of f s ys)).
Proof.
  intros HE HL HX HV. split; [|split; [apply int_set_nodup; [apply unit_pos|lia]|intros HN; now apply int_set_other; [apply unit_pos|lia| |]]].
  assert (HP : forall zs, length zs = length xs -> valid_program e Afnv64 c (pre ++ [SAppend (TUnord (TInt s false)) (VList (map VInt (set_of f s zs)))] ++ post)).
  { intros zs HZ. apply (valid_replace e Afnv64 c pre []); [exact HV|]. constructor; [|constructor]. cbn [valid_step call_ok call_null_free has_type null_free form_ok form_null].
    split; [|intros H; right; clear; induction (map VInt _); constructor; auto; now destruct a].
    apply Forall_forall. intros v Hv. apply in_map_iff in Hv. destruct Hv as (z & <- & Hz).
    apply int_set_range in Hz; [|apply unit_pos|lia]. pose proof (unit_pos f s) as UP. pose proof (unit_top f s) as UT.
    cbn [has_type in_int]. unfold in_int. split; [lia|]. destruct Hz as [_ Hz]. eapply Z.le_lt_trans; [exact Hz|].
    eapply Z.lt_le_trans; [|exact UT]. apply Z.mul_lt_mono_pos_r; [exact UP|]. lia. }
  pose proof (HP xs eq_refl) as V1. pose proof (HP ys (eq_sym HL)) as V2. unfold set_of in *.
  rewrite (int_halves s (unit f s) xs 0), (int_halves s (unit f s) ys 0), <- HL in *.
  apply C63_sets; try assumption; try (now rewrite int_quads_length). apply int_quads_last; lia.
Qed.
(* std::unordered_set<unsigned char>{ 0, 3 } and { 1, 2 }, in any program; uint32_t, big-endian; little-endian *)
Example C63_integers_ex e f c pre post : valid_env e -> valid_program e Afnv64 c (pre ++ post) ->
  exists rs, runs e Afnv64 f c (pre ++ [SAppend (TUnord (TInt I8 false)) (VList [VInt 0; VInt 3])] ++ post) = Ok rs /\
             runs e Afnv64 f c (pre ++ [SAppend (TUnord (TInt I8 false)) (VList [VInt 1; VInt 2])] ++ post) = Ok rs.
Proof.
  intros HE HV. destruct (C63_integers e f c pre I8 [true] [false] post HE eq_refl ltac:(cbn; lia) HV) as [H _].
  unfold set_of, unit in H. destruct (fl_order f); exact H.
Qed.
Example C63_integers_pc : exists rs,
  runs env_pc Afnv64 le_flavor (CSeed 7) (sample ++ [SAppend (TUnord (TInt I16 false)) (VList [VInt 0; VInt 0x300; VInt 0x500; VInt 0x600])] ++ [SResult]) = Ok rs /\
  runs env_pc Afnv64 le_flavor (CSeed 7) (sample ++ [SAppend (TUnord (TInt I16 false)) (VList [VInt 0x100; VInt 0x200; VInt 0x400; VInt 0x700])] ++ [SResult]) = Ok rs.
Proof.
  apply (C63_integers env_pc le_flavor (CSeed 7) sample I16 [true; false] [false; true] [SResult]).
  - exact env_pc_valid. - reflexivity. - cbn; lia.
  - apply steps_valid; [reflexivity|reflexivity|]. unfold steps_ok. rewrite Forall_app. split; [exact sample_ok|repeat constructor].
Qed.

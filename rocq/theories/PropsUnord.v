(* C70: an unordered container contributes 64 bits and its size, whatever the algorithm: among sets of
   integers of one size, many have the same effect, for every algorithm, seed and history. *)
From Verif Require Import Base BaseFacts SpecCommon Gen Bits Hasher GenBlk Types ModelResult ModelAppend SpecAppend ProofMsg ProofMsgEq ProofMsgExt
  ProofAppend Behaves Instances ProofRuns Samples PropsHistory PropsAlg PropsAppend.
Open Scope N_scope.

(* ---------- a pigeonhole principle ---------- *)
Lemma pigeons {A} (g : A -> N) k M : forall l, (forall x, In x l -> g x < M) -> k * M < N.of_nat (length l) ->
  exists v, k < N.of_nat (length (filter (fun x => N.eqb (g x) v) l)).
Proof.
  induction M as [|M IH] using N.peano_ind; intros l HB HL.
  - destruct l as [|x l]; [cbn [length] in HL; lia|]. specialize (HB x (or_introl eq_refl)). lia.
  - destruct (N.lt_ge_cases k (N.of_nat (length (filter (fun x => N.eqb (g x) M) l)))) as [G|G]; [now exists M|].
    destruct (IH (filter (fun x => negb (N.eqb (g x) M)) l)) as (v & Hv).
    + intros x Hx. apply filter_In in Hx. destruct Hx as [H1 H2]. specialize (HB x H1). apply Bool.negb_true_iff, N.eqb_neq in H2. lia.
    + assert (E : (length (filter (fun x => N.eqb (g x) M) l) + length (filter (fun x => negb (N.eqb (g x) M)) l) = length l)%nat).
      { clear. induction l as [|x l IH]; [reflexivity|]. cbn [filter]. destruct (N.eqb (g x) M); cbn [negb length]; lia. }
      rewrite N.mul_succ_r in HL. lia.
    + exists v. eapply N.lt_le_trans; [exact Hv|]. clear.
      assert (H : (length (filter (fun x => N.eqb (g x) v) (filter (fun x => negb (N.eqb (g x) M)) l)) <= length (filter (fun x => N.eqb (g x) v) l))%nat); [|lia].
      induction l as [|x l IH]; [apply le_n|]. cbn [filter]. destruct (N.eqb (g x) M); cbn [negb filter]; destruct (N.eqb (g x) v); cbn [length]; lia.
Qed.
Fixpoint all_bits (n : nat) : list (list bool) :=
  match n with O => [[]] | S n => map (cons false) (all_bits n) ++ map (cons true) (all_bits n) end.
Lemma all_bits_length n : N.of_nat (length (all_bits n)) = 2 ^ N.of_nat n.
Proof.
  induction n as [|n IH]; [reflexivity|]. cbn [all_bits]. rewrite app_length, !map_length, Nat2N.inj_add, IH, Nat2N.inj_succ, N.pow_succ_r'. lia.
Qed.
Lemma all_bits_in n : forall xs, In xs (all_bits n) -> length xs = n.
Proof.
  induction n as [|n IH]; cbn [all_bits]; intros xs H; [destruct H as [<- | []]; reflexivity|].
  apply in_app_iff in H. destruct H as [H|H]; apply in_map_iff in H; destruct H as (ys & <- & H); cbn [length]; now rewrite (IH ys).
Qed.
Lemma all_bits_nodup n : NoDup (all_bits n).
Proof.
  induction n as [|n IH]; cbn [all_bits]; [constructor; [easy|constructor]|].
  assert (HM : forall b, NoDup (map (cons b) (all_bits n))) by (intros b; apply FinFun.Injective_map_NoDup; [intros x y E; now injection E|exact IH]).
  generalize (HM false), (HM true). generalize (all_bits n) at 2 4. generalize (all_bits n). intros l1 l2 H1 H2.
  induction l1 as [|x l1 IH1]; [exact H2|]. cbn [map app]. inversion H1; subst. constructor; [|now apply IH1].
  rewrite in_app_iff. intros [H|H]; [contradiction|]. apply in_map_iff in H. destruct H as (y & E & _). discriminate.
Qed.

(* ---------- choices ---------- *)
(* one value of each pair *)
Definition choose {A} (ps : list (A * A)) (xs : list bool) : list A := map (fun p : (A * A) * bool => if snd p then snd (fst p) else fst (fst p)) (combine ps xs).
Lemma choose_length {A} (ps : list (A * A)) xs : length xs = length ps -> length (choose ps xs) = length ps.
Proof. intros H. unfold choose. rewrite map_length, combine_length, H. apply Nat.min_id. Qed.
Lemma choose_in {A} (ps : list (A * A)) : forall xs v, In v (choose ps xs) -> exists p, In p ps /\ (v = fst p \/ v = snd p).
Proof.
  induction ps as [|[a b] ps IH]; intros [|x xs] v H; try contradiction. destruct H as [<- | H].
  - exists (a, b). split; [now left|]. cbn [fst snd]. destruct x; auto.
  - destruct (IH xs v H) as (p & H1 & H2). exists p. split; [now right|exact H2].
Qed.

(* For every environment, algorithm, flavor, seed and history, and for every n pairs of values of any
   type: among the 2^n containers that hold one value of each pair, at least 2^(n-64) have the same
   effect, whatever is called afterwards. *)
Definition same_effect (e : env) (a : alg) (f : flavor) (c : ctor) (pre : list ustep) (t : ty) (ls : list (list val)) : Prop :=
  forall post, exists rs, forall vs, In vs ls ->
    valid_program e a c (pre ++ [SAppend (TUnord t) (VList vs)] ++ post) -> room e a c (pre ++ [SAppend (TUnord t) (VList vs)] ++ post) ->
    runs e a f c (pre ++ [SAppend (TUnord t) (VList vs)] ++ post) = Ok rs.
Theorem C70_values e a f c pre t ps : valid_env e ->
  exists xss, NoDup xss /\ Forall (fun xs => length xs = length ps) xss /\
    2 ^ N.of_nat (length ps) <= 2 ^ 64 * N.of_nat (length xss) /\
    same_effect e a f c pre t (map (choose ps) xss).
Proof.
  intros HE. set (q := query e a f c pre). set (g := fun xs => sum64 (map (fun v => q (message (e_impl e) f t v q)) (choose ps xs))).
  set (n := length ps).
  assert (HP : 0 < 2 ^ 64) by reflexivity.
  assert (H2 : 0 < 2 ^ N.of_nat n) by (apply N.neq_0_lt_0, N.pow_nonzero; discriminate).
  set (k := (2 ^ N.of_nat n - 1) / 2 ^ 64).
  assert (HK : 2^64 * k <= 2 ^ N.of_nat n - 1) by (apply N.mul_div_le; discriminate).
  assert (HK2 : 2 ^ N.of_nat n - 1 < 2^64 * (k + 1)) by (rewrite N.add_1_r; apply N.mul_succ_div_gt; discriminate).
  destruct (pigeons g k (2^64) (all_bits n)) as (v & Hv).
  { intros xs _. unfold g, sum64. apply N.mod_lt. discriminate. }
  { rewrite all_bits_length, N.mul_comm. clear - HK H2. lia. }
  exists (filter (fun x => N.eqb (g x) v) (all_bits n)). set (xss := filter _ _) in *.
  assert (HI : forall xs, In xs xss -> length xs = n /\ g xs = v).
  { intros xs H. apply filter_In in H. destruct H as [G1 G2]. split; [now apply all_bits_in|now apply N.eqb_eq]. }
  repeat split.
  - apply NoDup_filter, all_bits_nodup.
  - apply Forall_forall. intros xs H. apply (HI xs H).
  - clearbody k. apply N.lt_succ_r. assert (2^64 * (k + 1) <= 2^64 * N.of_nat (length xss)) by (apply N.mul_le_mono_l; lia). clear - H HK2 H2. lia.
  - intros post. destruct xss as [|ys xss'] eqn:EX; [exists []; intros vs []|].
    exists (expected e a f c (pre ++ [SAppend (TUnord t) (VList (choose ps ys))] ++ post)).
    intros vs HV V R. apply in_map_iff in HV. destruct HV as (xs & <- & HX).
    destruct (HI xs HX) as [LX GX]. destruct (HI ys (or_introl eq_refl)) as [LY GY].
    rewrite runs_expected; [|exact HE|exact V|exact R]. apply (f_equal (@Ok _)). apply same_state; try reflexivity.
    rewrite !call_state. apply (f_equal (steps_to e a f c pre)).
    unfold call_message. cbn [call_msg form_msg msg]. change (query e a f c pre) with q. unfold g, message in GX, GY. rewrite GX, GY, !choose_length by assumption. reflexivity.
Qed.

(* ---------- sets of integers ---------- *)
(* {2j or 2j+1, 2j+2 or 2j+3, ...}, one for each of the bits *)
Fixpoint int_set (j : Z) (xs : list bool) : list Z :=
  match xs with [] => [] | x :: xs => (2 * j + if x then 1 else 0)%Z :: int_set (j + 1) xs end.
Fixpoint int_pairs (j : Z) (n : nat) : list (val * val) :=
  match n with O => [] | S n => (VInt (2 * j), VInt (2 * j + 1)) :: int_pairs (j + 1) n end.
Lemma int_pairs_length n : forall j, length (int_pairs j n) = n.
Proof. induction n as [|n IH]; intros j; cbn [int_pairs length]; [reflexivity|]. now rewrite IH. Qed.
Lemma int_choose xs : forall j, choose (int_pairs j (length xs)) xs = map VInt (int_set j xs).
Proof.
  induction xs as [|x xs IH]; intros j; [reflexivity|]. cbn [length int_pairs int_set map]. unfold choose in *. cbn [combine map fst snd].
  rewrite IH. f_equal. destruct x; [reflexivity|]. now rewrite Z.add_0_r.
Qed.
Lemma int_set_length xs : forall j, length (int_set j xs) = length xs.
Proof. induction xs as [|x xs IH]; intros j; cbn [int_set length]; [reflexivity|]. now rewrite IH. Qed.
Lemma int_set_range xs : forall j z, In z (int_set j xs) -> (2 * j <= z < 2 * (j + Z.of_nat (length xs)))%Z.
Proof.
  induction xs as [|x xs IH]; intros j z H; [contradiction|]. cbn [length]. rewrite Nat2Z.inj_succ. destruct H as [<- | H]; [destruct x; lia|].
  apply IH in H. lia.
Qed.
Lemma int_set_nodup xs : forall j, NoDup (int_set j xs).
Proof.
  induction xs as [|x xs IH]; intros j; cbn [int_set]; constructor; [|apply IH]. intros H. apply int_set_range in H. destruct x; lia.
Qed.
Lemma int_set_other xs : forall j ys, length xs = length ys -> xs <> ys -> exists z, In z (int_set j xs) /\ ~ In z (int_set j ys).
Proof.
  induction xs as [|x xs IH]; intros j [|y ys] HL HN; try discriminate; [easy|]. injection HL as HL. destruct (Bool.bool_dec x y) as [->|NE].
  - destruct (IH (j + 1)%Z ys HL ltac:(congruence)) as (z & H1 & H2). exists z. cbn [int_set In]. split; [now right|].
    intros [H|H]; [|contradiction]. apply int_set_range in H1. destruct y; lia.
  - exists (2 * j + if x then 1 else 0)%Z. cbn [int_set In]. split; [now left|]. intros [H|H]; [destruct x, y; try congruence; lia|].
    apply int_set_range in H. destruct x; lia.
Qed.
(* the number of values of a type that are not negative *)
Definition natural (s : isz) (sg : bool) : Z := 2 ^ (8 * Z.of_nat (ibytes s) - if sg then 1 else 0).
Lemma int_set_valid e a s sg xs : (2 * Z.of_nat (length xs) <= natural s sg)%Z ->
  valid_step (nul_of a) (e_impl e) (SAppend (TUnord (TInt s sg)) (VList (map VInt (int_set 0 xs)))).
Proof.
  intros HN. cbn [valid_step call_ok call_null_free has_type null_free form_ok form_null].
  split; [|intros H; right; clear; induction (map VInt _); constructor; auto; now destruct a].
  apply Forall_forall. intros v Hv. apply in_map_iff in Hv. destruct Hv as (z & <- & Hz). apply int_set_range in Hz.
  cbn [has_type]. unfold in_int. unfold natural in HN. destruct sg; [|rewrite Z.sub_0_r in HN; lia]. 
  assert (0 < 2 ^ (8 * Z.of_nat (ibytes s) - 1))%Z by (apply Z.pow_pos_nonneg; destruct s; cbn; lia). lia.
Qed.
(* Unordered sets of integers of any type, in any environment, with any algorithm (the cryptographic and
   the keyed ones included), flavor, seed and history: among the sets of n elements given by the lists
   of n bits, at least 2^(n-64), and they are all different, have the same effect in every program. *)
Theorem C70_integers e a f c pre s sg n : valid_env e -> (2 * Z.of_nat n <= natural s sg)%Z ->
  exists xss : list (list bool), 2 ^ N.of_nat n <= 2 ^ 64 * N.of_nat (length xss) /\
    (forall xs, In xs xss -> length (int_set 0 xs) = n /\ NoDup (int_set 0 xs)) /\
    (forall xs ys, In xs xss -> In ys xss -> xs <> ys -> exists z, In z (int_set 0 xs) /\ ~ In z (int_set 0 ys)) /\
    NoDup xss /\
    forall post, valid_program e a c (pre ++ post) -> exists rs, forall xs, In xs xss ->
      room e a c (pre ++ [SAppend (TUnord (TInt s sg)) (VList (map VInt (int_set 0 xs)))] ++ post) ->
      runs e a f c (pre ++ [SAppend (TUnord (TInt s sg)) (VList (map VInt (int_set 0 xs)))] ++ post) = Ok rs.
Proof.
  intros HE HN. destruct (C70_values e a f c pre (TInt s sg) (int_pairs 0 n) HE) as (xss & H1 & H2 & H3 & H4).
  rewrite int_pairs_length in H2, H3. rewrite Forall_forall in H2. exists xss. split; [exact H3|]. split; [|split; [|split; [exact H1|]]].
  - intros xs HX. split; [|apply int_set_nodup]. pose proof (H2 xs HX) as HL. rewrite <- (map_length VInt), <- int_choose, HL, choose_length; rewrite int_pairs_length; auto.
  - intros xs ys HX HY. apply int_set_other. now rewrite (H2 xs HX), (H2 ys HY).
  - intros post HV. destruct (H4 post) as (rs & HR). exists rs. intros xs HX R. pose proof (H2 xs HX) as HL.
    specialize (HR (map VInt (int_set 0 xs))). apply HR; [|apply (valid_replace e a c pre []); [exact HV|]|exact R].
    + apply in_map_iff. exists xs. split; [|exact HX]. rewrite <- HL. apply int_choose.
    + constructor; [|constructor]. apply int_set_valid. now rewrite HL.
Qed.
(* So in every case there are two different sets of 65 integers below 130 that have the same effect *)
Corollary C70_collision e a f c pre s sg : valid_env e -> (130 <= natural s sg)%Z ->
  exists z1 z2, length z1 = 65%nat /\ length z2 = 65%nat /\ NoDup z1 /\ NoDup z2 /\ Forall (fun z => 0 <= z < 130)%Z (z1 ++ z2) /\
    (exists z, In z z1 /\ ~ In z z2) /\
    forall post, valid_program e a c (pre ++ post) ->
      room e a c (pre ++ [SAppend (TUnord (TInt s sg)) (VList (map VInt z1))] ++ post) ->
      exists rs, runs e a f c (pre ++ [SAppend (TUnord (TInt s sg)) (VList (map VInt z1))] ++ post) = Ok rs /\
                 runs e a f c (pre ++ [SAppend (TUnord (TInt s sg)) (VList (map VInt z2))] ++ post) = Ok rs.
Proof.
  intros HE HN. destruct (C70_integers e a f c pre s sg 65 HE HN) as (xss & H1 & H2 & H3 & H4 & H5).
  destruct xss as [|xs [|ys xss]]; [vm_compute in H1; elim (H1 eq_refl)|vm_compute in H1; elim (H1 eq_refl)|].
  assert (NE : xs <> ys) by (inversion H4; subst; intros ->; cbn [In] in *; tauto).
  destruct (H2 xs ltac:(now left)) as [LX NX]. destruct (H2 ys ltac:(right; now left)) as [LY NY].
  assert (B : forall zs, length (int_set 0 zs) = 65%nat -> Forall (fun z => 0 <= z < 130)%Z (int_set 0 zs)).
  { intros zs HL. apply Forall_forall. intros z Hz. apply int_set_range in Hz. rewrite int_set_length in HL. rewrite HL in Hz. lia. }
  exists (int_set 0 xs), (int_set 0 ys). repeat (split; [assumption|]). split; [apply Forall_app; auto|]. split; [apply H3; [now left|right; now left|exact NE]|].
  intros post HV R. destruct (H5 post HV) as (rs & HR). exists rs. split; apply HR; [now left|exact R|right; now left|].
  apply (room_replace e a c pre _ post _ R). unfold weight. cbn [map step_weight call_blen blen form_blen lsum fold_right].
  assert (EW : forall zs, lsum (map (fun _ : val => (192 + 8)%nat) (map VInt zs)) = (length zs * (192 + 8))%nat).
  { induction zs as [|z zs IH]; [reflexivity|]. cbn [map lsum fold_right length Nat.mul]. unfold lsum in IH. rewrite IH. reflexivity. }
  rewrite !EW, LX, LY. apply le_n.
Qed.
(* std::unordered_set<unsigned char>, hmac_sha2_512 with a key *)
Example C70_collision_ex : exists z1 z2, NoDup z1 /\ NoDup z2 /\ (exists z, In z z1 /\ ~ In z z2) /\ exists rs,
  runs env_pc (Ahmac Asha512) le_flavor (CSeed 7) (sample ++ [SAppend (TUnord (TInt I8 false)) (VList (map VInt z1))] ++ [SResult]) = Ok rs /\
  runs env_pc (Ahmac Asha512) le_flavor (CSeed 7) (sample ++ [SAppend (TUnord (TInt I8 false)) (VList (map VInt z2))] ++ [SResult]) = Ok rs.
Proof.
  destruct (C70_collision env_pc (Ahmac Asha512) le_flavor (CSeed 7) sample I8 false env_pc_valid ltac:(vm_compute; discriminate))
    as (z1 & z2 & _ & _ & N1 & N2 & _ & D & H).
  exists z1, z2. repeat (split; [assumption|]). apply H; [|apply room_any; discriminate].
  apply steps_valid; [reflexivity|reflexivity|]. unfold steps_ok. rewrite Forall_app. split; [exact sample_ok|repeat constructor].
Qed.
(* with n = 128: 2^64 sets of 128 unsigned chars *)
Example C70_integers_ex a pre : a <> Aspooky -> valid_program env_pc a (CSeed 7) (pre ++ [SResult]) ->
  exists xss : list (list bool), 2^64 <= N.of_nat (length xss) /\ NoDup xss /\ (forall xs, In xs xss -> NoDup (int_set 0 xs) /\ length (int_set 0 xs) = 128%nat) /\
    exists rs, forall xs, In xs xss -> runs env_pc a le_flavor (CSeed 7) (pre ++ [SAppend (TUnord (TInt I8 false)) (VList (map VInt (int_set 0 xs)))] ++ [SResult]) = Ok rs.
Proof.
  intros HA HV. destruct (C70_integers env_pc a le_flavor (CSeed 7) pre I8 false 128 env_pc_valid ltac:(vm_compute; discriminate)) as (xss & H1 & H2 & H3 & H4 & H5).
  exists xss. change (2 ^ N.of_nat 128) with (2^64 * 2^64) in H1. apply N.mul_le_mono_pos_l in H1; [|reflexivity].
  repeat (split; [assumption|]). split; [intros xs HX; now destruct (H2 xs HX)|].
  destruct (H5 [SResult] HV) as (rs & HR). exists rs. intros xs HX. apply HR; [exact HX|]. now apply room_any.
Qed.

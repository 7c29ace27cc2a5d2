(* C56: the digests of one hash object (or of objects with different seeds) repeat only through collisions of
   the compression function; those of xxhash_32 and siphash_32 do repeat. *)
From Verif Require Import Base BaseFacts SpecCommon Gen Bits GenMD Hasher GenBlk Types ModelResult ModelAppend SpecAppend
  Behaves Instances ProofRuns Samples PropsHistory PropsAlg PropsAppend PropsResults ProofMurmurDistinct ProofReduce PropsReduce.
From Verif Require Import SpecMd5 SpecSha1 SpecRipemd SpecSha2 SpecHmac ProofHmac.
Open Scope N_scope.

(* the bytes passed to update(), and the number of calls of result() *)
Fixpoint op_bytes (ops : list op) : nat :=
  match ops with [] => 0 | OUpdate _ n :: t => n + op_bytes t | OResult :: t => op_bytes t end.
Fixpoint op_results (ops : list op) : nat :=
  match ops with [] => 0 | OUpdate _ _ :: t => op_results t | OResult :: t => S (op_results t) end.

(* messages of increasing lengths *)
Inductive growing : nat -> list (list N) -> Prop :=
| grow_nil n : growing n []
| grow_cons n l t : (n <= length l)%nat -> growing (S (length l)) t -> growing n (l :: t).
Lemma growing_ge n t : growing n t -> forall l, In l t -> (n <= length l)%nat.
Proof.
  induction 1 as [|n l t HL HG IH]; intros k Hk; [contradiction|]. destruct Hk as [-> | Hk]; [exact HL|].
  specialize (IH _ Hk). lia.
Qed.
Lemma growing_nodup n t : growing n t -> NoDup t.
Proof.
  induction 1 as [|n l t HL HG IH]; constructor; [|exact IH]. intros HI. pose proof (growing_ge _ _ HG _ HI). lia.
Qed.
Lemma growing_le n n' t : (n' <= n)%nat -> growing n t -> growing n' t.
Proof. intros HL HG. inversion HG; subst; constructor; [lia|assumption]. Qed.

(* The messages the results are the digests of: the bytes fed so far, where each earlier result() contributes the
   padding it processed; for hmac, those of the outer hash, fed with the digests of the inner one. *)
Fixpoint vmsgs (pad : list N -> list N) (l : list N) (ops : list op) : list (list N) :=
  match ops with
  | [] => []
  | OUpdate p n :: t => vmsgs pad (l ++ data p n) t
  | OResult :: t => l :: vmsgs pad (pad l) t
  end.
Fixpoint hmsgs (pad hash : list N -> list N) (li lo : list N) (ops : list op) : list (list N) :=
  match ops with
  | [] => []
  | OUpdate p n :: t => hmsgs pad hash (li ++ data p n) lo t
  | OResult :: t => (lo ++ hash li) :: hmsgs pad hash (pad li) (pad (lo ++ hash li)) t
  end.
Lemma digests_vmsgs pad hash ops : forall l, digests pad hash l ops = map hash (vmsgs pad l ops).
Proof. induction ops as [|[p n|] ops IH]; intros l; cbn [digests vmsgs map]; [reflexivity|apply IH|now rewrite IH]. Qed.
Lemma hmac_hmsgs pad hash ops : forall li lo, hmac_digests pad hash li lo ops = map hash (hmsgs pad hash li lo ops).
Proof. induction ops as [|[p n|] ops IH]; intros li lo; cbn [hmac_digests hmsgs map]; [reflexivity|apply IH|now rewrite IH]. Qed.
Lemma pad_longer m l : (S (length l) <= length (pad_of m l))%nat.
Proof. rewrite pad_md. unfold MDpad. rewrite !app_length. cbn [length]. lia. Qed.
Lemma vmsgs_growing m ops : forall l, growing (length l) (vmsgs (pad_of m) l ops).
Proof.
  induction ops as [|[p n|] ops IH]; intros l; cbn [vmsgs]; [constructor| |].
  - eapply growing_le; [|apply IH]. rewrite app_length. lia.
  - constructor; [lia|]. eapply growing_le; [apply pad_longer|apply IH].
Qed.
Lemma hmsgs_growing m hash ops : forall li lo, growing (length lo) (hmsgs (pad_of m) hash li lo ops).
Proof.
  induction ops as [|[p n|] ops IH]; intros li lo; cbn [hmsgs]; [constructor|apply IH|].
  constructor; [rewrite app_length; lia|]. eapply growing_le; [apply pad_longer|apply IH].
Qed.
Lemma op_data nul p n : valid_op nul (OUpdate p n) -> bytes (data p n) /\ length (data p n) = n.
Proof. intros H. exact (valid_data _ _ _ H). Qed.
Lemma vmsgs_facts nul m ops : Forall (valid_op nul) ops -> forall l, bytes l ->
  Forall (fun x => bytes x /\ (length x <= length l + op_bytes ops + 145 * op_results ops)%nat) (vmsgs (pad_of m) l ops).
Proof.
  induction 1 as [|[p n|] ops HV HF IH]; intros l Hl; cbn [vmsgs op_bytes op_results]; [constructor| |].
  - destruct (op_data _ _ _ HV) as [Hb Hn]. eapply Forall_impl; [|apply IH; apply bytes_app; split; assumption].
    cbn beta. intros x [Hx Lx]. split; [exact Hx|]. rewrite app_length, Hn in Lx. lia.
  - constructor; [split; [exact Hl|lia]|]. eapply Forall_impl; [|apply IH, pad_bytes', Hl].
    cbn beta. intros x [Hx Lx]. split; [exact Hx|]. pose proof (pad_length m l). lia.
Qed.
Lemma hmsgs_facts nul m ops : Forall (valid_op nul) ops -> forall li lo, bytes li -> bytes lo ->
  Forall (fun x => bytes x /\ (length x <= length lo + 209 * op_results ops)%nat) (hmsgs (pad_of m) (hash_of m) li lo ops).
Proof.
  assert (LH : (size_of_md m <= 64)%nat) by (destruct m; cbn; lia).
  induction 1 as [|[p n|] ops HV HF IH]; intros li lo Hi Ho; cbn [hmsgs op_results]; [constructor| |].
  - destruct (op_data _ _ _ HV) as [Hb Hn]. apply IH; [apply bytes_app; split; assumption|exact Ho].
  - assert (HX : bytes (lo ++ hash_of m li)) by (apply bytes_app; split; [exact Ho|apply hash_bytes]).
    constructor; [split; [exact HX|rewrite app_length, hash_length; lia]|].
    eapply Forall_impl; [|apply IH; [apply pad_bytes', Hi|apply pad_bytes', HX]].
    cbn beta. intros x [Hx Lx]. split; [exact Hx|]. pose proof (pad_length m (lo ++ hash_of m li)) as LP.
    rewrite app_length, hash_length in LP. lia.
Qed.
Definition digested (a : alg) (m : md_alg) (c : ctor) (ops : list op) : list (list N) :=
  match a with
  | Ahmac _ => hmsgs (pad_of m) (hash_of m) (HMAC_ikey (block_of m) (hash_of m) (hkey c)) (HMAC_okey (block_of m) (hash_of m) (hkey c)) ops
  | _ => vmsgs (pad_of m) (vstart (pad_of m) c) ops
  end.
Lemma distinct_or_collision m msgs i j r1 r2 : NoDup msgs -> Forall (fun x => bytes x /\ N.of_nat (length x) < 2^61) msgs ->
  nth_error (map RDigest (map (hash_of m) msgs)) i = Some r1 -> nth_error (map RDigest (map (hash_of m) msgs)) j = Some r2 -> i <> j ->
  r1 <> r2 \/ exists l1 l2, nth_error msgs i = Some l1 /\ nth_error msgs j = Some l2 /\ output_collision m l1 l2.
Proof.
  intros ND HF H1 H2 HN. rewrite !nth_error_map in H1, H2.
  destruct (nth_error msgs i) as [x|] eqn:E1; [|discriminate]. destruct (nth_error msgs j) as [y|] eqn:E2; [|discriminate]. cbn [option_map] in H1, H2.
  assert (Q : forall u v : result, Some u = Some v -> u = v) by (intros u v X; now injection X). apply Q in H1, H2. clear Q. subst r1 r2.
  assert (QD : forall x y, RDigest x = RDigest y -> x = y) by (intros u v X; now injection X).
  destruct (list_eq_dec N.eq_dec (hash_of m x) (hash_of m y)) as [E|NE]; [right|left; intros X; now apply NE, QD].
  exists x, y. split; [reflexivity|]. split; [reflexivity|].
  rewrite Forall_forall in HF. pose proof (nth_error_In _ _ E1) as I1. pose proof (nth_error_In _ _ E2) as I2. destruct (HF _ I1), (HF _ I2).
  apply C55_hash; try assumption. intros ->. apply HN. refine (proj1 (NoDup_nth_error msgs) ND i j _ (eq_trans E1 (eq_sym E2))).
  apply nth_error_Some. now rewrite E1.
Qed.
(* Any two results of a hash object, in whatever history of update() and result() calls, are different - or the
   messages they are the digests of exhibit a collision of the compression function *)
Theorem C56_repeated e a m f c ops rs i j r1 r2 : based_on a m -> valid_env e -> valid_ctor c -> valid_calls a ops ->
  N.of_nat (seed_bytes c) + N.of_nat (op_bytes ops) + 512 * N.of_nat (op_results ops) < 2^60 ->
  runs e a f c (calls ops) = Ok rs -> nth_error rs i = Some r1 -> nth_error rs j = Some r2 -> i <> j ->
  r1 <> r2 \/ exists l1 l2, nth_error (digested a m c ops) i = Some l1 /\ nth_error (digested a m c ops) j = Some l2 /\
    output_collision m l1 l2 /\ (untruncated m -> collision m l1 l2).
Proof.
  intros HA HE HC HV HL HR H1 H2 HN.
  enough (G : r1 <> r2 \/ exists l1 l2, nth_error (digested a m c ops) i = Some l1 /\ nth_error (digested a m c ops) j = Some l2 /\ output_collision m l1 l2).
  { destruct G as [G|(l1 & l2 & X1 & X2 & X3)]; [now left|]. right. exists l1, l2. repeat (split; [assumption|]). intros HU. now apply collides_untruncated. }
  rewrite runs_expected in HR; [|exact HE|now apply calls_valid|apply room_any; destruct HA as [-> | ->]; discriminate].
  assert (Q : forall A (x y : A), Ok x = Ok y -> x = y) by (intros A x y X; now injection X). apply Q in HR. clear Q.
  subst rs. revert H1 H2. unfold expected. rewrite aprun_calls. destruct HA as [-> | ->]; cbn [digested].
  - cbn [machine_of md_machine mc_au mc_ar mc_start]. rewrite arun_digests, digests_vmsgs. destruct (vstart_facts m c HC) as [BV LV].
    intros H1 H2. revert H1 H2 HN. apply distinct_or_collision; [eapply growing_nodup, vmsgs_growing|].
    eapply Forall_impl; [|exact (vmsgs_facts _ m ops HV _ BV)]. cbn beta. intros x [Hx Lx]. split; [exact Hx|lia].
  - cbn [machine_of hmac_machine mc_au mc_ar mc_start]. rewrite arun_hmac, hmac_hmsgs.
    destruct (hmac_pad_facts m c 0x36 HC eq_refl) as [BI LI]. destruct (hmac_pad_facts m c 0x5C HC eq_refl) as [BO LO].
    fold (HMAC_ikey (block_of m) (hash_of m) (hkey c)) in BI, LI. fold (HMAC_okey (block_of m) (hash_of m) (hkey c)) in BO, LO.
    intros H1 H2. revert H1 H2 HN. apply distinct_or_collision; [eapply growing_nodup, hmsgs_growing|].
    eapply Forall_impl; [|exact (hmsgs_facts _ m ops HV _ _ BI BO)]. cbn beta. intros x [Hx Lx]. split; [exact Hx|].
    assert (LB : (block_of m <= 128)%nat) by (destruct m; cbn; lia). lia.
Qed.

(* ---------- different seeds ---------- *)
Lemma pad_of_inj m l1 l2 : N.of_nat (length l1) < 2^61 -> N.of_nat (length l2) < 2^61 -> pad_of m l1 = pad_of m l2 -> l1 = l2.
Proof.
  intros L1 L2 E. assert (X : forall n, n < 2^61 -> 8 * n < 2^64) by (intros n Hn; change (2^64) with (8 * 2^61); lia).
  apply X in L1, L2. rewrite !pad_md in E. unfold MDpad in E. rewrite !app_assoc in E.
  assert (EL : forall n, length (enc_of m n) = lb_of m) by (intros n; destruct m; cbn [enc_of lb_of]; rewrite ?app_length, ?toBE_length, ?toLE_length; reflexivity).
  pose proof E as E2. apply app_inj_tail_len in E2; [|now rewrite !EL]. destruct E2 as [E1 E2].
  assert (HL : length l1 = length l2).
  { assert (8 * N.of_nat (length l1) = 8 * N.of_nat (length l2)); [|lia].
    clear E E1. revert E2. generalize dependent (8 * N.of_nat (length l1)). generalize dependent (8 * N.of_nat (length l2)). intros b Hb a Ha.
    destruct m; cbn [enc_of]; intros E2; try (now apply toLE8_inj); try (now apply toBE8_inj); apply app_inv_head in E2; now apply toBE8_inj. }
  rewrite <- !app_assoc in E1. now apply app_inj_len in E1.
Qed.
Lemma vstart_key m c : valid_ctor c -> vstart (pad_of m) c = match key_of c with [] => [] | _ => pad_of m (key_of c) end.
Proof.
  intros HC. destruct c as [|n|p n]; cbn [vstart key_of]; [reflexivity| |].
  - destruct (n =? 0); [reflexivity|]. pose proof (toLE_length 8 n) as L. change le_bytes with toLE. destruct (toLE 8 n); [discriminate|reflexivity].
  - cbn [valid_ctor] in HC. pose proof (proj2 (valid_data _ _ _ HC)) as L. destruct (data p n) as [|b l]; cbn [length] in L; subst n; reflexivity.
Qed.
Lemma key_bytes c : valid_ctor c -> bytes (key_of c) /\ (length (key_of c) <= seed_bytes c)%nat.
Proof.
  intros HC. destruct c as [|n|p n]; cbn [key_of seed_bytes]; [split; [constructor|cbn; lia]| |].
  - destruct (n =? 0); [split; [constructor|cbn; lia]|]. rewrite toLE_length. split; [rewrite toLE_le_bytes; apply le_bytes_bytes|lia].
  - cbn [valid_ctor] in HC. destruct (valid_data _ _ _ HC) as [Hb Hl]. split; [exact Hb|lia].
Qed.
Lemma pad_not_nil m l : pad_of m l <> [].
Proof. intros E. pose proof (pad_longer m l) as H. rewrite E in H. cbn in H. lia. Qed.
Lemma vstart_inj m c1 c2 : valid_ctor c1 -> valid_ctor c2 -> N.of_nat (seed_bytes c1) < 2^60 -> N.of_nat (seed_bytes c2) < 2^60 ->
  vstart (pad_of m) c1 = vstart (pad_of m) c2 -> key_of c1 = key_of c2.
Proof.
  intros H1 H2 L1 L2. rewrite !vstart_key by assumption. pose proof (proj2 (key_bytes c1 H1)). pose proof (proj2 (key_bytes c2 H2)).
  destruct (key_of c1) as [|a k1], (key_of c2) as [|b k2]; intros E; [reflexivity| | |].
  - symmetry in E. now apply pad_not_nil in E.
  - now apply pad_not_nil in E.
  - apply pad_of_inj in E; [exact E|lia|lia].
Qed.
(* the same bytes hashed with different seeds: the seed of a constructor call is the bytes it is given, or the
   eight little-endian bytes of an integer other than zero *)
Theorem C56_seeds e m f c1 c2 cs : valid_env e -> valid_ctor c1 -> valid_ctor c2 -> valid_pieces (Amd m) cs ->
  N.of_nat (seed_bytes c1) + N.of_nat (length (fed cs)) < 2^60 -> N.of_nat (seed_bytes c2) + N.of_nat (length (fed cs)) < 2^60 ->
  key_of c1 <> key_of c2 ->
  runs e (Amd m) f c1 (hash_pieces cs) <> runs e (Amd m) f c2 (hash_pieces cs) \/
  exhibits m (hashed (Amd m) m c1 (fed cs)) (hashed (Amd m) m c2 (fed cs)).
Proof.
  intros HE C1 C2 V L1 L2 HN. pose proof (pieces_bytes _ _ V) as BP.
  rewrite !first_result' by (assumption || discriminate).
  cbn [machine_of md_machine mc_start mc_ar mc_au fst snd hashed].
  assert (QD : forall x y, Ok [RDigest x] = Ok [RDigest y] -> x = y) by (intros x y X; now injection X).
  destruct (vstart_facts m c1 C1) as [B1 K1], (vstart_facts m c2 C2) as [B2 K2].
  assert (VI : vstart (pad_of m) c1 = vstart (pad_of m) c2 -> key_of c1 = key_of c2) by (apply vstart_inj; try assumption; lia).
  generalize dependent (vstart (pad_of m) c1). generalize dependent (vstart (pad_of m) c2). intros v2 B2 K2 v1 B1 K1 VI.
  destruct (list_eq_dec N.eq_dec (hash_of m (v1 ++ fed cs)) (hash_of m (v2 ++ fed cs))) as [E|NE]; [right|left; intros X; now apply NE, QD].
  apply exhibits_0. revert E. apply C55_hash; rewrite ?bytes_app, ?app_length; try tauto; try lia.
  intros X. apply app_inv_tail in X. auto.
Qed.
(* hmac: keys of the same length, or integer keys (zero being the default key).  The message that exhibits the
   collision is that of the outer hash, or the key itself when it is longer than a block. *)
Lemma map_inj {X Y} (g : X -> Y) : (forall x y, g x = g y -> x = y) -> forall k1 k2, map g k1 = map g k2 -> k1 = k2.
Proof.
  intros HG k1. induction k1 as [|a k1 IH]; intros [|b k2] X1; cbn [map] in X1; try discriminate; [reflexivity|].
  injection X1 as E1 E2. f_equal; [now apply HG|now apply IH].
Qed.
Lemma lxor_inj' x y : N.lxor 0x5C x = N.lxor 0x5C y -> x = y.
Proof. intros X1. apply (f_equal (N.lxor 0x5C)) in X1. now rewrite <- !N.lxor_assoc, N.lxor_nilpotent, !N.lxor_0_l in X1. Qed.
Lemma hmac_keys_collide e m f c1 c2 cs : valid_env e -> valid_ctor c1 -> valid_ctor c2 -> valid_pieces (Ahmac m) cs ->
  N.of_nat (length (fed cs)) < 2^60 -> HMAC_key (block_of m) (hash_of m) (hkey c1) <> HMAC_key (block_of m) (hash_of m) (hkey c2) ->
  runs e (Ahmac m) f c1 (hash_pieces cs) <> runs e (Ahmac m) f c2 (hash_pieces cs) \/
  exhibits m (hashed (Ahmac m) m c1 (fed cs)) (hashed (Ahmac m) m c2 (fed cs)).
Proof.
  intros HE C1 C2 V L HN. pose proof (pieces_bytes _ _ V) as BP.
  rewrite !first_result' by (assumption || discriminate).
  cbn [machine_of hmac_machine mc_start mc_ar mc_au fst snd hashed]. cbv zeta.
  assert (QD : forall x y, Ok [RDigest x] = Ok [RDigest y] -> x = y) by (intros x y X; now injection X).
  destruct (hmac_pad_facts m c1 0x5C C1 eq_refl) as [B1 K1]. destruct (hmac_pad_facts m c2 0x5C C2 eq_refl) as [B2 K2].
  assert (HX : HMAC_okey (block_of m) (hash_of m) (hkey c1) <> HMAC_okey (block_of m) (hash_of m) (hkey c2)).
  { unfold HMAC_okey. intros X. apply HN. revert X.
    apply map_inj. exact lxor_inj'. }
  fold (HMAC_okey (block_of m) (hash_of m) (hkey c1)) in B1, K1. fold (HMAC_okey (block_of m) (hash_of m) (hkey c2)) in B2, K2.
  assert (LB : (block_of m <= 128)%nat) by (destruct m; cbn; lia). assert (LH : (size_of_md m <= 64)%nat) by (destruct m; cbn; lia).
  clear HN. generalize dependent (HMAC_okey (block_of m) (hash_of m) (hkey c1)). generalize dependent (HMAC_okey (block_of m) (hash_of m) (hkey c2)). intros o2 B2 K2 o1 B1 K1 HX.
  generalize (hash_length m (HMAC_ikey (block_of m) (hash_of m) (hkey c1) ++ fed cs)) (hash_length m (HMAC_ikey (block_of m) (hash_of m) (hkey c2) ++ fed cs)).
  generalize (hash_bytes m (HMAC_ikey (block_of m) (hash_of m) (hkey c1) ++ fed cs)) (hash_bytes m (HMAC_ikey (block_of m) (hash_of m) (hkey c2) ++ fed cs)).
  generalize (hash_of m (HMAC_ikey (block_of m) (hash_of m) (hkey c1) ++ fed cs)) (hash_of m (HMAC_ikey (block_of m) (hash_of m) (hkey c2) ++ fed cs)).
  intros i1 i2 D1 D2 M1 M2.
  destruct (list_eq_dec N.eq_dec (hash_of m (o1 ++ i1)) (hash_of m (o2 ++ i2))) as [E|NE]; [right|left; intros X; now apply NE, QD].
  apply exhibits_1. revert E. apply C55_hash; rewrite ?bytes_app, ?app_length, ?M1, ?M2; try (split; assumption); try lia.
  intros X. apply app_inj_len in X; [|now rewrite K1, K2]. now apply HX.
Qed.
Theorem C56_hmac_keys e m f c1 c2 cs : valid_env e -> valid_ctor c1 -> valid_ctor c2 -> valid_pieces (Ahmac m) cs ->
  N.of_nat (seed_bytes c1) < 2^60 -> N.of_nat (seed_bytes c2) < 2^60 -> N.of_nat (length (fed cs)) < 2^60 ->
  length (key_of c1) = length (key_of c2) -> key_of c1 <> key_of c2 ->
  runs e (Ahmac m) f c1 (hash_pieces cs) <> runs e (Ahmac m) f c2 (hash_pieces cs) \/
  exhibits m (key_of c1 :: hashed (Ahmac m) m c1 (fed cs)) (key_of c2 :: hashed (Ahmac m) m c2 (fed cs)).
Proof.
  intros HE C1 C2 V L1 L2 L HL HN.
  destruct (key_bytes c1 C1) as [B1 S1], (key_bytes c2 C2) as [B2 S2].
  destruct (list_eq_dec N.eq_dec (HMAC_key (block_of m) (hash_of m) (hkey c1)) (HMAC_key (block_of m) (hash_of m) (hkey c2))) as [EK|NK].
  - right. apply exhibits_0.
    change (hkey c1) with (key_of c1) in EK. change (hkey c2) with (key_of c2) in EK. unfold HMAC_key in EK. rewrite HL in EK.
    destruct (Nat.leb (length (key_of c2)) (block_of m)).
    + apply app_inj_len in EK; [|exact HL]. destruct EK as [EK _]. contradiction.
    + apply app_inj_len in EK; [|now rewrite !hash_length]. destruct EK as [EK _]. revert EK. apply C55_hash; try assumption; lia.
  - destruct (hmac_keys_collide e m f c1 c2 cs) as [X|(k & l1 & l2 & X)]; try assumption; [now left|right]. now exists (S k), l1, l2.
Qed.
Theorem C56_hmac_seeds e m f n1 n2 cs : valid_env e -> n1 < 2^64 -> n2 < 2^64 -> valid_pieces (Ahmac m) cs ->
  N.of_nat (length (fed cs)) < 2^60 -> n1 <> n2 ->
  runs e (Ahmac m) f (CSeed n1) (hash_pieces cs) <> runs e (Ahmac m) f (CSeed n2) (hash_pieces cs) \/
  exhibits m (hashed (Ahmac m) m (CSeed n1) (fed cs)) (hashed (Ahmac m) m (CSeed n2) (fed cs)).
Proof.
  intros HE L1 L2 V L HN. apply hmac_keys_collide; try assumption.
  assert (K : forall n, HMAC_key (block_of m) (hash_of m) (hkey (CSeed n)) = toLE 8 n ++ repeat 0 (block_of m - 8)).
  { intros n. cbn [hkey]. destruct (N.eqb_spec n 0) as [-> | Hn].
    - unfold HMAC_key. cbn [length Nat.leb]. destruct m; reflexivity.
    - unfold HMAC_key. rewrite toLE_length. replace (Nat.leb 8 (block_of m)) with true by (destruct m; reflexivity). now rewrite toLE_length. }
  rewrite !K. intros X. apply app_inv_tail in X. apply HN. now apply toLE8_inj.
Qed.

(* ---------- concrete cases ---------- *)
Definition rep_calls : list op := [OResult; OUpdate (Ptr [97; 98; 99]) 3; OResult; OResult].
Example C56_repeated_ex : exists rs r1 r2, runs env_pc (Ahmac Asha1) le_flavor (CSeed 7) (calls rep_calls) = Ok rs /\
  nth_error rs 1 = Some r1 /\ nth_error rs 2 = Some r2 /\ r1 <> r2 /\
  N.of_nat (seed_bytes (CSeed 7)) + N.of_nat (op_bytes rep_calls) + 512 * N.of_nat (op_results rep_calls) < 2^60.
Proof.
  destruct (runs env_pc (Ahmac Asha1) le_flavor (CSeed 7) (calls rep_calls)) as [rs| | |] eqn:E; try (vm_compute in E; discriminate).
  vm_compute in E. injection E as <-. eexists _, _, _. split; [reflexivity|]. split; [reflexivity|]. split; [reflexivity|]. split; [discriminate|reflexivity].
Qed.
Example C56_seeds_ex : runs env_pc (Amd Amd5) le_flavor (CSeed 1) (hash_pieces [(Ptr [97], 1%nat)]) <>
  runs env_pc (Amd Amd5) le_flavor (CSeed 2) (hash_pieces [(Ptr [97], 1%nat)]) /\ key_of (CSeed 1) <> key_of (CSeed 2).
Proof. split; vm_compute; discriminate. Qed.
Example C56_hmac_keys_ex : runs env_pc (Ahmac Amd5) le_flavor (CBytes (Ptr [1; 2]) 2) (hash_pieces [(Ptr [97], 1%nat)]) <>
  runs env_pc (Ahmac Amd5) le_flavor (CBytes (Ptr [1; 3]) 2) (hash_pieces [(Ptr [97], 1%nat)]) /\
  length (key_of (CBytes (Ptr [1; 2]) 2)) = length (key_of (CBytes (Ptr [1; 3]) 2)).
Proof. split; [vm_compute; discriminate|reflexivity]. Qed.

(* ---------- the algorithms with 32-bit results do repeat a result ---------- *)
Theorem C56_xxhash32_refuted e f : valid_env e -> exists n r, n < 2^32 /\ runs e Axx32 f (CSeed n) [SResult; SResult] = Ok [r; r].
Proof.
  intros HE. exists 587416073. eexists. split; [reflexivity|].
  rewrite runs_expected; [|exact HE|repeat constructor; reflexivity|apply room_any; discriminate].
  destruct HE as [[HW|HW] _]; unfold expected; rewrite HW; vm_compute; reflexivity.
Qed.
Theorem C56_siphash32_refuted e f : valid_env e -> exists n r, n < 2^64 /\ runs e Asip32 f (CSeed n) [SResult; SResult] = Ok [r; r].
Proof.
  intros HE. exists 5599828785. eexists. split; [reflexivity|].
  rewrite runs_expected; [|exact HE|repeat constructor; reflexivity|apply room_any; discriminate].
  unfold expected. vm_compute. reflexivity.
Qed.

(* C71: murmur3_32, murmur3_128, xxhash_32 and xxhash_64 are perfectly balanced on the messages of one
   length: every hash value is the hash of the same number of messages, whatever the seed. *)
From Verif Require Import Base BaseFacts SpecCommon Gen Bits GenMD Hasher GenBlk Types ModelResult ModelAppend SpecAppend ProofMsg ProofMsgEq
  Behaves Instances ProofRuns Samples PropsHistory PropsAlg PropsAppend PropsSeeds PropsPrims PropsIntegral ProofRange ProofLocal PropsLocal PropsLocal64 ProofSpooky ProofMurmurDistinct.
From Verif Require Import SpecMurmur ProofMurmur.
Open Scope N_scope.

(* there are exactly n messages in P *)
Definition messages (n : N) (P : list N -> Prop) : Prop :=
  exists ms, NoDup ms /\ N.of_nat (length ms) = n /\ forall m, In m ms <-> P m.

(* ---------- all byte sequences of a length ---------- *)
Definition octets : list N := map N.of_nat (seq 0 256).
Lemma octets_in b : In b octets <-> b < 256.
Proof.
  unfold octets. rewrite in_map_iff. split.
  - intros (k & <- & H). apply in_seq in H. lia.
  - intros H. exists (N.to_nat b). split; [lia|]. apply in_seq. lia.
Qed.
Lemma octets_length : length octets = 256%nat.
Proof. unfold octets. now rewrite map_length, seq_length. Qed.
Lemma octets_nodup : NoDup octets.
Proof. unfold octets. apply FinFun.Injective_map_NoDup; [intros x y E; lia|apply seq_NoDup]. Qed.
Lemma nodup_prod {A B} (l1 : list A) (l2 : list B) : NoDup l1 -> NoDup l2 -> NoDup (list_prod l1 l2).
Proof.
  intros H1 H2. induction H1 as [|x l1 HX H1 IH]; cbn [list_prod]; [constructor|].
  assert (HM : NoDup (map (fun y : B => (x, y)) l2)) by (apply FinFun.Injective_map_NoDup; [intros y y' E; now injection E|exact H2]).
  assert (HD : forall z, In z (map (fun y : B => (x, y)) l2) -> ~ In z (list_prod l1 l2)).
  { intros z Hz Hz'. apply in_map_iff in Hz. destruct Hz as (y & <- & _). apply in_prod_iff in Hz'. now destruct Hz'. }
  revert HM HD. generalize (map (fun y : B => (x, y)) l2). intros l HM HD. induction HM as [|z l HZ HM IHM]; [exact IH|].
  cbn [app]. constructor; [rewrite in_app_iff; intros [H|H]; [contradiction|]; apply (HD z); [now left|exact H]|].
  apply IHM. intros w Hw. apply HD. now right.
Qed.
Fixpoint all_bytes (n : nat) : list (list N) :=
  match n with O => [[]] | S n => map (fun p => fst p :: snd p) (list_prod octets (all_bytes n)) end.
Lemma all_bytes_in n : forall m, In m (all_bytes n) <-> length m = n /\ bytes m.
Proof.
  induction n as [|n IH]; intros m; cbn [all_bytes].
  - split; [intros [<- | []]; split; [reflexivity|constructor]|]. intros [H _]. left. destruct m; [reflexivity|discriminate].
  - rewrite in_map_iff. split.
    + intros ((b & u) & <- & H). apply in_prod_iff in H. destruct H as [H1 H2]. apply octets_in in H1. apply IH in H2. cbn [fst snd length].
      split; [now rewrite (proj1 H2)|constructor; tauto].
    + intros [HL HB]. destruct m as [|b u]; [discriminate|]. exists (b, u). split; [reflexivity|]. inversion HB; subst. apply in_prod_iff.
      split; [now apply octets_in|]. apply IH. split; [now injection HL|assumption].
Qed.
Lemma all_bytes_length n : N.of_nat (length (all_bytes n)) = 2 ^ (8 * N.of_nat n).
Proof.
  induction n as [|n IH]; [reflexivity|]. cbn [all_bytes]. rewrite map_length, prod_length, octets_length, Nat2N.inj_mul, IH.
  replace (8 * N.of_nat (S n)) with (8 + 8 * N.of_nat n) by lia. rewrite N.pow_add_r. reflexivity.
Qed.
Lemma all_bytes_nodup n : NoDup (all_bytes n).
Proof.
  induction n as [|n IH]; cbn [all_bytes]; [constructor; [easy|constructor]|].
  apply FinFun.Injective_map_NoDup; [|apply nodup_prod; [apply octets_nodup|exact IH]].
  intros [b u] [b' u'] E. cbn [fst snd] in E. injection E as -> ->. reflexivity.
Qed.

(* ---------- counting ---------- *)
Lemma choose_each {A B} (P : A -> B -> Prop) l : (forall x, In x l -> exists y, P x y) -> exists ys, Forall2 P l ys.
Proof.
  induction l as [|x l IH]; intros H; [exists []; constructor|]. destruct (H x (or_introl eq_refl)) as (y & Hy).
  destruct IH as (ys & HY); [intros z Hz; apply H; now right|]. exists (y :: ys). now constructor.
Qed.
Lemma forall2_l {A B} (P : A -> B -> Prop) l ys : Forall2 P l ys -> forall x, In x l -> exists y, In y ys /\ P x y.
Proof. induction 1 as [|x y l ys H HF IH]; intros z []; [subst; exists y; split; [now left|assumption]|]. destruct (IH z H0) as (w & H1 & H2). exists w. split; [now right|exact H2]. Qed.
Lemma forall2_r {A B} (P : A -> B -> Prop) l ys : Forall2 P l ys -> forall y, In y ys -> exists x, In x l /\ P x y.
Proof. induction 1 as [|x y l ys H HF IH]; intros z []; [subst; exists x; split; [now left|assumption]|]. destruct (IH z H0) as (w & H1 & H2). exists w. split; [now right|exact H2]. Qed.
Lemma forall2_length {A B} (P : A -> B -> Prop) l ys : Forall2 P l ys -> length l = length ys.
Proof. induction 1 as [|x y l ys H HF IH]; cbn [length]; lia. Qed.
Lemma forall2_nodup {A B} (P : A -> B -> Prop) l ys : (forall x x' y, P x y -> P x' y -> x = x') -> Forall2 P l ys -> NoDup l -> NoDup ys.
Proof.
  intros HP. induction 1 as [|x y l ys H HF IH]; intros HN; [constructor|]. inversion HN; subst. constructor; [|now apply IH].
  intros HI. destruct (forall2_r P l ys HF y HI) as (x0 & G1 & G2). rewrite (HP x x0 y H G2) in *. contradiction.
Qed.
Section Count.
Context {R : Type}.
Variables (h : list N -> R) (L p U : nat) (F : list N -> R).
Hypothesis HL : (p + U <= L)%nat.
(* the hash of a message is some F u, u of U bytes *)
Hypothesis HF : forall m, length m = L -> bytes m -> exists u, length u = U /\ bytes u /\ h m = F u.
Hypothesis HF1 : forall u v, length u = U -> length v = U -> bytes u -> bytes v -> F u = F v -> u = v.
(* it depends one to one on the U bytes at p *)
Hypothesis HI : forall x u v y, length x = p -> length u = U -> length v = U -> length y = (L - p - U)%nat -> bytes x -> bytes u -> bytes v -> bytes y ->
  h (x ++ u ++ y) = h (x ++ v ++ y) -> u = v.
Lemma one_unit_for x y w : length x = p -> length y = (L - p - U)%nat -> length w = U -> bytes x -> bytes y -> bytes w ->
  exists u, length u = U /\ bytes u /\ h (x ++ u ++ y) = F w.
Proof.
  intros LX LY LW BX BY BW.
  assert (HN : NoDup (map (fun u => h (x ++ u ++ y)) (all_bytes U))).
  { assert (HA : forall u, In u (all_bytes U) -> length u = U /\ bytes u) by (intros u; apply all_bytes_in).
    pose proof (all_bytes_nodup U) as HN. induction HN as [|u l HU HN IH]; cbn [map]; constructor.
    - intros H. apply in_map_iff in H. destruct H as (v & E & Hv). destruct (HA u (or_introl eq_refl)), (HA v (or_intror Hv)).
      apply HI in E; try assumption. subst. contradiction.
    - apply IH. intros v Hv. apply HA. now right. }
  assert (HC : incl (map (fun u => h (x ++ u ++ y)) (all_bytes U)) (map F (all_bytes U))).
  { intros r Hr. apply in_map_iff in Hr. destruct Hr as (u & <- & Hu). apply all_bytes_in in Hu. destruct Hu as [LU BU].
    destruct (HF (x ++ u ++ y)) as (v & LV & BV & ->); [rewrite !app_length; lia|unfold bytes in *; rewrite !Forall_app; auto|].
    apply in_map. now apply all_bytes_in. }
  apply NoDup_length_incl in HC; [|exact HN|rewrite !map_length; apply le_n].
  specialize (HC (F w) (in_map F _ _ (proj2 (all_bytes_in U w) (conj LW BW)))). apply in_map_iff in HC. destruct HC as (u & E & Hu).
  apply all_bytes_in in Hu. exists u. tauto.
Qed.
Lemma count rs : NoDup rs -> (forall r, In r rs -> exists w, length w = U /\ bytes w /\ r = F w) ->
  messages (N.of_nat (length rs) * 2 ^ (8 * N.of_nat (L - U))) (fun m => length m = L /\ bytes m /\ In (h m) rs).
Proof.
  intros HR HW.
  set (P := fun (q : R * list N) m => exists u, m = firstn p (snd q) ++ u ++ skipn p (snd q) /\ length u = U /\ bytes u /\ h m = fst q /\ (p <= length (snd q))%nat).
  assert (HZ : forall z, In z (all_bytes (L - U)) -> length (firstn p z) = p /\ length (skipn p z) = (L - p - U)%nat /\ bytes (firstn p z) /\ bytes (skipn p z) /\ (p <= length z)%nat).
  { intros z Hz. apply all_bytes_in in Hz. destruct Hz as [LZ BZ]. split; [rewrite firstn_length; lia|]. split; [rewrite skipn_length; lia|].
    split; [now apply bytes_firstn|split; [now apply bytes_skipn|lia]]. }
  destruct (choose_each P (list_prod rs (all_bytes (L - U)))) as (ms & HM).
  { intros (r & z) H. apply in_prod_iff in H. destruct H as [H1 H2]. destruct (HW r H1) as (w & LW & BW & ->). destruct (HZ z H2) as (Z1 & Z2 & Z3 & Z4 & Z5).
    destruct (one_unit_for _ _ w Z1 Z2 LW Z3 Z4 BW) as (u & LU & BU & E). eexists. exists u. cbn [fst snd]. repeat split; assumption. }
  exists ms. split; [|split].
  - apply (forall2_nodup P _ _) in HM; [exact HM| |apply nodup_prod; [exact HR|apply all_bytes_nodup]].
    intros (r & z) (r' & z') m (u & E & LU & _ & Er & LZ) (u' & E' & LU' & _ & Er' & LZ'). cbn [fst snd] in *.
    assert (D : forall a b c d e g : list N, length a = length d -> length b = length e -> a ++ b ++ c = d ++ e ++ g -> a = d /\ c = g).
    { clear. intros a b c d e g L1 L2 E. apply app_inj_len in E; [|exact L1]. destruct E as [-> E]. apply app_inj_len in E; [|exact L2]. tauto. }
    rewrite E in E'. apply D in E'; [|rewrite !firstn_length; lia|lia]. destruct E' as [E1 E2].
    rewrite <- (firstn_skipn p z), <- (firstn_skipn p z'), E1, E2. congruence.
  - apply forall2_length in HM. rewrite <- HM, prod_length, Nat2N.inj_mul, all_bytes_length. reflexivity.
  - intros m. split.
    + intros H. destruct (forall2_r P _ _ HM m H) as ((r & z) & H1 & u & E & LU & BU & Er & LZ). cbn [fst snd] in *.
      apply in_prod_iff in H1. destruct H1 as [H1 H2]. destruct (HZ z H2) as (Z1 & Z2 & Z3 & Z4 & Z5). rewrite Er.
      split; [rewrite E, !app_length; lia|]. split; [rewrite E; unfold bytes in *; rewrite !Forall_app; auto|exact H1].
    + intros (LM & BM & HM'). set (x := firstn p m). set (u := firstn U (skipn p m)). set (y := skipn U (skipn p m)).
      assert (EM : m = x ++ u ++ y) by (unfold x, u, y; now rewrite !firstn_skipn).
      assert (LX : length x = p) by (unfold x; rewrite firstn_length; lia).
      assert (LU : length u = U) by (unfold u; rewrite firstn_length, skipn_length; lia).
      assert (LY : length y = (L - p - U)%nat) by (unfold y; rewrite !skipn_length; lia).
      assert (BX : bytes x /\ bytes u /\ bytes y) by (rewrite EM in BM; unfold bytes in *; rewrite !Forall_app in BM; tauto).
      destruct BX as (BX & BU & BY).
      destruct (forall2_l P _ _ HM (h m, x ++ y)) as (m' & I' & u' & E' & LU' & BU' & Er' & _).
      { apply in_prod_iff. split; [exact HM'|]. apply all_bytes_in. split; [rewrite app_length; lia|unfold bytes in *; rewrite Forall_app; auto]. }
      cbn [fst snd] in *. rewrite firstn_app, skipn_app, LX, Nat.sub_diag, <- LX, firstn_all, skipn_all, app_nil_r in E'. cbn [skipn app] in E'.
      replace m with m'; [exact I'|]. rewrite E', EM. rewrite E', EM in Er'. apply HI in Er'; try assumption. now rewrite Er'.
Qed.
End Count.

(* ---------- the algorithms ---------- *)
(* the number of bytes of a result *)
Definition width (a : alg) : nat := match a with Amur32 | Axx32 => 4 | Axx64 => 8 | _ => 16 end.
(* a value of the result type *)
Definition is_result (a : alg) (r : result) : Prop :=
  match a, r with
  | (Amur32 | Axx32), RInt I32 x => x < 2^32
  | Axx64, RInt I64 x => x < 2^64
  | Amur128, RDigest d => length d = 16%nat /\ bytes d
  | _, _ => False
  end.
(* the lengths: at least as many bytes as the result (for xxhash_32, with the seed bytes, fewer than the range
   of size_t); for xxhash_64, 8 or more bytes after the last complete stripe of 32 *)
Definition balanced_length (e : env) (a : alg) (c : ctor) (L : nat) : Prop :=
  match a with
  | Amur32 => (4 <= L)%nat
  | Amur128 => (16 <= L)%nat
  | Axx32 => (4 <= L)%nat /\ ctor_weight c + N.of_nat L < e_cw e
  | Axx64 => (8 <= L mod 32)%nat
  | _ => False
  end.
(* the hash of the message m is r *)
Definition hash_is (e : env) (a : alg) (f : flavor) (c : ctor) (m : list N) (r : result) : Prop :=
  runs e a f c [SUpdate (Ptr m) (length m); SResult] = Ok [r].

Definition res_of (a : alg) (u : list N) : result :=
  match a with Amur32 | Axx32 => RInt I32 (LE u) | Axx64 => RInt I64 (LE u) | _ => RDigest u end.
Definition unit_at (a : alg) (L : nat) : nat := match a with Axx64 => 32 * (L / 32) | _ => 0 end.
Definition mhash (e : env) (a : alg) (c : ctor) (m : list N) : result :=
  fst (mc_ar (machine_of (e_cw e) a) (mc_au (machine_of (e_cw e) a) (mc_start (machine_of (e_cw e) a) c) m)).
Lemma one_piece m : fed [(Ptr m, length m)] = m.
Proof. unfold fed. cbn [map concat fst snd data]. rewrite firstn_all. apply app_nil_r. Qed.
Lemma one_piece_valid a m : bytes m -> valid_pieces a [(Ptr m, length m)].
Proof. intros H. constructor; [|constructor]. cbn [fst snd valid_arg]. split; [apply le_n|exact H]. Qed.
Lemma hash_is_iff e a f c m r : valid_env e -> valid_ctor c -> a <> Aspooky -> bytes m -> hash_is e a f c m r <-> mhash e a c m = r.
Proof.
  intros HE HC HA HB. unfold hash_is. change [SUpdate (Ptr m) (length m); SResult] with (hash_pieces [(Ptr m, length m)]).
  rewrite (first_result' e a f c _ HE HC (one_piece_valid a m HB) HA), one_piece. fold (mhash e a c m).
  split; [intros E; now injection E|intros ->; reflexivity].
Qed.
Lemma le_inj u v : length u = length v -> bytes u -> bytes v -> LE u = LE v -> u = v.
Proof.
  intros HL HU HV E. change LE with le_val in E. rewrite <- (le_bytes_val u HU), <- (le_bytes_val v HV), HL, E. reflexivity.
Qed.
Lemma is_result_iff e a c L r : balanced_length e a c L -> is_result a r <-> exists u, length u = width a /\ bytes u /\ r = res_of a u.
Proof.
  intros HL.
  assert (HW : forall k x, x < 256 ^ N.of_nat k -> length (le_bytes k x) = k /\ bytes (le_bytes k x) /\ x = LE (le_bytes k x)).
  { intros k x Hx. split; [apply le_bytes_length|split; [apply le_bytes_bytes|]]. change LE with le_val. rewrite le_val_bytes. symmetry. now apply N.mod_small. }
  assert (HV : forall u, bytes u -> LE u < 256 ^ N.of_nat (length u)) by (intros u; apply le_val_bound).
  assert (W : forall k s x, x < 256 ^ N.of_nat k <-> exists u, length u = k /\ bytes u /\ RInt s x = RInt s (LE u)).
  { intros k s x. split.
    - intros Hx. destruct (HW k x Hx) as (H1 & H2 & H3). exists (le_bytes k x). split; [exact H1|split; [exact H2|now rewrite <- H3]].
    - intros (u & HU & BU & E). injection E as ->. specialize (HV u BU). now rewrite HU in HV. }
  destruct a; try contradiction; clear HL; cbn [width res_of].
  all: destruct r as [s x|d]; cbn [is_result]; try (split; [intros H; destruct s; contradiction|intros (u & _ & _ & E); discriminate]); try (split; [contradiction|intros (u & _ & _ & E); discriminate]).
  - destruct s; try (split; [contradiction|intros (u & _ & _ & E); discriminate]). now apply (W 4%nat I32 x).
  - destruct s; try (split; [contradiction|intros (u & _ & _ & E); discriminate]). now apply (W 8%nat I64 x).
  - destruct s; try (split; [contradiction|intros (u & _ & _ & E); discriminate]). now apply (W 4%nat I32 x).
  - split; [intros [H1 H2]; exists d; auto|]. intros (u & H1 & H2 & E). injection E as ->. auto.
Qed.

Lemma res_of_inj e a c L u v : balanced_length e a c L -> length u = width a -> length v = width a -> bytes u -> bytes v -> res_of a u = res_of a v -> u = v.
Proof.
  intros HL LU LV BU BV E. destruct a; try contradiction; cbn [res_of] in E; try (injection E as E; apply le_inj; congruence || assumption).
Qed.
Lemma mhash_result e a c L m : balanced_length e a c L -> valid_ctor c -> bytes m -> is_result a (mhash e a c m).
Proof.
  intros HL HC HB.
  assert (HV : valid_program e a c [SUpdate (Ptr m) (length m); SResult]).
  { split; [exact HC|]. constructor; [split; [apply le_n|exact HB]|constructor; [exact I|constructor]]. }
  pose proof (results_words e a le_flavor c _ HV) as HW. unfold expected in HW. cbn [aprun data] in HW. rewrite firstn_all in HW.
  inversion HW as [|x l HX _]. clear HW HV. unfold mhash.
  destruct a; try contradiction; cbn [machine_of blk_machine mc_ar mc_au mc_start fst snd is_result word_result] in *; try exact HX.
  clear. destruct (mur128_start (e_cw e) c) as [[st n] l]. unfold ab_au, mur128_ar. cbn [fst]. unfold Mur128_final.
  destruct (fold_left _ _ _) as [h1 h2]. cbv zeta. split; [rewrite app_length; change toLE with le_bytes; now rewrite !le_bytes_length|].
  apply Forall_app. change toLE with le_bytes. split; apply le_bytes_bytes.
Qed.

Lemma mhash_inj e a c L x u v y : valid_env e -> valid_ctor c -> balanced_length e a c L ->
  length x = unit_at a L -> length u = width a -> length v = width a -> length y = (L - unit_at a L - width a)%nat ->
  bytes x -> bytes u -> bytes v -> bytes y -> mhash e a c (x ++ u ++ y) = mhash e a c (x ++ v ++ y) -> u = v.
Proof.
  intros HE HC HL LX LU LV LY BX BU BV BY E. destruct (list_eq_dec N.eq_dec u v) as [EQ|NE]; [exact EQ|exfalso].
  set (m1 := x ++ u ++ y) in *. set (m2 := x ++ v ++ y) in *.
  assert (B1 : bytes m1) by (unfold m1, bytes in *; rewrite !Forall_app; auto).
  assert (B2 : bytes m2) by (unfold m2, bytes in *; rewrite !Forall_app; auto).
  assert (D : differ_at (unit_at a L) (width a) m1 m2).
  { unfold m1, m2. repeat split.
    - rewrite !app_length. lia.
    - intros H. apply app_inv_head, app_inv_tail in H. contradiction.
    - rewrite <- LX, !firstn_app, Nat.sub_diag, !firstn_all. reflexivity.
    - rewrite <- LX, !skipn_app, LU, LV. replace (length x + width a - length x - width a)%nat with 0%nat by lia.
      rewrite !(skipn_all2 u), !(skipn_all2 v), !(skipn_all2 x) by lia. reflexivity. }
  assert (LM : length m1 = L).
  { unfold m1. rewrite !app_length, LX, LU, LY. clear - HL. destruct a; try contradiction; cbn [balanced_length unit_at width] in *; pose proof (Nat.div_mod L 32 ltac:(discriminate)); lia. }
  assert (X : distinguished e a le_flavor c (hash_pieces [(Ptr m1, length m1)]) (hash_pieces [(Ptr m2, length m2)])).
  { pose proof (one_piece_valid a m1 B1) as V1. pose proof (one_piece_valid a m2 B2) as V2.
    destruct a; try contradiction; cbn [balanced_length unit_at width] in *.
    - apply (C53_xxh32 e le_flavor c _ _ 0 4); [exact HE|exact HC|exact V1|exact V2|rewrite one_piece, LM; apply HL|right; split; reflexivity|rewrite one_piece, LM; apply HL|rewrite !one_piece; exact D].
    - apply (C53_xxh64_tail e le_flavor c _ _ (32 * (L / 32)) 8); [exact HE|exact HC|exact V1|exact V2|rewrite one_piece, LM; apply le_n| |rewrite one_piece, LM|rewrite !one_piece; exact D].
      + right. right. split; [reflexivity|]. clear. replace (32 * (L / 32))%nat with (4 * (L / 32) * 8)%nat by lia. apply Nat.mod_mul. discriminate.
      + pose proof (Nat.div_mod L 32 ltac:(discriminate)). clear - H HL. lia.
    - apply (C53_murmur32 e le_flavor c _ _ 0); rewrite ?one_piece; assumption || reflexivity.
    - apply (C53_murmur128 e le_flavor c _ _ 0); rewrite ?one_piece; assumption || reflexivity. }
  destruct X as (r1 & r2 & E1 & E2 & HN). apply HN.
  assert (HA : a <> Aspooky) by (destruct a; try contradiction; discriminate).
  apply (hash_is_iff e a le_flavor c m1 r1 HE HC HA B1) in E1. apply (hash_is_iff e a le_flavor c m2 r2 HE HC HA B2) in E2. congruence.
Qed.

(* For every environment, seed and length L: of the messages of L bytes, exactly 2^(8(L - w)) have the hash r,
   for every value r of the result type, of w bytes; in general n times as many have one of n given hashes. *)
Theorem C71_sets e a f c L rs : valid_env e -> valid_ctor c -> balanced_length e a c L -> NoDup rs -> Forall (is_result a) rs ->
  messages (N.of_nat (length rs) * 2 ^ (8 * N.of_nat (L - width a)))
    (fun m => length m = L /\ bytes m /\ exists r, hash_is e a f c m r /\ In r rs).
Proof.
  intros HE HC HL HN HR.
  assert (HA : a <> Aspooky) by (destruct a; try contradiction; discriminate).
  destruct (count (mhash e a c) L (unit_at a L) (width a) (res_of a)) with (rs := rs) as (ms & H1 & H2 & H3).
  - clear - HL. destruct a; try contradiction; cbn [balanced_length unit_at width] in *; pose proof (Nat.div_mod L 32 ltac:(discriminate)); lia.
  - intros m LM BM. apply (is_result_iff e a c L); [exact HL|]. now apply (mhash_result e a c L).
  - intros u v. now apply (res_of_inj e a c L).
  - intros x u v y. now apply mhash_inj.
  - exact HN.
  - intros r Hr. rewrite Forall_forall in HR. apply (is_result_iff e a c L); [exact HL|]. now apply HR.
  - exists ms. split; [exact H1|]. split; [exact H2|]. intros m. rewrite H3. split.
    + intros (LM & BM & HI). repeat split; try assumption. exists (mhash e a c m). split; [|exact HI]. now apply hash_is_iff.
    + intros (LM & BM & r & HI & Hr). repeat split; try assumption. apply hash_is_iff in HI; try assumption. now rewrite HI.
Qed.
Theorem C71_balanced e a f c L r : valid_env e -> valid_ctor c -> balanced_length e a c L -> is_result a r ->
  messages (2 ^ (8 * N.of_nat (L - width a))) (fun m => length m = L /\ bytes m /\ hash_is e a f c m r).
Proof.
  intros HE HC HL HR. destruct (C71_sets e a f c L [r] HE HC HL) as (ms & H1 & H2 & H3).
  - constructor; [easy|constructor].
  - constructor; [exact HR|constructor].
  - exists ms. split; [exact H1|]. cbn [length] in H2. rewrite N.mul_1_l in H2. split; [exact H2|]. intros m. rewrite H3. split.
    + intros (LM & BM & r' & HI & [<- | []]). auto.
    + intros (LM & BM & HI). repeat split; try assumption. exists r. split; [exact HI|now left].
Qed.
(* In particular every value is a hash: of a message of each of these lengths, with each seed *)
Corollary C71_onto e a f c L r : valid_env e -> valid_ctor c -> balanced_length e a c L -> is_result a r ->
  exists m, length m = L /\ bytes m /\ hash_is e a f c m r.
Proof.
  intros HE HC HL HR. destruct (C71_balanced e a f c L r HE HC HL HR) as (ms & _ & H2 & H3).
  destruct ms as [|m ms]; [|exists m; apply H3; now left]. cbn [length] in H2. symmetry in H2. apply N.pow_nonzero in H2; [contradiction|discriminate].
Qed.
Example C71_balanced_ex :
  messages (2 ^ 32) (fun m => length m = 8%nat /\ bytes m /\ hash_is env_pc Amur32 le_flavor (CSeed 7) m (RInt I32 0)) /\
  messages (2 ^ 80) (fun m => length m = 26%nat /\ bytes m /\ hash_is env_be Amur128 le_flavor (CBytes (Ptr [1; 2; 3]) 3) m (RDigest (repeat 255 16))) /\
  messages (2 ^ 288) (fun m => length m = 44%nat /\ bytes m /\ hash_is env_pc Axx64 le_flavor CDefault m (RInt I64 12345)) /\
  messages (2 ^ 136) (fun m => length m = 21%nat /\ bytes m /\ hash_is env_pc Axx32 le_flavor (CSeed 7) m (RInt I32 12345)).
Proof.
  split; [|split; [|split]].
  - apply (C71_balanced env_pc Amur32 le_flavor (CSeed 7) 8 (RInt I32 0) env_pc_valid); [reflexivity|cbn; lia|reflexivity].
  - apply (C71_balanced env_be Amur128 le_flavor (CBytes (Ptr [1; 2; 3]) 3) 26 (RDigest (repeat 255 16)) env_be_valid);
      [split; [cbn; lia|repeat constructor]|cbn; lia|split; [reflexivity|repeat constructor]].
  - apply (C71_balanced env_pc Axx64 le_flavor CDefault 44 (RInt I64 12345) env_pc_valid); [exact I|cbn; lia|reflexivity].
  - apply (C71_balanced env_pc Axx32 le_flavor (CSeed 7) 21 (RInt I32 12345) env_pc_valid); [reflexivity|split; [cbn; lia|reflexivity]|reflexivity].
Qed.

(* C73: what an unordered container shows of its elements: their number and the sum of their hashes. *)
From Verif Require Import Base BaseFacts SpecCommon Gen Bits Hasher GenBlk Types ModelResult ModelAppend SpecAppend ProofMsg ProofMsgEq ProofMsgExt
  ProofAppend Behaves Instances ProofRuns Samples ProofRange PropsHistory PropsAlg PropsAppend ProofLocal PropsLocal PropsLocal64 PropsLocalKeys PropsIntegral.
From Verif Require Import ProofMurmurDistinct ProofSpooky.
From Verif Require PropsObjects.
Open Scope N_scope.

(* get_integral_result<std::uint64_t>( r ) *)
Definition uint64_value (e : env) (r : result) : res Z :=
  match r with
  | RInt s x => get_integral_result I64 false s x
  | RDigest d => get_digest_result (e_pf e) I64 false d
  end.
(* the hash of an element: that of a copy of the hash object to which the element is appended *)
Definition element_hash (e : env) (a : alg) (f : flavor) (c : ctor) (pre : list ustep) (t : ty) (v : val) (x : Z) : Prop :=
  exists rs r, runs e a f c (pre ++ [SAppend t v; SResult]) = Ok (rs ++ [r]) /\ uint64_value e r = Ok x.
Definition total (xs : list Z) : Z := (fold_right Z.add 0 xs mod 2 ^ 64)%Z.
Definition container (t : ty) (vs : list val) : ustep := SAppend (TUnord t) (VList vs).

Lemma uint64_value_ok e r : digest_result r -> uint64_value e r = Ok (Z.of_N (result64 r)).
Proof.
  destruct r as [s x|d]; cbn [uint64_value digest_result result64].
  - intros _. unfold get_integral_result. rewrite gir_int64. reflexivity.
  - intros [H1 H2]. unfold get_digest_result. rewrite gir_digest64 by assumption. reflexivity.
Qed.

(* the programs of the elements *)
Lemma element_valid e a c pre t vs post v : In v vs ->
  valid_program e a c (pre ++ [container t vs] ++ post) -> valid_program e a c (pre ++ [SAppend t v; SResult]).
Proof.
  intros HI HV. destruct (valid_call _ _ _ _ _ _ HV) as [HT HN]. cbn [call_ok form_ok has_type] in HT.
  pose proof (valid_app _ _ _ _ _ HV) as [HC HP]. split; [exact HC|]. apply Forall_app. split; [exact HP|].
  constructor; [|constructor; [exact I|constructor]]. cbn [valid_step call_ok form_ok]. rewrite Forall_forall in HT. split; [now apply HT|].
  intros H. destruct (HN H) as [H1|H1]; [now left|right]. cbn [call_null_free form_null null_free] in *. rewrite Forall_forall in H1. now apply H1.
Qed.
Lemma lsum_in x l : In x l -> (x <= lsum l)%nat.
Proof. induction l as [|y l IH]; [contradiction|]. intros [->|H]; cbn [lsum fold_right]; [lia|]. specialize (IH H). unfold lsum in IH. lia. Qed.
Lemma element_room e a c pre t vs post v : In v vs ->
  room e a c (pre ++ [container t vs] ++ post) -> room e a c (pre ++ [SAppend t v; SResult]).
Proof.
  intros HI HR. unfold room in *. apply (roomy_mono _ _ _ _ _ HR). rewrite !weight_app. unfold weight at 2 4. cbn [map step_weight lsum fold_right container call_blen form_blen blen].
  pose proof (lsum_in _ _ (in_map (fun v => (192 + blen t v)%nat) _ _ HI)) as H. cbn beta in H. lia.
Qed.

Lemma element_query e a f c pre t v : valid_env e -> valid_program e a c (pre ++ [SAppend t v; SResult]) -> room e a c (pre ++ [SAppend t v; SResult]) ->
  exists rs r, runs e a f c (pre ++ [SAppend t v; SResult]) = Ok (rs ++ [r]) /\
    uint64_value e r = Ok (Z.of_N (query e a f c pre (message (e_impl e) f t v (query e a f c pre)))).
Proof.
  intros HE HV HR. pose proof (runs_expected e a f c _ HE HV HR) as E. pose proof (PropsObjects.expected_shape e a f c (pre ++ [SAppend t v; SResult])) as HS.
  unfold expected in E, HS. rewrite aprun_app in E, HS. cbn [aprun] in E, HS. eexists _, _. split; [exact E|].
  apply Forall_app in HS. destruct HS as [_ HS]. inversion HS as [|? ? [HD _] _]; subst. rewrite uint64_value_ok by exact HD. reflexivity.
Qed.
Lemma element_unique e a f c pre t v x : valid_env e -> valid_program e a c (pre ++ [SAppend t v; SResult]) -> room e a c (pre ++ [SAppend t v; SResult]) ->
  element_hash e a f c pre t v x -> x = Z.of_N (query e a f c pre (message (e_impl e) f t v (query e a f c pre))).
Proof.
  intros HE HV HR (rs & r & E & X). destruct (element_query e a f c pre t v HE HV HR) as (rs' & r' & E' & X').
  rewrite E in E'. injection E' as E'. apply app_inj_tail in E'. destruct E' as [_ ->]. rewrite X in X'. now injection X'.
Qed.
(* every element has a hash *)
Lemma element_exists e a f c pre t vs post : valid_env e ->
  valid_program e a c (pre ++ [container t vs] ++ post) -> room e a c (pre ++ [container t vs] ++ post) ->
  exists xs, Forall2 (element_hash e a f c pre t) vs xs.
Proof.
  intros HE HV HR.
  assert (H : forall v, In v vs -> exists x, element_hash e a f c pre t v x).
  { intros v Hv. destruct (element_query e a f c pre t v HE (element_valid _ _ _ _ _ _ _ _ Hv HV) (element_room _ _ _ _ _ _ _ _ Hv HR)) as (rs & r & E & X).
    eexists. exists rs, r. split; [exact E|exact X]. }
  clear HV HR. induction vs as [|v vs IH]; [exists []; constructor|]. destruct (H v (or_introl eq_refl)) as (x & Hx).
  destruct IH as (xs & Hxs); [intros w Hw; apply H; now right|]. exists (x :: xs). now constructor.
Qed.
Lemma sum64_total (g : val -> N) vs : Z.of_N (sum64 (map g vs)) = total (map (fun v => Z.of_N (g v)) vs).
Proof.
  unfold sum64, total. rewrite N2Z.inj_mod. change (Z.of_N (2 ^ 64)) with (2 ^ 64)%Z. f_equal.
  induction vs as [|v vs IH]; [reflexivity|]. cbn [map fold_right]. rewrite N2Z.inj_add, IH. reflexivity.
Qed.
Lemma total_query e a f c pre t vs xs post : valid_env e ->
  valid_program e a c (pre ++ [container t vs] ++ post) -> room e a c (pre ++ [container t vs] ++ post) ->
  Forall2 (element_hash e a f c pre t) vs xs ->
  Z.of_N (sum64 (map (fun v => query e a f c pre (message (e_impl e) f t v (query e a f c pre))) vs)) = total xs.
Proof.
  intros HE HV HR HF. rewrite sum64_total. f_equal.
  assert (H : forall v x, In v vs -> element_hash e a f c pre t v x -> x = Z.of_N (query e a f c pre (message (e_impl e) f t v (query e a f c pre)))).
  { intros v x Hv. apply element_unique; [exact HE|exact (element_valid _ _ _ _ _ _ _ _ Hv HV)|exact (element_room _ _ _ _ _ _ _ _ Hv HR)]. }
  clear HV HR. induction HF as [|v x vs xs Hx HF IH]; [reflexivity|]. cbn [map]. rewrite (H v x (or_introl eq_refl) Hx). f_equal.
  apply IH. intros w y Hw. apply H. now right.
Qed.

(* For every algorithm, seed, history and flavor: containers with the same number of elements whose hashes have the same sum modulo
   2^64 have the same effect, whatever follows. *)
Theorem C73_same e a f c pre t vs1 vs2 xs1 xs2 post : valid_env e ->
  valid_program e a c (pre ++ [container t vs1] ++ post) -> room e a c (pre ++ [container t vs1] ++ post) ->
  valid_program e a c (pre ++ [container t vs2] ++ post) -> room e a c (pre ++ [container t vs2] ++ post) ->
  Forall2 (element_hash e a f c pre t) vs1 xs1 -> Forall2 (element_hash e a f c pre t) vs2 xs2 ->
  length vs1 = length vs2 -> total xs1 = total xs2 ->
  exists rs, runs e a f c (pre ++ [container t vs1] ++ post) = Ok rs /\ runs e a f c (pre ++ [container t vs2] ++ post) = Ok rs.
Proof.
  intros HE V1 R1 V2 R2 F1 F2 HL HT. exists (expected e a f c (pre ++ [container t vs1] ++ post)).
  split; [now apply runs_expected|]. rewrite runs_expected by assumption. apply (f_equal (@Ok _)). apply same_state; try reflexivity.
  unfold container. rewrite !call_state. apply (f_equal (steps_to e a f c pre)).
  pose proof (total_query e a f c pre t vs1 xs1 post HE V1 R1 F1) as E1. pose proof (total_query e a f c pre t vs2 xs2 post HE V2 R2 F2) as E2.
  rewrite HT, <- E2 in E1. apply N2Z.inj in E1. unfold message in E1.
  unfold call_message. cbn [call_msg form_msg msg]. rewrite E1, HL. reflexivity.
Qed.

(* With xxhash_64 and murmur3_128 the converse holds: if the sums differ, the results do. *)
Lemma enc_neq le n z1 z2 : (z1 mod 2 ^ (8 * Z.of_nat n) <> z2 mod 2 ^ (8 * Z.of_nat n))%Z -> enc le n z1 <> enc le n z2.
Proof.
  intros H E. apply H. destruct (C26_enc le n z1) as (_ & _ & E1). destruct (C26_enc le n z2) as (_ & _ & E2).
  rewrite E in E1. congruence.
Qed.
Theorem C73_exact e a f c t vs1 vs2 xs1 xs2 : valid_env e -> a = Axx64 \/ a = Amur128 -> 
  valid_program e a c [container t vs1; SResult] -> valid_program e a c [container t vs2; SResult] ->
  Forall2 (element_hash e a f c [] t) vs1 xs1 -> Forall2 (element_hash e a f c [] t) vs2 xs2 ->
  length vs1 = length vs2 -> total xs1 <> total xs2 ->
  distinguished e a f c [container t vs1; SResult] [container t vs2; SResult].
Proof.
  intros HE HA V1 V2 F1 F2 HL HT.
  assert (HR : forall xs, room e a c xs) by (intros xs; apply room_any; destruct HA as [-> | ->]; discriminate).
  set (q := query e a f c []).
  set (m := fun vs : list val => call_message (e_impl e) f (KVal (TUnord t) (VList vs)) q).
  assert (HQ : forall L, roomy e a c L).
  { intros L. destruct HA as [-> | ->]; exact I. }
  assert (IQ : forall k, is_query e a f c [] (call_blen k) q).
  { intros k x Bx Lx. apply query_runs; [exact HE|split; [apply V1|constructor]|exact Bx|apply HQ]. }
  destruct (append_feeds e a f c [] (KVal (TUnord t) (VList vs1)) [SResult] q (m vs1) HE V1 (HR _) (IQ _) eq_refl) as (rs1 & E1 & G1).
  destruct (append_feeds e a f c [] (KVal (TUnord t) (VList vs2)) [SResult] q (m vs2) HE V2 (HR _) (IQ _) eq_refl) as (rs2 & E2 & G2).
  assert (EM : forall vs xs, valid_program e a c [container t vs; SResult] -> Forall2 (element_hash e a f c [] t) vs xs ->
    m vs = enc (order_le (fl_order f)) 8 (total xs) ++ enc (order_le (fl_order f)) (ibytes (fl_size f)) (Z.of_nat (length vs))).
  { intros vs xs V F. pose proof (total_query e a f c [] t vs xs [SResult] HE V (HR _) F) as E. unfold m, call_message. cbn [call_msg form_msg msg].
    unfold message in E. change (query e a f c []) with q in E. rewrite E. reflexivity. }
  assert (ML : forall vs xs, valid_program e a c [container t vs; SResult] -> Forall2 (element_hash e a f c [] t) vs xs -> length (m vs) = (8 + ibytes (fl_size f))%nat).
  { intros vs xs V F. rewrite (EM vs xs V F), app_length. f_equal; apply (C26_enc _ _ _). }
  assert (MB : forall vs, valid_pieces a [(Ptr (m vs), length (m vs))]).
  { intros vs. constructor; [|constructor]. split; [apply le_n|apply call_msg_bytes]. }
  assert (FD : forall x, fed [(Ptr x, length x)] = x) by (intros x; cbn; now rewrite app_nil_r, firstn_all).
  assert (NE : m vs1 <> m vs2).
  { rewrite (EM vs1 xs1 V1 F1), (EM vs2 xs2 V2 F2). intros E. apply app_inj_len in E; [|transitivity 8%nat; [apply (C26_enc _ _ _)|symmetry; apply (C26_enc _ _ _)]].
    destruct E as [E _]. revert E. apply enc_neq. change (2 ^ (8 * Z.of_nat 8))%Z with (2 ^ 64)%Z. unfold total in *. rewrite !Z.mod_mod by discriminate. exact HT. }
  assert (SS : (ibytes (fl_size f) <= 8)%nat) by (destruct (fl_size f); cbn; lia).
  assert (D : distinguished e a f c (hash_pieces [(Ptr (m vs1), length (m vs1))]) (hash_pieces [(Ptr (m vs2), length (m vs2))])).
  { destruct HA as [-> | ->].
    - apply (C53_xxh64_tail e f c _ _ 0 8); try assumption; try apply MB; rewrite ?FD.
      + apply V1.
      + rewrite (ML vs1 xs1 V1 F1), Nat.div_small by lia. lia.
      + right. right. now split.
      + rewrite (ML vs1 xs1 V1 F1). lia.
      + split; [now rewrite (ML vs1 xs1 V1 F1), (ML vs2 xs2 V2 F2)|]. split; [exact NE|]. split; [reflexivity|].
        rewrite (EM vs1 xs1 V1 F1), (EM vs2 xs2 V2 F2), HL.
        assert (L8 : forall z w, skipn (0 + 8) (enc (order_le (fl_order f)) 8 z ++ w) = w).
        { intros z w. replace (0 + 8)%nat with (length (enc (order_le (fl_order f)) 8 z) + 0)%nat by (rewrite (proj1 (C26_enc _ _ _)); reflexivity).
          rewrite skipn_app, Nat.add_0_r, skipn_all, Nat.sub_diag. reflexivity. }
        rewrite !L8. reflexivity.
    - apply (C53_murmur128 e f c _ _ 0); try assumption; try apply MB; rewrite ?FD; [apply V1|reflexivity|].
      apply all_differ; [now rewrite (ML vs1 xs1 V1 F1), (ML vs2 xs2 V2 F2)|exact NE|rewrite (ML vs1 xs1 V1 F1); lia]. }
  destruct D as (r1 & r2 & D1 & D2 & DN). exists r1, r2.
  cbn [app] in E1, E2, G1, G2. unfold hash_pieces, updates in D1, D2. cbn [map app] in D1, D2. unfold feed in G1, G2.
  unfold container. rewrite E1, E2. rewrite <- G1, <- G2. auto.
Qed.

(* ---------- one element replaced by another ---------- *)
Lemma total_mid l1 x l2 : total (l1 ++ x :: l2) = ((fold_right Z.add 0 l1 + fold_right Z.add 0 l2 + x) mod 2 ^ 64)%Z.
Proof.
  unfold total. f_equal. induction l1 as [|y l1 IH]; cbn [app fold_right]; [ring|]. rewrite IH. ring.
Qed.
Lemma mod_shift s x y m : (0 < m)%Z -> (0 <= x < m)%Z -> (0 <= y < m)%Z -> ((s + x) mod m = (s + y) mod m)%Z -> x = y.
Proof.
  intros Hm Hx Hy E. assert (H : ((s + x - s) mod m = (s + y - s) mod m)%Z) by (rewrite (Zminus_mod (s + x)), (Zminus_mod (s + y)), E; reflexivity).
  replace (s + x - s)%Z with x in H by ring. replace (s + y - s)%Z with y in H by ring. rewrite !Z.mod_small in H by assumption. exact H.
Qed.
Lemma forall2_mid {A B} (P : A -> B -> Prop) l1 v l2 xs : Forall2 P (l1 ++ v :: l2) xs ->
  exists y1 x y2, xs = y1 ++ x :: y2 /\ Forall2 P l1 y1 /\ P v x /\ Forall2 P l2 y2.
Proof.
  intros H. apply Forall2_app_inv_l in H. destruct H as (y1 & y2 & H1 & H2 & ->). inversion H2; subst. eauto 8.
Qed.
Lemma range64 e a f c pre t v x : valid_env e -> valid_program e a c (pre ++ [SAppend t v; SResult]) -> room e a c (pre ++ [SAppend t v; SResult]) ->
  element_hash e a f c pre t v x -> (0 <= x < 2 ^ 64)%Z.
Proof.
  intros HE HV HR H. rewrite (element_unique _ _ _ _ _ _ _ _ HE HV HR H). unfold query, aq.
  assert (HD : forall s, result64 (fst (mc_ar (machine_of (e_cw e) a) s)) < 2 ^ 64).
  { intros s. pose proof (machine_digest (e_cw e) a s) as HD.
    destruct (fst (mc_ar (machine_of (e_cw e) a) s)) as [k y|d]; cbn [result64 digest_result] in *; [apply N.mod_lt; discriminate|].
    destruct HD as [HB HL]. pose proof (le_val_bound (firstn 8 d) (bytes_firstn 8 d HB)) as L. rewrite firstn_length_le in L by exact HL. exact L. }
  pose proof (HD (mc_au (machine_of (e_cw e) a) (state e a f c pre) (message (e_impl e) f t v (fun m => result64 (fst (mc_ar (machine_of (e_cw e) a) (mc_au (machine_of (e_cw e) a) (state e a f c pre) m))))))) as L.
  split; [apply N2Z.is_nonneg|]. change (2 ^ 64)%Z with (Z.of_N (2 ^ 64)). apply N2Z.inj_lt. exact L.
Qed.

(* any algorithm: elements with the same hash can be exchanged *)
Theorem C73_exchange e a f c pre t l1 l2 v1 v2 x post : valid_env e ->
  valid_program e a c (pre ++ [container t (l1 ++ v1 :: l2)] ++ post) -> room e a c (pre ++ [container t (l1 ++ v1 :: l2)] ++ post) ->
  valid_program e a c (pre ++ [container t (l1 ++ v2 :: l2)] ++ post) -> room e a c (pre ++ [container t (l1 ++ v2 :: l2)] ++ post) ->
  element_hash e a f c pre t v1 x -> element_hash e a f c pre t v2 x ->
  exists rs, runs e a f c (pre ++ [container t (l1 ++ v1 :: l2)] ++ post) = Ok rs /\ runs e a f c (pre ++ [container t (l1 ++ v2 :: l2)] ++ post) = Ok rs.
Proof.
  intros HE V1 R1 V2 R2 H1 H2. destruct (element_exists e a f c pre t (l1 ++ v1 :: l2) post HE V1 R1) as (xs & HF).
  destruct (forall2_mid _ _ _ _ _ HF) as (y1 & y & y2 & -> & G1 & _ & G2).
  apply (C73_same e a f c pre t _ _ (y1 ++ x :: y2) (y1 ++ x :: y2)); try assumption.
  - apply Forall2_app; [exact G1|]. now constructor.
  - apply Forall2_app; [exact G1|]. now constructor.
  - rewrite !app_length. reflexivity.
  - reflexivity.
Qed.
(* xxhash_64, murmur3_128: elements with different 64-bit hashes cannot *)
Theorem C73_replace e a f c t l1 l2 v1 v2 x1 x2 : valid_env e -> a = Axx64 \/ a = Amur128 ->
  valid_program e a c [container t (l1 ++ v1 :: l2); SResult] -> valid_program e a c [container t (l1 ++ v2 :: l2); SResult] ->
  element_hash e a f c [] t v1 x1 -> element_hash e a f c [] t v2 x2 -> x1 <> x2 ->
  distinguished e a f c [container t (l1 ++ v1 :: l2); SResult] [container t (l1 ++ v2 :: l2); SResult].
Proof.
  intros HE HA V1 V2 H1 H2 HN.
  assert (HR : forall xs, room e a c xs) by (intros xs; apply room_any; destruct HA as [-> | ->]; discriminate).
  destruct (element_exists e a f c [] t (l1 ++ v1 :: l2) [SResult] HE V1 (HR _)) as (xs & HF).
  destruct (forall2_mid _ _ _ _ _ HF) as (y1 & y & y2 & -> & G1 & _ & G2).
  apply (C73_exact e a f c t _ _ (y1 ++ x1 :: y2) (y1 ++ x2 :: y2)); try assumption.
  - apply Forall2_app; [exact G1|]. now constructor.
  - apply Forall2_app; [exact G1|]. now constructor.
  - rewrite !app_length. reflexivity.
  - rewrite !total_mid. intros E. apply HN. apply mod_shift in E; [exact E|reflexivity| |].
    + refine (range64 e a f c [] t v1 x1 HE (element_valid e a c [] t _ [SResult] v1 _ V1) (HR _) H1). apply in_elt.
    + refine (range64 e a f c [] t v2 x2 HE (element_valid e a c [] t _ [SResult] v2 _ V2) (HR _) H2). apply in_elt.
Qed.
(* the elements of an unordered container hashed with xxhash_64: the container shows a change of one element exactly when the hash
   of that element changes *)
Theorem C73_xxh64 e f c t l1 l2 v1 v2 : valid_env e ->
  valid_program e Axx64 c [container t (l1 ++ v1 :: l2); SResult] -> valid_program e Axx64 c [container t (l1 ++ v2 :: l2); SResult] ->
  (distinguished e Axx64 f c [container t (l1 ++ v1 :: l2); SResult] [container t (l1 ++ v2 :: l2); SResult] <->
   distinguished e Axx64 f c [SAppend t v1; SResult] [SAppend t v2; SResult]).
Proof.
  intros HE V1 V2. assert (HR : forall xs, room e Axx64 c xs) by (intros xs; apply room_any; discriminate).
  pose proof (element_valid e Axx64 c [] t _ [SResult] v1 (in_elt _ _ _) V1) as W1.
  pose proof (element_valid e Axx64 c [] t _ [SResult] v2 (in_elt _ _ _) V2) as W2. cbn [app] in W1, W2.
  assert (EX : forall v, valid_program e Axx64 c [SAppend t v; SResult] -> exists x, runs e Axx64 f c [SAppend t v; SResult] = Ok [RInt I64 x] /\ is_word I64 x).
  { intros v W. pose proof (runs_expected e Axx64 f c _ HE W (HR _)) as E. pose proof (results_words e Axx64 f c _ W) as HW.
    unfold expected in E, HW. cbn [aprun] in E, HW. rewrite E.
    destruct (fst (mc_ar (machine_of (e_cw e) Axx64) _)) as [k x|d] eqn:ER; [|discriminate].
    assert (k = I64) as -> by (clear - ER; cbn in ER; now injection ER as <- _). exists x. split; [reflexivity|]. exact (Forall_inv HW). }
  destruct (EX v1 W1) as (x1 & E1 & X1). destruct (EX v2 W2) as (x2 & E2 & X2).
  destruct (C33_identity I64 false x1 X1) as (z1 & Z1 & T1 & M1). destruct (C33_identity I64 false x2 X2) as (z2 & Z2 & T2 & M2).
  assert (H1 : element_hash e Axx64 f c [] t v1 z1) by (exists [], (RInt I64 x1); split; [exact E1|exact Z1]).
  assert (H2 : element_hash e Axx64 f c [] t v2 z2) by (exists [], (RInt I64 x2); split; [exact E2|exact Z2]).
  split; intros D.
  - exists (RInt I64 x1), (RInt I64 x2). split; [exact E1|]. split; [exact E2|]. intros E. injection E as <-.
    rewrite Z1 in Z2. injection Z2 as <-. destruct (C73_exchange e Axx64 f c [] t l1 l2 v1 v2 z1 [SResult] HE V1 (HR _) V2 (HR _) H1 H2) as (rs & F1 & F2).
    destruct D as (r1 & r2 & D1 & D2 & DN). cbn [app] in F1, F2. rewrite D1 in F1. rewrite D2 in F2. apply DN. congruence.
  - apply (C73_replace e Axx64 f c t l1 l2 v1 v2 z1 z2); try assumption; [now left|]. intros ->.
    destruct D as (r1 & r2 & D1 & D2 & DN). rewrite E1 in D1. rewrite E2 in D2. apply DN.
    assert (x1 = x2) by (apply N2Z.inj; congruence). congruence.
Qed.
(* so replacing an integer (enumerator, pointer) of 1, 4 or 8 bytes by another always changes the hash, whatever the seed *)
Theorem C73_integers e f c t l1 l2 z1 z2 : valid_env e -> integer_like t -> one_unit Axx64 (length (scalar_bytes (e_impl e) f t z1)) ->
  ctor_weight c + 4 < e_cw e ->
  valid_program e Axx64 c [container t (l1 ++ VInt z1 :: l2); SResult] -> valid_program e Axx64 c [container t (l1 ++ VInt z2 :: l2); SResult] ->
  z1 <> z2 -> distinguished e Axx64 f c [container t (l1 ++ VInt z1 :: l2); SResult] [container t (l1 ++ VInt z2 :: l2); SResult].
Proof.
  intros HE HI HU HC V1 V2 HN. apply C73_xxh64; try assumption.
  pose proof (element_valid e Axx64 c [] t _ [SResult] (VInt z1) (in_elt _ _ _) V1) as W1.
  pose proof (element_valid e Axx64 c [] t _ [SResult] (VInt z2) (in_elt _ _ _) V2) as W2. cbn [app] in W1, W2.
  now apply C53_integers.
Qed.

Example C73_hashes_ex a : exists xs, Forall2 (element_hash env_pc a le_flavor (CSeed 7) sample (TInt I8 true)) [VInt 3; VInt (-3)] xs.
Proof. apply (element_exists env_pc a le_flavor (CSeed 7) sample (TInt I8 true) [VInt 3; VInt (-3)] [SResult]); ex_side. Qed.
Example C73_integers_ex k : k < 2^64 -> distinguished env_pc Axx64 be32_flavor (CSeed k)
  [container (TInt I64 true) [VInt 1; VInt (-5); VInt 9]; SResult] [container (TInt I64 true) [VInt 1; VInt 7; VInt 9]; SResult].
Proof.
  intros HK. apply (C73_integers env_pc be32_flavor (CSeed k) (TInt I64 true) [VInt 1] [VInt 9] (-5) 7);
    [exact env_pc_valid|exact I|right; right; reflexivity|reflexivity| | |discriminate]; (apply (steps_valid env_pc); [reflexivity|exact HK|unfold steps_ok; ok]).
Qed.
Example C73_xxh64_ex k : k < 2^64 ->
  distinguished env_pc Axx64 le_flavor (CSeed k) [container TPtr [VInt 4096; VInt 8192]; SResult] [container TPtr [VInt 4096; VInt 8200]; SResult] <->
  distinguished env_pc Axx64 le_flavor (CSeed k) [SAppend TPtr (VInt 8192); SResult] [SAppend TPtr (VInt 8200); SResult].
Proof.
  intros HK. apply (C73_xxh64 env_pc le_flavor (CSeed k) TPtr [VInt 4096] [] (VInt 8192) (VInt 8200)); [exact env_pc_valid| |];
    (apply (steps_valid env_pc); [reflexivity|exact HK|unfold steps_ok; ok]).
Qed.
(* the hashes of the bytes 0, 1, 2, 3 with fnv1a_64: those of 0 and 3 have the sum of those of 1 and 2 *)
Ltac hash_of_element := eexists [], _; split; [vm_compute; reflexivity|vm_compute; reflexivity].
Example C73_same_ex : exists rs,
  runs env_pc Afnv64 le_flavor CDefault [container (TInt I8 false) [VInt 0; VInt 3]; SResult] = Ok rs /\
  runs env_pc Afnv64 le_flavor CDefault [container (TInt I8 false) [VInt 1; VInt 2]; SResult] = Ok rs.
Proof.
  apply (C73_same env_pc Afnv64 le_flavor CDefault [] (TInt I8 false) [VInt 0; VInt 3] [VInt 1; VInt 2]
    [12638153115695167455; 12638154215206795666]%Z [12638152016183539244; 12638155314718423877]%Z [SResult]);
    try exact env_pc_valid; try (apply (steps_valid env_pc); [reflexivity|exact I|unfold steps_ok; ok]); try (apply room_any; discriminate); try reflexivity.
  - constructor; [hash_of_element|]. constructor; [hash_of_element|]. constructor.
  - constructor; [hash_of_element|]. constructor; [hash_of_element|]. constructor.
Qed.
(* murmur3_128 of the bytes 5 and 6, hence of sets that contain one or the other *)
Example C73_replace_ex : distinguished env_pc Amur128 le_flavor CDefault
  [container (TInt I8 false) [VInt 9; VInt 5]; SResult] [container (TInt I8 false) [VInt 9; VInt 6]; SResult].
Proof.
  assert (H : exists x1 x2, element_hash env_pc Amur128 le_flavor CDefault [] (TInt I8 false) (VInt 5) x1 /\
                            element_hash env_pc Amur128 le_flavor CDefault [] (TInt I8 false) (VInt 6) x2 /\ x1 <> x2).
  { eexists _, _. split; [hash_of_element|]. split; [hash_of_element|]. discriminate. }
  destruct H as (x1 & x2 & H1 & H2 & HN).
  apply (C73_replace env_pc Amur128 le_flavor CDefault (TInt I8 false) [VInt 9] [] (VInt 5) (VInt 6) x1 x2); try assumption; [exact env_pc_valid|now right| |];
    (apply (steps_valid env_pc); [reflexivity|exact I|unfold steps_ok; ok]).
Qed.

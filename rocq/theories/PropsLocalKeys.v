(* C53 for keys: values of a fixed-size type whose message is one unit of the algorithm never collide,
   whatever the seed. *)
From Verif Require Import Base BaseFacts SpecCommon Gen Bits GenMD Hasher GenBlk Types ModelResult ModelAppend SpecAppend ProofMsg ProofMsgEq
  Behaves Instances ProofRuns Samples PropsHistory PropsAlg PropsAppend PropsSeeds PropsPrims ProofLocal PropsLocal PropsLocal64.
From Verif Require Import ProofSpooky.
Open Scope N_scope.

(* messages of n bytes are taken in by algorithm a in one piece, by a bijective step *)
Definition one_unit (a : alg) (n : nat) : Prop :=
  match a with
  | Afnv32 | Afnv64 => n = 1%nat
  | Amur32 => (n <= 4)%nat
  | Amur128 => (n <= 16)%nat
  | Axx32 => n = 1%nat \/ n = 4%nat
  | Axx64 => n = 1%nat \/ n = 4%nat \/ n = 8%nat
  | _ => False
  end.
Lemma all_differ (m1 m2 : list N) L : length m1 = length m2 -> m1 <> m2 -> (length m1 <= L)%nat -> differ_at 0 L m1 m2.
Proof. intros HL HN H. repeat split; try assumption. cbn [Nat.add]. now rewrite !skipn_all2 by lia. Qed.
Theorem C53_units e a f c cs1 cs2 : valid_env e -> valid_ctor c -> valid_pieces a cs1 -> valid_pieces a cs2 -> ctor_weight c + 4 < e_cw e ->
  one_unit a (length (fed cs1)) -> length (fed cs1) = length (fed cs2) -> fed cs1 <> fed cs2 ->
  distinguished e a f c (hash_pieces cs1) (hash_pieces cs2).
Proof.
  intros HE HC V1 V2 HW HU HL HN. pose proof (all_differ (fed cs1) (fed cs2) (length (fed cs1)) HL HN ltac:(lia)) as HD.
  destruct a as [m|m| | | | | | | | | ]; cbn [one_unit] in HU; try contradiction.
  - apply (C53_xxh32 e f c cs1 cs2 0 (length (fed cs1))); try assumption; [lia| |lia]. destruct HU as [-> | ->]; [now left|now right].
  - apply (C53_xxh64_tail e f c cs1 cs2 0 (length (fed cs1))); try assumption; [|clear - HU|lia].
    + rewrite Nat.div_small by lia. lia.
    + destruct HU as [-> | [-> | -> ]]; [now left|now right; left|now right; right].
  - rewrite HU in HD. now apply (C53_fnv32 e f c cs1 cs2 0).
  - rewrite HU in HD. now apply (C53_fnv64 e f c cs1 cs2 0).
  - apply (C53_murmur32 e f c cs1 cs2 0); try assumption; [reflexivity|]. now apply all_differ.
  - apply (C53_murmur128 e f c cs1 cs2 0); try assumption; [reflexivity|]. now apply all_differ.
Qed.
Theorem C53_keys e a f c t v1 v2 q : valid_env e -> decodable t ->
  valid_program e a c [SAppend t v1; SResult] -> valid_program e a c [SAppend t v2; SResult] -> ctor_weight c + 4 < e_cw e ->
  regular (fl_size f) t v1 -> regular (fl_size f) t v2 ->
  one_unit a (length (message (e_impl e) f t v1 q)) -> length (message (e_impl e) f t v1 q) = length (message (e_impl e) f t v2 q) ->
  ~ equal t v1 v2 ->
  distinguished e a f c [SAppend t v1; SResult] [SAppend t v2; SResult].
Proof.
  intros HE HD V1 V2 HW R1 R2 HU HL HN. pose proof (decodable_ordered t HD) as HO.
  assert (HR : forall xs, room e a c xs) by (intros xs; unfold room, roomy; destruct a; try exact I; contradiction).
  destruct (append_feeds_ordered e a f c [] t v1 [SResult] q HE HO V1 (HR _)) as (rs1 & E1 & F1).
  destruct (append_feeds_ordered e a f c [] t v2 [SResult] q HE HO V2 (HR _)) as (rs2 & E2 & F2).
  assert (FD : forall m, fed [(Ptr m, length m)] = m) by (intros m; cbn; now rewrite app_nil_r, firstn_all).
  assert (VP : forall v, valid_pieces a [(Ptr (message (e_impl e) f t v q), length (message (e_impl e) f t v q))]).
  { intros v. constructor; [|constructor]. split; [cbn; lia|]. cbn. apply msg_bytes. }
  destruct V1 as [HC V1], V2 as [_ V2].
  assert (T1 : has_type (im_psz (e_impl e)) t v1) by (inversion V1 as [|? ? X _]; exact (proj1 X)).
  assert (T2 : has_type (im_psz (e_impl e)) t v2) by (inversion V2 as [|? ? X _]; exact (proj1 X)).
  destruct (C53_units e a f c _ _ HE HC (VP v1) (VP v2) HW) as (r1 & r2 & X1 & X2 & XN); rewrite ?FD; try assumption.
  - intros E. apply HN. now apply (C28_parse (e_impl e) f t v1 v2 [] [] q q).
  - exists r1, r2. cbn [app] in E1, E2, F1, F2. change [feed ?m; SResult] with (hash_pieces [(Ptr m, length m)]) in F1, F2.
    rewrite X1 in F1. rewrite X2 in F2. split; [now rewrite E1|]. split; [now rewrite E2|assumption].
Qed.
(* in particular, distinct integers (enumerators, addresses) have distinct hashes, for every seed *)
Theorem C53_integers e a f c t z1 z2 : valid_env e -> integer_like t ->
  valid_program e a c [SAppend t (VInt z1); SResult] -> valid_program e a c [SAppend t (VInt z2); SResult] -> ctor_weight c + 4 < e_cw e ->
  one_unit a (length (scalar_bytes (e_impl e) f t z1)) -> z1 <> z2 ->
  distinguished e a f c [SAppend t (VInt z1); SResult] [SAppend t (VInt z2); SResult].
Proof.
  intros HE HI V1 V2 HW HU HN.
  assert (EL : forall z, length (message (e_impl e) f t (VInt z) (fun _ => 0)) = length (scalar_bytes (e_impl e) f t z)).
  { intros z. destruct t; try contradiction; unfold message, scalar_bytes, int_bytes; cbn [msg]; try (destruct (fl_order f)); rewrite ?enc_length, ?repeat_length; reflexivity. }
  assert (ES : length (scalar_bytes (e_impl e) f t z1) = length (scalar_bytes (e_impl e) f t z2)).
  { destruct t; try contradiction; unfold scalar_bytes, int_bytes; try (destruct (fl_order f)); rewrite ?enc_length; reflexivity. }
  assert (T1 : has_type (im_psz (e_impl e)) t (VInt z1)) by (destruct V1 as [_ V1]; inversion V1 as [|? ? X _]; exact (proj1 X)).
  assert (T2 : has_type (im_psz (e_impl e)) t (VInt z2)) by (destruct V2 as [_ V2]; inversion V2 as [|? ? X _]; exact (proj1 X)).
  apply (C53_keys e a f c t (VInt z1) (VInt z2) (fun _ => 0)); try assumption; rewrite ?EL; try assumption.
  - destruct t; try contradiction; exact I.
  - destruct t; try contradiction; exact I.
  - destruct t; try contradiction; exact I.
  - destruct t; try contradiction; cbn [equal has_type] in *; congruence.
Qed.

(* ---------- concrete cases ---------- *)
Ltac key_ok := apply steps_valid; [reflexivity|ok|unfold steps_ok; ok].
(* xxhash_64 of 1 and of 2^40, as long long, on a 64-bit machine, for the seed 7 *)
Example C53_integers_ex : distinguished env_pc Axx64 le_flavor (CSeed 7)
  [SAppend (TInt I64 true) (VInt 1); SResult] [SAppend (TInt I64 true) (VInt (2^40)); SResult].
Proof.
  apply (C53_integers env_pc Axx64 le_flavor (CSeed 7) (TInt I64 true) 1 (2^40)); [exact env_pc_valid|exact I|key_ok|key_ok|reflexivity|right; right; reflexivity|discriminate].
Qed.
(* murmur3_128 of two pairs of std::int64_t *)
Example C53_keys_ex : distinguished env_be Amur128 be32_flavor (CBytes (Ptr [1; 2; 3]) 3)
  [SAppend (TTuple [TInt I64 true; TInt I64 true]) (VList [VInt 1; VInt 2]); SResult]
  [SAppend (TTuple [TInt I64 true; TInt I64 true]) (VList [VInt 2; VInt 1]); SResult].
Proof.
  apply (C53_keys env_be Amur128 be32_flavor (CBytes (Ptr [1; 2; 3]) 3) (TTuple [TInt I64 true; TInt I64 true]) (VList [VInt 1; VInt 2]) (VList [VInt 2; VInt 1]) (fun _ => 0));
    [exact env_be_valid|ok|key_ok|key_ok|reflexivity|ok|ok|apply Nat.leb_le; vm_compute; reflexivity|reflexivity|cbn; intuition discriminate].
Qed.
(* the byte level theorems on messages of 40 bytes, in one or two pieces *)
Definition seq40 : list N := map N.of_nat (List.seq 0 40).
Definition alter (p : nat) (xs m : list N) : list N := firstn p m ++ xs ++ skipn (p + length xs) m.
Definition whole40 : list (ptr * nat) := [(Ptr seq40, 40%nat)].
Definition altered (p : nat) (xs : list N) : list (ptr * nat) :=
  [(Ptr (alter p xs seq40), 17%nat); (Ptr (skipn 17 (alter p xs seq40)), 23%nat)].
Lemma whole40_ok a : valid_pieces a whole40.
Proof. constructor; [|constructor]. split; [apply Nat.leb_le; reflexivity|]. apply Forall_forall. intros x Hx. now revert x Hx; apply Forall_forall; repeat constructor. Qed.
Lemma altered_ok a p xs : (p + length xs <= 40)%nat -> bytes xs -> valid_pieces a (altered p xs).
Proof.
  intros H Hb. assert (HS : bytes seq40) by repeat constructor.
  assert (BA : bytes (alter p xs seq40)) by (unfold alter; rewrite !bytes_app; auto using bytes_firstn, bytes_skipn).
  assert (LA : length (alter p xs seq40) = 40%nat) by (unfold alter; rewrite !app_length, firstn_length, skipn_length; change (length seq40) with 40%nat; lia).
  repeat constructor; cbn [fst snd valid_arg]; rewrite ?skipn_length, ?LA; try lia; auto using bytes_skipn.
Qed.
Ltac differs := repeat split; discriminate.
Example C53_fnv32_ex : distinguished env_pc Afnv32 le_flavor (CSeed 7) (hash_pieces whole40) (hash_pieces (altered 37 [255])).
Proof. apply (C53_fnv32 _ _ _ _ _ 37); [exact env_pc_valid|ok|apply whole40_ok|apply altered_ok; [cbn; lia|ok]|differs]. Qed.
Example C53_fnv64_ex : distinguished env_pc Afnv64 le_flavor CDefault (hash_pieces whole40) (hash_pieces (altered 0 [255])).
Proof. apply (C53_fnv64 _ _ _ _ _ 0); [exact env_pc_valid|ok|apply whole40_ok|apply altered_ok; [cbn; lia|ok]|differs]. Qed.
Example C53_murmur32_ex : distinguished env_be Amur32 le_flavor (CSeed (2^40)) (hash_pieces whole40) (hash_pieces (altered 36 [1; 2; 3])).
Proof. apply (C53_murmur32 _ _ _ _ _ 36); [exact env_be_valid|ok|apply whole40_ok|apply altered_ok; [cbn; lia|ok]|reflexivity|differs]. Qed.
Example C53_murmur128_ex : distinguished env_be Amur128 le_flavor (CSeed (2^40)) (hash_pieces whole40) (hash_pieces (altered 16 [9; 8; 7; 6; 5; 4; 3; 2; 1; 0; 1; 2; 3; 4; 5; 6])).
Proof. apply (C53_murmur128 _ _ _ _ _ 16); [exact env_be_valid|ok|apply whole40_ok|apply altered_ok; [cbn; lia|ok]|reflexivity|differs]. Qed.
Example C53_xxh32_ex : distinguished env_be Axx32 le_flavor (CSeed 9) (hash_pieces whole40) (hash_pieces (altered 20 [9; 8; 7; 6])).
Proof. apply (C53_xxh32 _ _ _ _ _ 20 4); [exact env_be_valid|ok|apply whole40_ok|apply altered_ok; [cbn; lia|ok]|reflexivity|now right|apply Nat.leb_le; reflexivity|differs]. Qed.
Example C53_xxh64_tail_ex : distinguished env_pc Axx64 le_flavor (CSeed 9) (hash_pieces whole40) (hash_pieces (altered 36 [9; 8; 7; 6])).
Proof. apply (C53_xxh64_tail _ _ _ _ _ 36 4); [exact env_pc_valid|ok|apply whole40_ok|apply altered_ok; [cbn; lia|ok]|apply Nat.leb_le; reflexivity|right; left; auto|apply Nat.leb_le; reflexivity|differs]. Qed.

(* C50: messages longer than the range of std::size_t (in practice: more than 4 GB on a 32-bit
   platform). *)
From Verif Require Import Base BaseFacts SpecCommon Gen Hasher GenMD Words Loops GenBlk Bits Types ModelResult ModelAppend SpecAppend
  Behaves Instances ProofRuns PropsHistory Samples PropsAlg PropsPrims PropsResults PropsSeeds.
From Verif Require Import ModelMurmur SpecMurmur ProofMurmur ProofMurmurDistinct ModelXxh SpecXxh ProofXxh.
Open Scope N_scope.

(* Every count passed to update() fits std::size_t *)
Definition representable (e : env) (cs : list (ptr * nat)) : Prop := Forall (fun x => N.of_nat (snd x) < e_cw e) cs.
Definition total (cs : list (ptr * nat)) : N := N.of_nat (length (fed cs)).

Lemma cw_mod32 cw n : cw = 2^32 \/ cw = 2^64 -> (n mod cw) mod 2^32 = n mod 2^32.
Proof.
  intros [-> | ->].
  - apply N.mod_mod. discriminate.
  - change (2^64) with (2^32 * 2^32). rewrite N.mod_mul_r by discriminate.
    rewrite N.mul_comm, N.mod_add by discriminate. apply N.mod_mod. discriminate.
Qed.

(* ------------------------------------------------------------------ murmur3_32 *)
(* MurmurHash3_x86_32 uses the length as a 32-bit quantity: no bound on the message *)
Lemma mur32_first' cw seed l : cw = 2^32 \/ cw = 2^64 -> fst (mur32_ar cw (seed, 0, l)) = MurmurHash3_x86_32 seed l.
Proof.
  intros HC. unfold mur32_ar, MurmurHash3_x86_32. cbn [fst]. rewrite N.add_0_l. unfold Mur32_final. now rewrite cw_mod32.
Qed.
Theorem C50_murmur32 e f s cs : valid_env e -> valid_pieces Amur32 cs -> s < 2^32 ->
  runs e Amur32 f (CSeed s) (hash_pieces cs) = Ok [RInt I32 (MurmurHash3_x86_32 s (fed cs))].
Proof.
  intros HE HV HS. rewrite first_result'; [|assumption|now apply lt32_64|assumption|discriminate].
  cbn [machine_of blk_machine mc_start mc_ar mc_au mur32_start ab_au fst].
  rewrite (N.div_small s) by exact HS. cbn [N.eqb app]. rewrite mur32_first' by apply HE. reflexivity.
Qed.

(* ------------------------------------------------------------------ murmur3_128 *)
(* With 32-bit std::size_t, *no* message of 2^32 bytes or more has the hash of the reference
   algorithm *)
Lemma mur128_final_inj' h1 h2 n n' t : h1 < 2^64 -> h2 < 2^64 -> n < 2^64 -> n' < 2^64 ->
  Mur128_final (h1, h2) n t = Mur128_final (h1, h2) n' t -> n = n'.
Proof.
  intros H1 H2 Hn Hn' E.
  assert (X1 : N.lxor h1 (Mur128_k1 (LE (firstn 8 t))) < 2^64) by (apply lxor_lt; [exact H1|apply MUL_lt']).
  assert (X2 : N.lxor h2 (Mur128_k2 (LE (skipn 8 t))) < 2^64) by (apply lxor_lt; [exact H2|apply MUL_lt']).
  apply (mur128_final_inj _ _ n n' X1 X2 Hn Hn').
  unfold Mur128_final in E |- *. cbv zeta in E |- *.
  change (Mur128_k2 (LE (skipn 8 []))) with 0. change (Mur128_k1 (LE (firstn 8 []))) with 0. rewrite !(N.lxor_0_r (N.lxor _ _)). exact E.
Qed.
Theorem C50_murmur128_refuted e f s cs : valid_env e -> e_cw e = 2^32 -> valid_pieces Amur128 cs -> s < 2^64 ->
  2^32 <= total cs -> total cs < 2^64 ->
  exists d, runs e Amur128 f (CSeed s) (hash_pieces cs) = Ok [RDigest d] /\ d <> MurmurHash3_x64_128 s s (fed cs).
Proof.
  intros HE HW HV HS HL HU. eexists. split.
  - rewrite first_result'; [|assumption|exact HS|assumption|discriminate].
    cbn [machine_of blk_machine mc_start mc_ar mc_au mur128_start ab_au fst app]. reflexivity.
  - rewrite HW. unfold mur128_ar, MurmurHash3_x64_128. cbn [fst]. rewrite N.add_0_l. change (N.of_nat (length (fed cs))) with (total cs).
    assert (HF : lt2 (fold_left Mur128_block (chunks 16 (fed cs)) (s, s))) by (apply mur128_fold_lt; split; exact HS).
    destruct (fold_left Mur128_block (chunks 16 (fed cs)) (s, s)) as [h1 h2]. destruct HF as [F1 F2]. cbn [fst snd] in F1, F2.
    intros E. apply mur128_final_inj' in E; [|assumption|assumption| |assumption].
    + pose proof (N.mod_lt (total cs) (2^32) ltac:(discriminate)) as M. rewrite E in M. apply (N.lt_irrefl (2^32)).
      apply N.le_lt_trans with (total cs); assumption.
    + apply N.lt_trans with (2^32); [apply N.mod_lt; discriminate|reflexivity].
Qed.

(* ------------------------------------------------------------------ xxhash_32 *)
(* XXH32 whatever the length, unless the count has wrapped to less than 16 *)
Lemma xx32_first' cw seed l : cw = 2^32 \/ cw = 2^64 -> seed < 2^32 ->
  (length l < 16)%nat \/ 16 <= N.of_nat (length l) mod cw ->
  fst (xx32_ar cw (XXH32_init seed, 0, l)) = XXH32 seed l.
Proof.
  intros HC HS HL. destruct HL as [HL|HL].
  - apply xx32_first; [assumption|assumption|]. apply N.lt_trans with 16; [lia|]. destruct HC as [-> | ->]; reflexivity.
  - unfold xx32_ar, XXH32. set (v := fold_left XXH32_stripe (chunks 16 l) (XXH32_init seed)).
    assert (HX : XXH32_consume (ADD 32 (XXH32_converge v) (N.of_nat (length l) mod cw)) (rest 16 l) =
                 XXH32_consume (ADD 32 (XXH32_converge v) (N.of_nat (length l))) (rest 16 l)).
    { f_equal. unfold ADD. rewrite <- N.add_mod_idemp_r by discriminate. rewrite cw_mod32 by assumption.
      apply N.add_mod_idemp_r. discriminate. }
    assert (H16 : Nat.ltb (length l) 16 = false).
    { apply Nat.ltb_ge. assert (N.of_nat (length l) mod cw <= N.of_nat (length l)); [|lia].
      apply N.mod_le. destruct HC as [-> | ->]; discriminate. }
    rewrite H16. rewrite <- HX. clear HX. unfold xx32_acc. rewrite N.add_0_l.
    rewrite (proj2 (N.ltb_ge _ _) HL). destruct v as [[[v1 v2] v3] v4]. reflexivity.
Qed.
Theorem C50_xxh32 e f s cs : valid_env e -> valid_pieces Axx32 cs -> s < 2^32 ->
  total cs < 16 \/ 16 <= total cs mod e_cw e ->
  runs e Axx32 f (CSeed s) (hash_pieces cs) = Ok [RInt I32 (XXH32 s (fed cs))].
Proof.
  intros HE HV HS HL. rewrite first_result'; [|assumption|now apply lt32_64|assumption|discriminate].
  cbn [machine_of blk_machine mc_start mc_ar mc_au xx32_start ab_au fst].
  rewrite (N.div_small s) by exact HS. cbn [N.eqb app]. rewrite xx32_first'; [reflexivity|apply HE|assumption|].
  destruct HL as [HL|HL]; [left; unfold total in HL; lia|right; exact HL].
Qed.

(* When it has wrapped to less than 16, three quarters of the stripes do not matter: the result
   depends only on bytes 8 to 11 of every stripe of 16, the last total mod 16 bytes, and the length *)
Definition matters (n i : nat) : Prop := (8 <= i mod 16 < 12)%nat \/ (16 * (n / 16) <= i)%nat.
Definition acc3 (v : XXH_acc) : N := let '(_, _, v3, _) := v in v3.
Lemma stripe_acc3 v d : acc3 (XXH32_stripe v d) = XXH32_round (acc3 v) (lane32 2 d).
Proof. destruct v as [[[v1 v2] v3] v4]. reflexivity. Qed.
Lemma fold_acc3 ds : forall v, acc3 (fold_left XXH32_stripe ds v) = fold_left (fun a d => XXH32_round a (lane32 2 d)) ds (acc3 v).
Proof. induction ds as [|d ds IH]; intros v; [reflexivity|]. cbn [fold_left]. now rewrite IH, stripe_acc3. Qed.
Lemma wrapped_acc cw seed l : N.of_nat (length l) mod cw < 16 ->
  fst (xx32_ar cw (XXH32_init seed, 0, l)) =
  XXH32_avalanche (XXH32_consume (ADD 32 (ADD 32 (fold_left (fun a d => XXH32_round a (lane32 2 d)) (chunks 16 l) (seed mod 2^32)) PRIME32_5) (N.of_nat (length l) mod cw)) (rest 16 l)).
Proof.
  intros HL. unfold xx32_ar. change (seed mod 2^32) with (acc3 (XXH32_init seed)). rewrite <- fold_acc3.
  destruct (fold_left XXH32_stripe (chunks 16 l) (XXH32_init seed)) as [[[v1 v2] v3] v4].
  unfold xx32_acc. rewrite N.add_0_l, (proj2 (N.ltb_lt _ _) HL). reflexivity.
Qed.
Lemma nth_firstn_eq {A} (d : A) k (l1 l2 : list A) : length l1 = length l2 -> (forall i, (i < k)%nat -> nth i l1 d = nth i l2 d) -> firstn k l1 = firstn k l2.
Proof.
  revert l1 l2. induction k as [|k IH]; intros l1 l2 HL H; [reflexivity|].
  destruct l1 as [|x l1], l2 as [|y l2]; try discriminate; [reflexivity|]. cbn [firstn]. f_equal.
  - exact (H 0%nat ltac:(lia)).
  - apply IH; [now injection HL|]. intros i Hi. exact (H (S i) ltac:(lia)).
Qed.
Lemma nth_skipn {A} (d : A) k (l : list A) i : nth i (skipn k l) d = nth (k + i) l d.
Proof. revert l. induction k as [|k IH]; intros [|x l]; cbn [skipn Nat.add nth]; auto. now destruct i. Qed.
Lemma lanes_same n : forall l1 l2, length l1 = n -> length l2 = n -> (forall i, matters n i -> nth i l1 0 = nth i l2 0) ->
  map (lane32 2) (chunks 16 l1) = map (lane32 2) (chunks 16 l2).
Proof.
  induction n as [n IH] using lt_wf_ind. intros l1 l2 H1 H2 HM. destruct (Nat.lt_ge_cases n 16) as [HN|HN].
  - now rewrite !(chunks_short 16) by lia.
  - rewrite (chunks_step 16 ltac:(lia) l1), (chunks_step 16 ltac:(lia) l2) by lia. cbn [map]. f_equal.
    + unfold lane32. f_equal. rewrite !firstn_skipn_firstn by (cbn; lia). apply (nth_firstn_eq 0); [rewrite !skipn_length; lia|].
      intros i Hi. rewrite !nth_skipn. apply HM. left. rewrite Nat.mod_small; lia.
    + apply (IH (n - 16)%nat); [lia|rewrite skipn_length; lia|rewrite skipn_length; lia|]. intros i Hi. rewrite !nth_skipn. apply HM.
      destruct Hi as [Hi|Hi].
      * left. replace (16 + i)%nat with (i + 1 * 16)%nat by lia. rewrite Nat.mod_add by lia. exact Hi.
      * right. replace n with ((n - 16) + 1 * 16)%nat by lia. rewrite Nat.div_add by lia. lia.
Qed.
Theorem C50_xxh32_wrapped e f s cs1 cs2 : valid_env e -> valid_pieces Axx32 cs1 -> valid_pieces Axx32 cs2 -> s < 2^32 ->
  total cs1 mod e_cw e < 16 -> total cs2 = total cs1 ->
  (forall i, matters (length (fed cs1)) i -> nth i (fed cs1) 0 = nth i (fed cs2) 0) ->
  runs e Axx32 f (CSeed s) (hash_pieces cs1) = runs e Axx32 f (CSeed s) (hash_pieces cs2).
Proof.
  intros HE V1 V2 HS HL ET HM.
  assert (R : forall cs, valid_pieces Axx32 cs -> runs e Axx32 f (CSeed s) (hash_pieces cs) = Ok [RInt I32 (fst (xx32_ar (e_cw e) (XXH32_init s, 0, fed cs)))]).
  { intros cs HV. rewrite first_result'; [|assumption|now apply lt32_64|assumption|discriminate].
    cbn [machine_of blk_machine mc_start mc_ar mc_au xx32_start ab_au fst].
    rewrite (N.div_small s) by exact HS. reflexivity. }
  rewrite (R cs1 V1), (R cs2 V2). clear R. unfold total in *. apply Nat2N.inj in ET.
  rewrite !wrapped_acc by (rewrite ?ET; exact HL). rewrite ET.
  assert (E1 : rest 16 (fed cs1) = rest 16 (fed cs2)).
  { unfold rest. rewrite ET. rewrite <- (firstn_all (skipn _ (fed cs1))), <- (firstn_all (skipn _ (fed cs2))). rewrite !skipn_length, ET.
    apply (nth_firstn_eq 0); [rewrite !skipn_length; lia|]. intros i _. rewrite !nth_skipn. apply HM. right. lia. }
  assert (E2 : forall ds v, fold_left (fun a d => XXH32_round a (lane32 2 d)) ds v = fold_left XXH32_round (map (lane32 2) ds) v).
  { induction ds as [|d ds IH]; intros v; [reflexivity|]. cbn [fold_left map]. apply IH. }
  rewrite E1, !E2. rewrite (lanes_same (length (fed cs1)) (fed cs1) (fed cs2) eq_refl ET HM). reflexivity.
Qed.

(* So it is not XXH32 *)
Lemma ROTL_inj w k a b : 0 < k -> k < w -> a < 2^w -> b < 2^w -> ROTL w k a = ROTL w k b -> a = b.
Proof.
  intros K0 K A B E. apply N.bits_inj. intros i. destruct (N.lt_ge_cases i w) as [L|L].
  - assert (HI : ((i + k) mod w + (w - k)) mod w = i).
    { rewrite N.add_mod_idemp_l by lia. replace (i + k + (w - k)) with (i + 1 * w) by lia. rewrite N.mod_add by lia. now apply N.mod_small. }
    pose proof (ROTL_bits w k a ((i + k) mod w) K0 K A) as E1. pose proof (ROTL_bits w k b ((i + k) mod w) K0 K B) as E2.
    rewrite HI in E1, E2. assert (HM : (i + k) mod w < w) by (apply N.mod_lt; lia).
    rewrite <- (E1 HM), <- (E2 HM). now rewrite E.
  - now rewrite (proj1 (lt_pow2_bits a w) A), (proj1 (lt_pow2_bits b w) B).
Qed.
Lemma XXH32_avalanche_inj a b : a < 2^32 -> b < 2^32 -> XXH32_avalanche a = XXH32_avalanche b -> a = b.
Proof.
  intros Ha Hb E. unfold XXH32_avalanche in E. cbv zeta in E.
  apply xorshift_inj in E; [|reflexivity].
  apply (mul_inj 32 _ 0xa89ed915) in E; [|reflexivity| |]; try (apply lxor_lt; [|apply shiftr_lt]; apply MUL_lt').
  apply xorshift_inj in E; [|reflexivity].
  apply (mul_inj 32 _ 0xb6c92f47) in E; [|reflexivity| |]; try (apply lxor_lt; [|apply shiftr_lt]; assumption).
  apply xorshift_inj in E; [exact E|reflexivity].
Qed.
Lemma XXH32_round_inj a x y : x < 2^32 -> y < 2^32 -> XXH32_round a x = XXH32_round a y -> x = y.
Proof.
  intros X Y E. unfold XXH32_round in E.
  apply (mul_inj 32 _ 0xe8b2f51) in E; [|reflexivity|apply ROTL_lt; [reflexivity|apply ADD_lt']|apply ROTL_lt; [reflexivity|apply ADD_lt']].
  apply ROTL_inj in E; [|reflexivity|reflexivity|apply ADD_lt'|apply ADD_lt'].
  rewrite !(ADD_comm' 32 a) in E. apply add_inj_r in E; [|apply MUL_lt'|apply MUL_lt'].
  apply (mul_inj 32 _ 0xb6c92f47) in E; [exact E|reflexivity|assumption|assumption].
Qed.
(* two messages of k + 1 stripes that differ in the first byte of the last one *)
Definition stripes (k : nat) (b : N) : list N := repeat 0 (k * 16) ++ (b :: repeat 0 15).
Lemma stripes_length k b : length (stripes k b) = (k * 16 + 16)%nat.
Proof. unfold stripes. rewrite app_length, repeat_length. cbn [length]. now rewrite repeat_length. Qed.
Lemma stripes_XXH32 seed k : XXH32 seed (stripes k 0) <> XXH32 seed (stripes k 1).
Proof.
  intros E. unfold XXH32 in E. rewrite !stripes_length in E.
  replace (Nat.ltb (k * 16 + 16) 16) with false in E by (symmetry; apply Nat.ltb_ge; lia).
  assert (R : forall b, rest 16 (stripes k b) = []).
  { intros b. apply (rest_nil 16); [lia|]. rewrite stripes_length. replace (k * 16 + 16)%nat with ((k + 1) * 16)%nat by lia. apply Nat.mod_mul. lia. }
  assert (C : forall b, chunks 16 (stripes k b) = chunks 16 (repeat 0 (k * 16)) ++ [b :: repeat 0 15]).
  { intros b. unfold stripes. rewrite (chunks_app_mult 16 ltac:(lia) k) by apply repeat_length. f_equal. }
  rewrite !R, !C, !fold_left_app in E. cbn [fold_left] in E.
  destruct (fold_left XXH32_stripe (chunks 16 (repeat 0 (k * 16))) (XXH32_init seed)) as [[[a1 a2] a3] a4].
  unfold XXH32_consume in E. change (chunks 4 []) with (@nil (list N)) in E. change (rest 4 []) with (@nil N) in E. cbn [fold_left] in E.
  apply XXH32_avalanche_inj in E; [|apply ADD_lt'|apply ADD_lt']. apply add_inj_r in E; [|unfold XXH32_converge, XXH32_stripe; apply ADD_lt'|unfold XXH32_converge, XXH32_stripe; apply ADD_lt'].
  unfold XXH32_stripe, XXH32_converge in E. do 3 (apply add_inj_r in E; [|first [apply ADD_lt'|apply ROTL_lt; [reflexivity|apply MUL_lt']]|first [apply ADD_lt'|apply ROTL_lt; [reflexivity|apply MUL_lt']]]).
  apply ROTL_inj in E; [|reflexivity|reflexivity|apply MUL_lt'|apply MUL_lt'].
  apply XXH32_round_inj in E; [discriminate E|reflexivity|reflexivity].
Qed.
Lemma stripes_bytes k b : b < 256 -> bytes (stripes k b).
Proof. intros H. apply bytes_app. split; [apply Forall_forall; intros x Hx; apply repeat_spec in Hx; now subst x|]. constructor; [exact H|]. repeat constructor. Qed.
Definition stripe_pieces (k : nat) (b : N) : list (ptr * nat) := [(Ptr (repeat 0 (k * 16)), (k * 16)%nat); (Ptr (b :: repeat 0 15), 16%nat)].
Lemma stripe_fed k b : fed (stripe_pieces k b) = stripes k b.
Proof.
  unfold fed, stripe_pieces, stripes. cbn [map concat fst snd data]. rewrite app_nil_r.
  rewrite firstn_all2 by (rewrite repeat_length; lia). reflexivity.
Qed.
Lemma stripe_valid k b : b < 256 -> valid_pieces Axx32 (stripe_pieces k b).
Proof.
  intros H. constructor; [|constructor; [|constructor]]; cbn [fst snd].
  - split; [rewrite repeat_length; lia|]. apply Forall_forall. intros x Hx. apply repeat_spec in Hx. now subst x.
  - split; [cbn [length]; rewrite repeat_length; lia|]. constructor; [exact H|repeat constructor].
Qed.
Theorem C50_xxh32_refuted e f s : valid_env e -> s < 2^32 -> exists cs r,
  valid_pieces Axx32 cs /\ representable e cs /\ total cs = e_cw e /\
  runs e Axx32 f (CSeed s) (hash_pieces cs) = Ok [RInt I32 r] /\ r <> XXH32 s (fed cs).
Proof.
  intros HE HS. pose proof HE as [HC _].
  assert (HD : exists q, e_cw e = 16 * q /\ 2 <= q) by (destruct HC as [-> | ->]; [exists (2^28)|exists (2^60)]; split; [reflexivity|discriminate|reflexivity|discriminate]).
  destruct HD as (q & HQ & HQ2). set (k := N.to_nat (q - 1)).
  assert (HT : forall b, total (stripe_pieces k b) = e_cw e) by (intros b; unfold total; rewrite stripe_fed, stripes_length; unfold k; lia).
  assert (HR : forall b, representable e (stripe_pieces k b)) by (intros b; repeat constructor; cbn [snd]; unfold k; lia).
  assert (V0 := stripe_valid k 0 ltac:(reflexivity)). assert (V1 := stripe_valid k 1 ltac:(reflexivity)).
  assert (EW : runs e Axx32 f (CSeed s) (hash_pieces (stripe_pieces k 0)) = runs e Axx32 f (CSeed s) (hash_pieces (stripe_pieces k 1))).
  { apply C50_xxh32_wrapped; try assumption.
    - rewrite HT. rewrite N.mod_same; [reflexivity|]. lia.
    - now rewrite !HT.
    - intros i HM. rewrite !stripe_fed in *. rewrite stripes_length in HM. unfold stripes.
      destruct (Nat.lt_ge_cases i (k * 16)) as [HI|HI].
      + now rewrite !app_nth1 by now rewrite repeat_length.
      + rewrite !app_nth2 by (rewrite repeat_length; lia). rewrite repeat_length. destruct (i - k * 16)%nat as [|j] eqn:EJ; [|reflexivity].
        exfalso. assert (i = (k * 16)%nat) by lia. subst i. destruct HM as [HM|HM].
        * rewrite Nat.mod_mul in HM by lia. lia.
        * replace (k * 16 + 16)%nat with ((k + 1) * 16)%nat in HM by lia. rewrite Nat.div_mul in HM by lia. lia. }
  assert (HX : exists r, runs e Axx32 f (CSeed s) (hash_pieces (stripe_pieces k 0)) = Ok [RInt I32 r]).
  { eexists. rewrite first_result'; [|assumption|now apply lt32_64|assumption|discriminate].
    cbn [machine_of blk_machine mc_start mc_ar mc_au xx32_start ab_au fst]. reflexivity. }
  destruct HX as (r & EX). destruct (N.eq_dec r (XXH32 s (fed (stripe_pieces k 0)))) as [D|D].
  - exists (stripe_pieces k 1), r. split; [exact V1|]. split; [apply HR|]. split; [apply HT|]. split; [now rewrite <- EW|].
    intros F. rewrite D in F. rewrite !stripe_fed in F. now apply stripes_XXH32 in F.
  - exists (stripe_pieces k 0), r. repeat split; auto.
Qed.

(* messages beyond the range of a 32-bit std::size_t (env_be), in representable pieces *)
Definition long_pieces (k : nat) : list (ptr * nat) := [(Ptr (repeat 7 k), k); (Ptr (repeat 9 k), k)].
Lemma long_facts a k : valid_pieces a (long_pieces k) /\ total (long_pieces k) = 2 * N.of_nat k.
Proof.
  split.
  - constructor; [|constructor; [|constructor]]; cbn [fst snd]; (split; [rewrite repeat_length; lia|]);
      apply Forall_forall; intros x Hx; apply repeat_spec in Hx; now subst x.
  - unfold total, fed, long_pieces. cbn [map concat fst snd data]. rewrite app_nil_r, app_length, !firstn_length, !repeat_length. lia.
Qed.
Lemma long_rep e k : N.of_nat k < e_cw e -> representable e (long_pieces k).
Proof. intros H. constructor; [exact H|]. constructor; [exact H|constructor]. Qed.
Section Long.
Variable half : nat.
Hypothesis Hh : N.of_nat half = 2^31 + 16.
Lemma C50_murmur32_ex_half : exists cs, total cs = 2^32 + 32 /\ representable env_be cs /\
  runs env_be Amur32 le_flavor (CSeed 5) (hash_pieces cs) = Ok [RInt I32 (MurmurHash3_x86_32 5 (fed cs))].
Proof.
  destruct (long_facts Amur32 half) as [HV HT]. exists (long_pieces half).
  split; [rewrite HT, Hh; reflexivity|]. split; [apply long_rep; rewrite Hh; reflexivity|].
  apply C50_murmur32; [exact env_be_valid|exact HV|reflexivity].
Qed.
Lemma C50_murmur128_refuted_ex_half : exists cs d, total cs = 2^32 + 32 /\ representable env_be cs /\
  runs env_be Amur128 le_flavor (CSeed 5) (hash_pieces cs) = Ok [RDigest d] /\ d <> MurmurHash3_x64_128 5 5 (fed cs).
Proof.
  destruct (long_facts Amur128 half) as [HV HT]. rewrite Hh in HT.
  destruct (C50_murmur128_refuted env_be le_flavor 5 (long_pieces half)) as (d & E & D);
    try (exact env_be_valid || exact HV || reflexivity || (rewrite HT; discriminate) || (rewrite HT; reflexivity)).
  exists (long_pieces half), d.
  split; [rewrite HT; reflexivity|]. split; [apply long_rep; rewrite Hh; reflexivity|]. now split.
Qed.
Lemma C50_xxh32_ex_half : exists cs, total cs = 2^32 + 32 /\ representable env_be cs /\
  runs env_be Axx32 le_flavor (CSeed 5) (hash_pieces cs) = Ok [RInt I32 (XXH32 5 (fed cs))].
Proof.
  destruct (long_facts Axx32 half) as [HV HT]. rewrite Hh in HT. exists (long_pieces half).
  split; [rewrite HT; reflexivity|]. split; [apply long_rep; rewrite Hh; reflexivity|].
  apply C50_xxh32; [exact env_be_valid|exact HV|reflexivity|]. right. rewrite HT. discriminate.
Qed.
End Long.
Definition half_message : nat := N.to_nat (2^31 + 16).
Lemma half_ok : N.of_nat half_message = 2^31 + 16.
Proof. apply N2Nat.id. Qed.
Example C50_murmur32_ex : exists cs, total cs = 2^32 + 32 /\ representable env_be cs /\
  runs env_be Amur32 le_flavor (CSeed 5) (hash_pieces cs) = Ok [RInt I32 (MurmurHash3_x86_32 5 (fed cs))].
Proof. exact (C50_murmur32_ex_half half_message half_ok). Qed.
Example C50_murmur128_refuted_ex : exists cs d, total cs = 2^32 + 32 /\ representable env_be cs /\
  runs env_be Amur128 le_flavor (CSeed 5) (hash_pieces cs) = Ok [RDigest d] /\ d <> MurmurHash3_x64_128 5 5 (fed cs).
Proof. exact (C50_murmur128_refuted_ex_half half_message half_ok). Qed.
Example C50_xxh32_ex : exists cs, total cs = 2^32 + 32 /\ representable env_be cs /\
  runs env_be Axx32 le_flavor (CSeed 5) (hash_pieces cs) = Ok [RInt I32 (XXH32 5 (fed cs))].
Proof. exact (C50_xxh32_ex_half half_message half_ok). Qed.

(* C62, continued: integers are hashed perfectly also by a hash object with a history (that ends in a result). *)
From Verif Require Import Base BaseFacts SpecCommon Gen Bits GenMD Hasher GenBlk Types ModelResult ModelAppend SpecAppend ProofMsg ProofMsgEq
  Behaves Instances ProofRuns Samples PropsHistory PropsAlg PropsAppend PropsSeeds PropsPrims PropsIntegral ProofRange ProofLocal PropsLocal PropsLocal64 PropsLocalKeys
  PropsEven PropsLocalHistory.
From Verif Require Import ProofSpooky.
Open Scope N_scope.

(* the result for the integer z, after the steps xs, is r *)
Definition hashes_after (e : env) (a : alg) (f : flavor) (c : ctor) (xs : list ustep) (s : isz) (sg : bool) (z : Z) (r : N) : Prop :=
  exists rs, length rs = results_in xs /\ runs e a f c (xs ++ [SAppend (TInt s sg) (VInt z); SResult]) = Ok (rs ++ [RInt s r]).

Section History.
Variables (e : env) (a : alg) (f : flavor) (c : ctor) (xs : list ustep) (s : isz) (sg : bool).
Hypotheses (HE : valid_env e) (HV : valid_program e a c xs) (HX : at_result xs) (HW : ctor_weight c + N.of_nat (weight xs) + 4 < e_cw e) (HA : takes_in a s).

Lemma int_valid_after z : in_int s sg z -> valid_program e a c (xs ++ [SAppend (TInt s sg) (VInt z); SResult]).
Proof using HV HA.
  intros HZ. destruct HV as [HC H]. split; [exact HC|]. apply Forall_app. split; [exact H|]. exact (proj2 (int_valid e a c s sg z HA HC HZ)).
Qed.
Lemma total_after z : in_int s sg z -> exists r, is_word s r /\ hashes_after e a f c xs s sg z r.
Proof using HE HV HA.
  intros HZ. pose proof (int_valid_after z HZ) as V.
  assert (HR : room e a c (xs ++ [SAppend (TInt s sg) (VInt z); SResult])) by (apply room_any; destruct a; try contradiction; discriminate).
  pose proof (results_words e a f c _ V) as W. unfold hashes_after. rewrite runs_expected by assumption. revert W.
  unfold expected. rewrite aprun_app. cbn [aprun]. match goal with |- context [mc_ar _ ?x] => destruct (machine_int (e_cw e) a s x HA) as (r & ->) end. intros W.
  apply Forall_app in W. destruct W as [_ W]. inversion W as [|? ? X _]; subst. exists r. split; [exact X|]. eexists. split; [|reflexivity]. apply aprun_length.
Qed.
Lemma fun_after z r r' : hashes_after e a f c xs s sg z r -> hashes_after e a f c xs s sg z r' -> r = r'.
Proof using Type.
  intros (rs & _ & E) (rs' & _ & E'). rewrite E in E'. assert (X : rs ++ [RInt s r] = rs' ++ [RInt s r']) by congruence.
  apply app_inj_tail in X. destruct X as [_ X]. now injection X.
Qed.
Lemma inj_after z z' r : in_int s sg z -> in_int s sg z' -> hashes_after e a f c xs s sg z r -> hashes_after e a f c xs s sg z' r -> z = z'.
Proof using HE HV HX HW HA.
  intros HZ HZ' (rs & _ & H) (rs' & _ & H'). destruct (Z.eq_dec z z') as [E|HN]; [exact E|exfalso].
  destruct (C53_integers_history e a f c xs (TInt s sg) z z' HE I) as (rs0 & r1 & r2 & _ & E1 & E2 & X); try assumption; try (now apply int_valid_after).
  - unfold boundary. clear - HX HA. destruct a; try contradiction; exact HX.
  - apply unit_of, HA.
  - rewrite H in E1. rewrite H' in E2.
    assert (X1 : rs ++ [RInt s r] = rs0 ++ [r1]) by congruence. assert (X2 : rs' ++ [RInt s r] = rs0 ++ [r2]) by congruence.
    apply app_inj_tail in X1. apply app_inj_tail in X2. destruct X1 as [_ X1], X2 as [_ X2]. congruence.
Qed.
(* Every value of the result type is the hash of exactly one integer. *)
Lemma perfect_after r : is_word s r -> exists! z, in_int s sg z /\ hashes_after e a f c xs s sg z r.
Proof using HE HV HX HW HA.
  intros HR.
  assert (C : forall m, exists h : N -> N, forall x, x < m -> x < 2 ^ ibits s -> is_word s (h x) /\ hashes_after e a f c xs s sg (to_int s sg x) (h x)).
  { intros m. induction m as [|m (h & Hh)] using N.peano_ind.
    - exists (fun _ => 0). intros x Hx. lia.
    - destruct (N.ltb_spec m (2 ^ ibits s)) as [Hm|Hm].
      + destruct (total_after (to_int s sg m)) as (v & Hv & Rv); [now apply in_int_type, to_int_in|].
        exists (fun x => if x =? m then v else h x). intros x Hx Hx'. destruct (N.eqb_spec x m) as [->|HN]; [now split|]. apply Hh; lia.
      + exists h. intros x Hx Hx'. apply Hh; lia. }
  destruct (C (2 ^ ibits s)) as (h & Hh).
  destruct (onto_of_inj (2 ^ ibits s) h) with (r := r) as (x & Hx & E).
  - intros x Hx. now apply (Hh x Hx Hx).
  - intros x y Hx Hy E. apply (to_int_inj s sg); try assumption.
    apply (inj_after _ _ (h x)); try (now apply in_int_type, to_int_in); [now apply Hh|]. rewrite E. now apply Hh.
  - exact HR.
  - assert (HZ : in_int s sg (to_int s sg x)) by now apply in_int_type, to_int_in.
    assert (HH : hashes_after e a f c xs s sg (to_int s sg x) r) by (rewrite <- E; now apply Hh).
    exists (to_int s sg x). split; [now split|]. intros z (Hz & Rz). now apply (inj_after _ _ r).
Qed.
Lemma keys_after n (P : N -> Prop) : (forall r, P r -> is_word s r) -> exactly n P ->
  exactlyZ n (fun z => in_int s sg z /\ exists r, hashes_after e a f c xs s sg z r /\ P r).
Proof using HE HV HX HW HA.
  intros HP. apply (exactly_keys s sg n P _ (hashes_after e a f c xs s sg)).
  - reflexivity.
  - exact HP.
  - intros z Hz. destruct (total_after z Hz) as (r & _ & Hr). now exists r.
  - intros z r r'. apply fun_after.
  - intros r Hr. destruct (perfect_after r Hr) as (z & Hz & _). now exists z.
  - intros z z' r. now apply inj_after.
Qed.
End History.

Theorem C62_perfect_history e a f c xs s sg r : valid_env e -> valid_program e a c xs -> at_result xs ->
  ctor_weight c + N.of_nat (weight xs) + 4 < e_cw e -> takes_in a s -> is_word s r ->
  exists! z, in_int s sg z /\ hashes_after e a f c xs s sg z r.
Proof. intros. now apply perfect_after. Qed.
(* as many integers have their result in a set of words as there are words in it: in particular for the words that select a bucket of a
   hash table, or that get_integral_result takes to a given value *)
Theorem C62_even_history e a f c xs s sg n (P : N -> Prop) : valid_env e -> valid_program e a c xs -> at_result xs ->
  ctor_weight c + N.of_nat (weight xs) + 4 < e_cw e -> takes_in a s -> (forall r, P r -> is_word s r) -> exactly n P ->
  exactlyZ n (fun z => in_int s sg z /\ exists r, hashes_after e a f c xs s sg z r /\ P r).
Proof. intros. now apply keys_after. Qed.
Example C62_perfect_history_ex : exists! z, in_int I64 true z /\ hashes_after env_pc Axx64 le_flavor (CSeed 7) past I64 true z 0.
Proof. apply C62_perfect_history; [exact env_pc_valid|now apply past_valid|exact past_ends|reflexivity|exact I|reflexivity]. Qed.
(* three words: three integers *)
Example C62_even_history_ex : exactlyZ 3 (fun z => in_int I32 true z /\ exists r, hashes_after env_be Amur32 le_flavor (CSeed 7) past I32 true z r /\ r < 3).
Proof.
  apply (C62_even_history env_be Amur32 le_flavor (CSeed 7) past I32 true 3 (fun r => r < 3)); [exact env_be_valid|now apply past_valid|exact past_ends|reflexivity|exact I| |].
  - intros r Hr. unfold is_word. cbn. lia.
  - exists (fun k => k). repeat split; auto. intros r Hr. now exists r.
Qed.

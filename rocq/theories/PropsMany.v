(* C58: programs with several hash objects and copies of them, under any schedule. *)
From Verif Require Import Base BaseFacts SpecCommon Hasher Types ModelResult ModelAppend SpecAppend
  Behaves Instances ProofRuns ProofObj PropsHistory Samples PropsAppend.
Open Scope N_scope.

Section Many.
Variable e : env.

(* ---------- the model ---------- *)
(* A hash object of any of the classes, together with the flavor its calls of hash_append use.  No class
   contains a pointer, a reference or static data (the data members: md5.hpp:34-41, sha1.hpp:33-40, sha2.hpp:33-42,
   ripemd.hpp:37-44 and 386-393, and those of siphash.hpp, xxhash.hpp, fnv1a.hpp, hmac.hpp, legacy/murmur3.hpp and
   legacy/spooky2.hpp), and none declares a copy operation, so
   copying an object copies this state. *)
Record object := { ob_a : alg; ob_f : flavor; ob_s : h_S (pk_h (pack e ob_a)) }.
(* the objects by name *)
Definition store : Type := nat -> option object.
Definition put {X} (st : nat -> option X) (i : nat) (o : X) : nat -> option X := fun k => if Nat.eqb k i then Some o else st k.
(* H h( ... ); H h2( h ) or h2 = h; a call on an object *)
Inductive mstep := MNew (i : nat) (a : alg) (f : flavor) (c : ctor) | MCopy (i j : nat) | MStep (i : nat) (x : ustep).
Definition step1 (o : object) (x : ustep) : res (object * list result) :=
  let h := pk_h (pack e (ob_a o)) in
  match x with
  | SUpdate p n => s <- h_update h (ob_s o) p n ;; Ok ({| ob_a := ob_a o; ob_f := ob_f o; ob_s := s |}, [])
  | SResult => '(r, s) <- h_result h (ob_s o) ;; Ok ({| ob_a := ob_a o; ob_f := ob_f o; ob_s := s |}, [pk_out (pack e (ob_a o)) r])
  | SCall k => s <- ha_call h (pk_gir (pack e (ob_a o))) (e_impl e) (ob_f o) k (ob_s o) ;;
               Ok ({| ob_a := ob_a o; ob_f := ob_f o; ob_s := s |}, [])
  end.
(* the results, each with the name of its object, in the order in which they are returned; the use of a
   name without an object is undefined *)
Fixpoint mrun (st : store) (xs : list mstep) : res (list (nat * result)) :=
  match xs with
  | [] => Ok []
  | MNew i a f c :: t => s <- construct (pk_h (pack e a)) c ;; mrun (put st i {| ob_a := a; ob_f := f; ob_s := s |}) t
  | MCopy i j :: t => match st i with Some o => mrun (put st j o) t | None => UB end
  | MStep i x :: t =>
      match st i with
      | Some o => '(o, r) <- step1 o x ;; rs <- mrun (put st i o) t ;; Ok (map (pair i) r ++ rs)
      | None => UB
      end
  end.
Definition many (xs : list mstep) : res (list (nat * result)) := mrun (fun _ => None) xs.

(* ---------- the specification ---------- *)
(* the history of an object: how it, or the object it is a copy of, was constructed, and all calls since then *)
Record history := { hi_a : alg; hi_f : flavor; hi_c : ctor; hi_calls : list ustep }.
Definition after (h : history) (x : ustep) : history :=
  {| hi_a := hi_a h; hi_f := hi_f h; hi_c := hi_c h; hi_calls := hi_calls h ++ [x] |}.
Definition histories : Type := nat -> option history.
Definition next (hs : histories) (x : mstep) : histories :=
  match x with
  | MNew i a f c => put hs i {| hi_a := a; hi_f := f; hi_c := c; hi_calls := [] |}
  | MCopy i j => match hs i with Some h => put hs j h | None => hs end
  | MStep i x => match hs i with Some h => put hs i (after h x) | None => hs end
  end.
Definition valid_history (h : history) : Prop :=
  valid_program e (hi_a h) (hi_c h) (hi_calls h) /\ room e (hi_a h) (hi_c h) (hi_calls h).
(* valid programs: calls are made on existing objects and are valid for their history *)
Fixpoint mvalid (hs : histories) (xs : list mstep) : Prop :=
  match xs with
  | [] => True
  | x :: t =>
      match x with
      | MNew i a f c => valid_ctor c /\ room e a c []
      | MCopy i j => hs i <> None
      | MStep i x => match hs i with Some h => valid_history (after h x) | None => False end
      end /\ mvalid (next hs x) t
  end.
(* the results: each call of result() returns what it returns in a program that has this object only and
   makes the calls of its history *)
Fixpoint returns (hs : histories) (xs : list mstep) (out : list (nat * result)) : Prop :=
  match xs with
  | [] => out = []
  | MStep i SResult as x :: t =>
      exists h r rs out', hs i = Some h /\ runs e (hi_a h) (hi_f h) (hi_c h) (hi_calls h ++ [SResult]) = Ok (rs ++ [r]) /\
        out = (i, r) :: out' /\ returns (next hs x) t out'
  | x :: t => returns (next hs x) t out
  end.

(* ---------- the proof ---------- *)
Definition at_history (h : history) (o : object) : Prop :=
  ob_a o = hi_a h /\ ob_f o = hi_f h /\
  exists s0 rs, construct (pk_h (pack e (ob_a o))) (hi_c h) = Ok s0 /\
    pobj (pk_h (pack e (ob_a o))) (pk_gir (pack e (ob_a o))) (e_impl e) (hi_f h) s0 (hi_calls h) = Ok (ob_s o) /\
    prun (pk_h (pack e (ob_a o))) (pk_gir (pack e (ob_a o))) (e_impl e) (hi_f h) s0 (hi_calls h) = Ok rs.
Definition agree (hs : histories) (st : store) : Prop :=
  forall i, match hs i, st i with Some h, Some o => at_history h o | None, None => True | _, _ => False end.
Lemma agree_put hs st i h o : agree hs st -> at_history h o -> agree (put hs i h) (put st i o).
Proof. intros H HO k. specialize (H k). unfold put. destruct (Nat.eqb k i); [exact HO|exact H]. Qed.
Lemma step1_history h o x : valid_env e -> at_history h o -> valid_history (after h x) ->
  exists o' r, step1 o x = Ok (o', r) /\ at_history (after h x) o' /\
    match x with
    | SResult => exists r0 rs, r = [r0] /\ runs e (hi_a h) (hi_f h) (hi_c h) (hi_calls h ++ [SResult]) = Ok (rs ++ [r0])
    | _ => r = []
    end.
Proof.
  intros HE HA [HV HR]. destruct o as [a f s], h as [a' f' c xs]. unfold at_history in HA. cbn [ob_a ob_f ob_s hi_a hi_f hi_c hi_calls after] in *.
  destruct HA as (-> & -> & s0 & rs & EC & EO & EP).
  pose proof (runs_ok e a' f' c (xs ++ [x]) HE HV HR) as RO. unfold runs, program in RO. rewrite EC in RO. cbn [bind] in RO.
  rewrite prun_app, EP, EO in RO. cbn [bind] in RO.
  assert (RU : runs e a' f' c (xs ++ [x]) =
    (rs' <- prun (pk_h (pack e a')) (pk_gir (pack e a')) (e_impl e) f' s [x] ;; Ok (map (pk_out (pack e a')) (rs ++ rs')))).
  { unfold runs, program. rewrite EC. cbn [bind]. rewrite prun_app, EP, EO. cbn [bind]. destruct (prun _ _ _ _ s [x]); reflexivity. }
  destruct x as [p n| |k]; cbn [step1 prun ob_a ob_f ob_s] in *.
  - destruct (h_update (pk_h (pack e a')) s p n) as [s'| | | ] eqn:ES; cbn [bind] in *; try discriminate. do 2 eexists. split; [reflexivity|]. split; [|reflexivity].
    unfold at_history. cbn [ob_a ob_f ob_s hi_a hi_f hi_c hi_calls after]. split; [reflexivity|]. split; [reflexivity|]. exists s0, (rs ++ []).
    split; [exact EC|]. rewrite pobj_app, prun_app, EO, EP. cbn [bind pobj prun]. rewrite ES. split; reflexivity.
  - destruct (h_result (pk_h (pack e a')) s) as [[r s']| | | ] eqn:ES; cbn [bind] in *; try discriminate. do 2 eexists. split; [reflexivity|]. split.
    + unfold at_history. cbn [ob_a ob_f ob_s hi_a hi_f hi_c hi_calls after]. split; [reflexivity|]. split; [reflexivity|]. exists s0, (rs ++ [r]).
      split; [exact EC|]. rewrite pobj_app, prun_app, EO, EP. cbn [bind pobj prun]. rewrite ES. split; reflexivity.
    + do 2 eexists. split; [reflexivity|]. rewrite RU, map_app. reflexivity.
  - destruct (ha_call (pk_h (pack e a')) (pk_gir (pack e a')) (e_impl e) f' k s) as [s'| | | ] eqn:ES; cbn [bind] in *; try discriminate. do 2 eexists. split; [reflexivity|]. split; [|reflexivity].
    unfold at_history. cbn [ob_a ob_f ob_s hi_a hi_f hi_c hi_calls after]. split; [reflexivity|]. split; [reflexivity|]. exists s0, (rs ++ []).
    split; [exact EC|]. rewrite pobj_app, prun_app, EO, EP. cbn [bind pobj prun]. rewrite ES. split; reflexivity.
Qed.
Lemma mrun_returns : valid_env e -> forall xs hs st, agree hs st -> mvalid hs xs -> exists out, mrun st xs = Ok out /\ returns hs xs out.
Proof.
  intros HE. induction xs as [|x xs IH]; intros hs st HA HV; [exists []; split; reflexivity|]. destruct HV as [HV HX].
  destruct x as [i a f c|i j|i x].
  - cbn [mrun returns]. destruct HV as [HC HR].
    pose proof (runs_ok e a f c [] HE (conj HC (Forall_nil _)) HR) as RO. unfold runs, program in RO.
    destruct (construct (pk_h (pack e a)) c) as [s| | | ] eqn:EC; cbn [bind] in *; try discriminate. apply IH; [|exact HX].
    apply agree_put; [exact HA|]. unfold at_history. cbn. split; [reflexivity|]. split; [reflexivity|]. exists s, []. auto.
  - cbn [mrun returns]. pose proof (HA i) as Hi. cbn [next] in *. destruct (hs i) as [h|]; [|contradiction]. destruct (st i) as [o|]; [|contradiction].
    apply IH; [|exact HX]. now apply agree_put.
  - cbn [mrun]. pose proof (HA i) as Hi. destruct (hs i) as [h|] eqn:EH; [|contradiction]. destruct (st i) as [o|]; [|contradiction].
    destruct (step1_history h o x HE Hi HV) as (o' & r & E1 & HO & Hr). rewrite E1. cbn [bind].
    destruct (IH (next hs (MStep i x)) (put st i o')) as (out & E2 & HR); [|exact HX|].
    { cbn [next]. rewrite EH. now apply agree_put. }
    rewrite E2. cbn [bind]. exists (map (pair i) r ++ out). split; [reflexivity|]. destruct x as [p n| |k]; cbn [returns]; try (subst r; exact HR).
    destruct Hr as (r0 & rs & -> & ER). exists h, r0, rs, out. auto.
Qed.
End Many.

(* Every valid program with any number of objects, in whatever order their calls are made, runs to completion,
   and every result is the one its object would return if it were the only one. *)
Theorem C58_objects e xs : valid_env e -> mvalid e (fun _ => None) xs -> exists out, many e xs = Ok out /\ returns e (fun _ => None) xs out.
Proof. intros HE HV. apply mrun_returns; [exact HE|intros i; exact I|exact HV]. Qed.

(* ---------- schedules ---------- *)
(* the calls on object i, and its results *)
Fixpoint own (i : nat) (xs : list mstep) : list ustep :=
  match xs with
  | [] => []
  | MStep k x :: t => if Nat.eqb k i then x :: own i t else own i t
  | _ :: t => own i t
  end.
Definition mine (i : nat) (out : list (nat * result)) : list result := map snd (filter (fun r => Nat.eqb (fst r) i) out).
(* the program neither constructs i nor assigns to it *)
Definition kept (i : nat) (x : mstep) : Prop :=
  match x with MNew k _ _ _ => k <> i | MCopy _ k => k <> i | MStep _ _ => True end.
(* ... nor calls it *)
Definition unused (i : nat) (x : mstep) : Prop :=
  match x with MNew k _ _ _ => k <> i | MCopy _ k => k <> i | MStep k _ => k <> i end.
Lemma put_same {X} (st : nat -> option X) i o : put st i o i = Some o.
Proof. unfold put. now rewrite Nat.eqb_refl. Qed.
Lemma put_other {X} (st : nat -> option X) i k o : k <> i -> put st k o i = st i.
Proof. intros H. unfold put. destruct (Nat.eqb_spec i k); congruence. Qed.
Lemma mine_app i l1 l2 : mine i (l1 ++ l2) = mine i l1 ++ mine i l2.
Proof. unfold mine. now rewrite filter_app, map_app. Qed.
Lemma mine_pair i k r : mine i (map (pair k) r) = if Nat.eqb k i then r else [].
Proof. unfold mine. induction r as [|x r IH]; cbn [map filter fst]; [now destruct (Nat.eqb k i)|]. destruct (Nat.eqb k i); cbn [map snd]; [now rewrite IH|exact IH]. Qed.
Lemma own_results e i : forall xs st o out, mrun e st xs = Ok out -> st i = Some o -> Forall (kept i) xs ->
  exists rs, prun (pk_h (pack e (ob_a e o))) (pk_gir (pack e (ob_a e o))) (e_impl e) (ob_f e o) (ob_s e o) (own i xs) = Ok rs /\
    map (pk_out (pack e (ob_a e o))) rs = mine i out.
Proof.
  induction xs as [|x xs IH]; intros st o out HM HI HK.
  - injection HM as <-. exists []. split; reflexivity.
  - inversion HK as [|? ? HX HK']; subst. destruct x as [k a f c|k j|k x]; cbn [mrun own kept] in *.
    + destruct (construct (pk_h (pack e a)) c) as [s| | | ]; cbn [bind] in HM; try discriminate. apply (IH _ o out HM); [|exact HK']. now rewrite put_other.
    + destruct (st k) as [o'|]; [|discriminate]. apply (IH _ o out HM); [|exact HK']. now rewrite put_other.
    + destruct (st k) as [o1|] eqn:EK; [|discriminate]. destruct (step1 e o1 x) as [[o2 r]| | | ] eqn:ES; cbn [bind] in HM; try discriminate.
      destruct (mrun e (put st k o2) xs) as [out'| | | ] eqn:EM; cbn [bind] in HM; try discriminate. injection HM as <-. rewrite mine_app, mine_pair.
      destruct (Nat.eqb_spec k i) as [->|HN].
      * rewrite HI in EK. injection EK as <-. destruct (IH _ o2 out' EM (put_same _ _ _) HK') as (rs & ER & EO). clear IH EM HI.
        destruct o as [a f s]. destruct x as [p n| |c]; cbn [step1 prun ob_a ob_f ob_s] in *.
        -- destruct (h_update (pk_h (pack e a)) s p n) as [s'| | | ]; cbn [bind] in *; try discriminate. injection ES as <- <-. exists rs. auto.
        -- destruct (h_result (pk_h (pack e a)) s) as [[r0 s']| | | ]; cbn [bind] in *; try discriminate. injection ES as <- <-. cbn [ob_a ob_f ob_s] in *. rewrite ER. cbn [bind].
           exists (r0 :: rs). split; [reflexivity|]. cbn [map app]. now rewrite EO.
        -- destruct (ha_call (pk_h (pack e a)) (pk_gir (pack e a)) (e_impl e) f c s) as [s'| | | ]; cbn [bind] in *; try discriminate. injection ES as <- <-. exists rs. auto.
      * cbn [app]. apply (IH _ o out' EM); [|exact HK']. now rewrite put_other.
Qed.
Lemma unused_results e i : forall xs st out ys, mrun e st (xs ++ ys) = Ok out -> Forall (unused i) xs ->
  exists st' out1 out2, mrun e st' ys = Ok out2 /\ out = out1 ++ out2 /\ mine i out1 = [].
Proof.
  induction xs as [|x xs IH]; intros st out ys HM HK; [exists st, [], out; auto|].
  inversion HK as [|? ? HX HK']; subst. destruct x as [k a f c|k j|k x]; cbn [mrun app unused] in *.
  - destruct (construct (pk_h (pack e a)) c) as [s| | | ]; cbn [bind] in HM; try discriminate. now apply (IH _ out ys HM).
  - destruct (st k) as [o'|]; [|discriminate]. now apply (IH _ out ys HM).
  - destruct (st k) as [o1|]; [|discriminate]. destruct (step1 e o1 x) as [[o2 r]| | | ]; cbn [bind] in HM; try discriminate.
    destruct (mrun e (put st k o2) (xs ++ ys)) as [out'| | | ] eqn:EM; cbn [bind] in HM; try discriminate. injection HM as <-.
    destruct (IH _ out' ys EM HK') as (st' & o1' & o2' & E1 & -> & E2). exists st', (map (pair k) r ++ o1'), o2'. split; [exact E1|]. split; [apply app_assoc|].
    rewrite mine_app, mine_pair, E2. destruct (Nat.eqb_spec k i); [contradiction|reflexivity].
Qed.
(* In any interleaving with other objects (including copies made of it), the results of an object are those of
   its own calls alone: nothing else in the program, and no reordering of calls on different objects, matters. *)
Theorem C58_schedule e pre i a f c post : valid_env e -> mvalid e (fun _ => None) (pre ++ MNew i a f c :: post) ->
  Forall (unused i) pre -> Forall (kept i) post ->
  exists out, many e (pre ++ MNew i a f c :: post) = Ok out /\ runs e a f c (own i post) = Ok (mine i out).
Proof.
  intros HE HV HP HK. destruct (C58_objects e _ HE HV) as (out & EM & _). exists out. split; [exact EM|].
  destruct (unused_results e i pre _ out _ EM HP) as (st' & o1 & o2 & E2 & -> & E3). rewrite mine_app, E3. cbn [app mrun] in *.
  unfold runs, program. destruct (construct (pk_h (pack e a)) c) as [s| | | ]; cbn [bind] in *; try discriminate.
  destruct (own_results e i post _ _ o2 E2 (put_same _ _ _) HK) as (rs & ER & EO). cbn [ob_a ob_f ob_s] in *. rewrite ER. cbn [bind]. now rewrite EO.
Qed.
Lemma own_state e i j : forall xs st o out ys, mrun e st (xs ++ ys) = Ok out -> st i = Some o -> Forall (kept i) xs -> Forall (unused j) xs ->
  exists st' s' out1 out2 rs, mrun e st' ys = Ok out2 /\ out = out1 ++ out2 /\ mine j out1 = [] /\
    st' i = Some {| ob_a := ob_a e o; ob_f := ob_f e o; ob_s := s' |} /\
    pobj (pk_h (pack e (ob_a e o))) (pk_gir (pack e (ob_a e o))) (e_impl e) (ob_f e o) (ob_s e o) (own i xs) = Ok s' /\
    prun (pk_h (pack e (ob_a e o))) (pk_gir (pack e (ob_a e o))) (e_impl e) (ob_f e o) (ob_s e o) (own i xs) = Ok rs.
Proof.
  induction xs as [|x xs IH]; intros st o out ys HM HI HK HU.
  - exists st, (ob_s e o), [], out, []. repeat split; [exact HM|]. rewrite HI. now destruct o.
  - inversion HK as [|? ? HX HK']; subst. inversion HU as [|? ? HY HU']; subst. destruct x as [k a f c|k l|k x]; cbn [mrun app own kept unused] in *.
    + destruct (construct (pk_h (pack e a)) c) as [s| | | ]; cbn [bind] in HM; try discriminate. apply (IH _ o out ys HM); [|exact HK'|exact HU']. now rewrite put_other.
    + destruct (st k) as [o'|]; [|discriminate]. apply (IH _ o out ys HM); [|exact HK'|exact HU']. now rewrite put_other.
    + destruct (st k) as [o1|] eqn:EK; [|discriminate]. destruct (step1 e o1 x) as [[o2 r]| | | ] eqn:ES; cbn [bind] in HM; try discriminate.
      destruct (mrun e (put st k o2) (xs ++ ys)) as [out'| | | ] eqn:EM; cbn [bind] in HM; try discriminate. injection HM as <-.
      assert (EJ : forall l, mine j l = [] -> mine j (map (pair k) r ++ l) = []).
      { intros l Hl. rewrite mine_app, mine_pair, Hl. destruct (Nat.eqb_spec k j); [contradiction|reflexivity]. }
      destruct (Nat.eqb_spec k i) as [->|HN].
      * rewrite HI in EK. injection EK as <-. destruct (IH _ o2 out' ys EM (put_same _ _ _) HK' HU') as (st' & s' & out1 & out2 & rs & E1 & -> & E2 & E3 & E4 & E5). clear IH EM HI.
        destruct o as [a f s]. destruct x as [p n| |c]; cbn [step1 prun pobj ob_a ob_f ob_s] in *.
        -- destruct (h_update (pk_h (pack e a)) s p n) as [s1| | | ]; cbn [bind] in *; try discriminate. injection ES as <- <-. cbn [ob_a ob_f ob_s] in *. exists st', s', (map (pair i) [] ++ out1), out2, rs. auto 8 using app_assoc.
        -- destruct (h_result (pk_h (pack e a)) s) as [[r0 s1]| | | ]; cbn [bind] in *; try discriminate. injection ES as <- <-. cbn [ob_a ob_f ob_s] in *. rewrite E5. cbn [bind].
           exists st', s', (map (pair i) [pk_out (pack e a) r0] ++ out1), out2, (r0 :: rs). auto 8 using app_assoc.
        -- destruct (ha_call (pk_h (pack e a)) (pk_gir (pack e a)) (e_impl e) f c s) as [s1| | | ]; cbn [bind] in *; try discriminate. injection ES as <- <-. cbn [ob_a ob_f ob_s] in *. exists st', s', (map (pair i) [] ++ out1), out2, rs. auto 8 using app_assoc.
      * destruct (IH _ o out' ys EM) as (st' & s' & out1 & out2 & rs & E1 & -> & E2 & E3 & E4 & E5); [|exact HK'|exact HU'|].
        { now rewrite put_other. }
        exists st', s', (map (pair k) r ++ out1), out2, rs. auto 8 using app_assoc.
Qed.
(* A copy continues like its original: in any program, the results of object j, made by copying i, are those
   which its own calls have after the calls made on i before the copy; the later calls on i do not matter. *)
Theorem C58_copy e pre0 i a f c pre j post : valid_env e ->
  mvalid e (fun _ => None) (pre0 ++ MNew i a f c :: pre ++ MCopy i j :: post) ->
  i <> j -> Forall (unused i) pre0 -> Forall (unused j) pre0 -> Forall (kept i) pre -> Forall (unused j) pre -> Forall (kept j) post ->
  exists out rs, many e (pre0 ++ MNew i a f c :: pre ++ MCopy i j :: post) = Ok out /\
    runs e a f c (own i pre) = Ok rs /\ runs e a f c (own i pre ++ own j post) = Ok (rs ++ mine j out).
Proof.
  intros HE HV HN HP0 HJ0 HP HJ HK. destruct (C58_objects e _ HE HV) as (out & EM & _).
  destruct (unused_results e j pre0 _ out _ EM HJ0) as (st' & o1 & o2 & E2 & -> & E3). cbn [app mrun] in E2.
  destruct (construct (pk_h (pack e a)) c) as [s| | | ] eqn:EC; cbn [bind] in *; try discriminate.
  destruct (own_state e i j pre _ _ o2 _ E2 (put_same _ _ _) HP HJ) as (st2 & s' & p1 & p2 & rs & E4 & -> & E5 & E6 & E7 & E8).
  cbn [ob_a ob_f ob_s] in *. cbn [mrun] in E4. rewrite E6 in E4.
  destruct (own_results e j post _ _ p2 E4 (put_same _ _ _) HK) as (rs' & E9 & E10). cbn [ob_a ob_f ob_s] in *.
  exists (o1 ++ p1 ++ p2), (map (pk_out (pack e a)) rs). split; [exact EM|]. unfold runs, program. rewrite EC. cbn [bind]. rewrite E8. cbn [bind]. split; [reflexivity|].
  rewrite prun_app, E8, E7. cbn [bind]. rewrite E9. cbn [bind]. rewrite !mine_app, E3, E5, <- E10, map_app. reflexivity.
Qed.

(* Two objects of any algorithms and a copy, with interleaved calls: *)
Definition many_sample (a b : alg) : list mstep :=
  [MNew 1 b le_flavor CDefault; MNew 0 a le_flavor (CSeed 7); MStep 0 (SUpdate (Ptr [97; 98; 99]) 2); MStep 1 sample_tuple;
   MCopy 0 2; MStep 0 SResult; MStep 2 (SUpdate (Ptr [100]) 1); MStep 1 SResult; MStep 2 SResult; MStep 0 SResult].
Lemma many_sample_valid a b : mvalid env_pc (fun _ => None) (many_sample a b).
Proof.
  assert (V : forall d c xs, valid_ctor c -> steps_ok xs -> valid_program env_pc d c xs) by (intros; now apply steps_valid).
  assert (W : forall i d c xs, valid_ctor c -> steps_ok xs -> room env_pc d c xs -> valid_history env_pc {| hi_a := d; hi_f := i; hi_c := c; hi_calls := xs |}).
  { intros i d c xs H1 H2 H3. split; [now apply V|exact H3]. }
  cbv beta iota zeta delta [many_sample mvalid next put Nat.eqb after hi_a hi_f hi_c hi_calls app].
  repeat match goal with
         | |- _ /\ _ => split
         | |- True => exact I
         | |- Some _ <> None => discriminate
         | |- valid_ctor CDefault => exact I
         | |- valid_ctor (CSeed _) => reflexivity
         | |- valid_history _ _ => apply W
         | |- steps_ok _ => unfold steps_ok; ok
         | |- room _ ?d _ _ => destruct d; try exact I; vm_compute; reflexivity
         end.
Qed.
Example C58_objects_ex a b : exists r1 r2 r3 r4, many env_pc (many_sample a b) = Ok [(0%nat, r1); (1%nat, r2); (2%nat, r3); (0%nat, r4)] /\
  runs env_pc a le_flavor (CSeed 7) [SUpdate (Ptr [97; 98; 99]) 2; SResult; SResult] = Ok [r1; r4] /\
  runs env_pc b le_flavor CDefault [sample_tuple; SResult] = Ok [r2] /\
  runs env_pc a le_flavor (CSeed 7) [SUpdate (Ptr [97; 98; 99]) 2; SUpdate (Ptr [100]) 1; SResult] = Ok [r3].
Proof.
  destruct (C58_objects env_pc (many_sample a b) env_pc_valid (many_sample_valid a b)) as (out & EM & HR).
  cbn [many_sample returns next put Nat.eqb after hi_a hi_f hi_c hi_calls app] in HR.
  destruct HR as (h1 & r1 & q1 & o1 & E1 & R1 & -> & h2 & r2 & q2 & o2 & E2 & R2 & -> & h3 & r3 & q3 & o3 & E3 & R3 & -> & h4 & r4 & q4 & o4 & E4 & R4 & -> & ->).
  exists r1, r2, r3, r4. split; [exact EM|]. clear E1 E2 E3 E4 R1 R2 R3 R4.
  destruct (C58_schedule env_pc [MNew 1 b le_flavor CDefault] 0 a le_flavor (CSeed 7)
     [MStep 0 (SUpdate (Ptr [97; 98; 99]) 2); MStep 1 sample_tuple; MCopy 0 2; MStep 0 SResult; MStep 2 (SUpdate (Ptr [100]) 1);
      MStep 1 SResult; MStep 2 SResult; MStep 0 SResult] env_pc_valid (many_sample_valid a b)) as (out & EM' & R1).
  { repeat constructor; discriminate. } { repeat constructor; discriminate. }
  change (many env_pc (many_sample a b) = Ok out) in EM'. rewrite EM in EM'. injection EM' as <-. split; [exact R1|].
  destruct (C58_schedule env_pc [] 1 b le_flavor CDefault
     [MNew 0 a le_flavor (CSeed 7); MStep 0 (SUpdate (Ptr [97; 98; 99]) 2); MStep 1 sample_tuple; MCopy 0 2; MStep 0 SResult; MStep 2 (SUpdate (Ptr [100]) 1);
      MStep 1 SResult; MStep 2 SResult; MStep 0 SResult] env_pc_valid (many_sample_valid a b)) as (out & EM' & R2).
  { constructor. } { repeat constructor; discriminate. }
  change (many env_pc (many_sample a b) = Ok out) in EM'. rewrite EM in EM'. injection EM' as <-. split; [exact R2|].
  destruct (C58_copy env_pc [MNew 1 b le_flavor CDefault] 0 a le_flavor (CSeed 7)
     [MStep 0 (SUpdate (Ptr [97; 98; 99]) 2); MStep 1 sample_tuple] 2 [MStep 0 SResult; MStep 2 (SUpdate (Ptr [100]) 1);
      MStep 1 SResult; MStep 2 SResult; MStep 0 SResult] env_pc_valid (many_sample_valid a b)) as (out & rs & EM' & R3 & R4); try (repeat constructor; discriminate).
  change (many env_pc (many_sample a b) = Ok out) in EM'. rewrite EM in EM'. injection EM' as <-.
  cbn [own app Nat.eqb] in R3, R4. destruct rs as [|r0 rs]; [exact R4|].
  destruct (C18_no_failure env_pc a le_flavor (CSeed 7) [SUpdate (Ptr [97; 98; 99]) 2] env_pc_valid) as (rs' & E & L).
  { apply steps_valid; [reflexivity|reflexivity|unfold steps_ok; ok]. } { destruct a; try exact I; vm_compute; reflexivity. }
  rewrite R3 in E. injection E as <-. discriminate L.
Qed.

(* Library-independent interface: a hash algorithm whose observable behaviour is that of an
   abstract one.  Used to state properties of hash_append and of call histories once, for
   every hash algorithm of the library (Instances.v). *)
From Verif Require Import Base BaseFacts Hasher Types ModelResult ModelAppend SpecAppend ProofMsg ProofAppend.
Open Scope N_scope.

(* [A]: abstract states, [au]: feed bytes, [ar]: result, [start]: state after a constructor;
   [out]: the result type made platform independent; [cfits c L]: after constructor c there is
   room for L more bytes, a result() counting as 192 (always true except for spooky2). *)
Definition behaves (h : hasher) (nul : bool) {A R : Type} (au : A -> list N -> A) (ar : A -> R * A)
    (start : ctor -> A) (out : h_R h -> R) (cfits : ctor -> nat -> Prop) : Prop :=
  exists (Rel : A -> h_S h -> Prop) (ar' : A -> h_R h * A) (ok : A -> Prop) (fits : A -> nat -> Prop),
    refines h nul A au ar' ok Rel /\ fits_laws au ar' ok fits /\
    (forall a, out (fst (ar' a)) = fst (ar a) /\ snd (ar' a) = snd (ar a)) /\
    (forall c L, valid_ctor c -> cfits c L -> exists s, construct h c = Ok s /\ Rel (start c) s /\ fits (start c) L).
Definition anyfit : ctor -> nat -> Prop := fun _ _ => True.

(* A user program: updates, results and calls of the hash_append functions in any order. *)
Inductive ustep := SUpdate (p : ptr) (n : nat) | SResult | SCall (k : call).
Notation SAppend t v := (SCall (KVal t v)).
(* Valid calls: update( p, n ) with n readable bytes at p, hash_append with values of the given
   types.  An empty contiguous range whose data() is a null pointer is only valid with an algorithm
   that admits update( nullptr, 0 ). *)
Definition valid_step (nul : bool) (i : impl) (x : ustep) : Prop :=
  match x with
  | SUpdate p n => valid_arg nul p n
  | SResult => True
  | SCall k => call_ok (im_psz i) k /\ (im_null i = true -> nul = true \/ call_null_free k)
  end.

(* an upper bound on what a program feeds the hasher *)
Definition step_weight (x : ustep) : nat :=
  match x with SUpdate _ n => n | SResult => 192 | SCall k => call_blen k end.
Definition weight (xs : list ustep) : nat := lsum (map step_weight xs).

Section Run.
Variable h : hasher.
Variable gir : h_R h -> res N.
Variable i : impl.
Variable f : flavor.
Fixpoint prun (s : h_S h) (xs : list ustep) : res (list (h_R h)) :=
  match xs with
  | [] => Ok []
  | SUpdate p n :: t => s <- h_update h s p n ;; prun s t
  | SResult :: t => '(r, s) <- h_result h s ;; rs <- prun s t ;; Ok (r :: rs)
  | SCall k :: t => s <- ha_call h gir i f k s ;; prun s t
  end.
Definition program (c : ctor) (xs : list ustep) : res (list (h_R h)) :=
  s <- construct h c ;; prun s xs.
End Run.

(* The message of hash_append under flavor [f] on implementation [i] *)
Definition message (i : impl) (f : flavor) : ty -> val -> (list N -> N) -> list N :=
  msg (order_le (fl_order f)) (fl_size f) (im_psz i) (fadd0 i 8 23) (fadd0 i 11 52).
(* what a call feeds; [call_message i f (KVal t v) q] is [message i f t v q] *)
Definition call_message (i : impl) (f : flavor) : call -> (list N -> N) -> list N :=
  call_msg (order_le (fl_order f)) (fl_size f) (im_psz i) (fadd0 i 8 23) (fadd0 i 11 52).

Section Abs.
Context {A R : Type}.
Variables (au : A -> list N -> A) (ar : A -> R * A) (g : R -> N).
Variable M : call -> (list N -> N) -> list N.
Definition aq (a : A) : list N -> N := fun m => g (fst (ar (au a m))).
Fixpoint aprun (a : A) (xs : list ustep) : list R :=
  match xs with
  | [] => []
  | SUpdate p n :: t => aprun (au a (data p n)) t
  | SResult :: t => fst (ar a) :: aprun (snd (ar a)) t
  | SCall k :: t => aprun (au a (M k (aq a))) t
  end.
End Abs.

Section Thm.
Variable h : hasher.
Variable nul : bool.
Variables A R : Type.
Variables (au : A -> list N -> A) (ar : A -> R * A) (start : ctor -> A) (out : h_R h -> R).
Variable cfits : ctor -> nat -> Prop.
Hypothesis HB : behaves h nul au ar start out cfits.
Variable gir : h_R h -> res N.
Variable g : R -> N.
Hypothesis Hg : forall a r, out r = fst (ar a) -> gir r = Ok (g (out r)).
Variable i : impl.
Variable f : flavor.

(* every program runs to completion, and its results are those of the abstract algorithm fed
   the messages *)
Theorem program_ok c xs : valid_ctor c -> Forall (valid_step nul i) xs -> cfits c (weight xs) ->
  exists rs, program h gir i f c xs = Ok rs /\ map out rs = aprun au ar g (call_message i f) (start c) xs.
Proof.
  intros HC HX HF. destruct HB as (Rel & ar' & ok & fits & RF & FL & HO & HS).
  destruct (HS c _ HC HF) as (s0 & E0 & R0 & F0). unfold program. rewrite E0. cbn [bind]. clear E0 HF.
  assert (Hg' : forall a, gir (fst (ar' a)) = Ok (g (out (fst (ar' a))))).
  { intros a. apply (Hg a). apply HO. }
  revert s0 R0 F0. generalize (start c). induction HX as [|x xs Hx HX IH]; intros a s0 R0 F0.
  - exists []. split; reflexivity.
  - unfold weight in F0. cbn [map lsum fold_right] in F0. change (fold_right Nat.add 0%nat (map step_weight xs)) with (weight xs) in F0.
    assert (OK : ok a) by (exact (fl_ok _ _ _ _ FL _ _ F0)).
    destruct x as [p n| |k]; cbn [prun aprun step_weight] in *.
    + assert (F1 : fits (au a (data p n)) (weight xs)).
      { apply (fl_au _ _ _ _ FL). now rewrite (proj2 (valid_data _ _ _ Hx)). }
      destruct (rf_update _ _ _ _ _ _ _ RF a s0 p n R0 OK Hx (fl_ok _ _ _ _ FL _ _ F1)) as (s1 & E1 & R1). rewrite E1. cbn [bind]. now apply IH.
    + assert (F1 : fits (snd (ar' a)) (weight xs)) by (now apply (fl_ar _ _ _ _ FL)).
      destruct (rf_result _ _ _ _ _ _ _ RF a s0 R0 OK (fl_ok _ _ _ _ FL _ _ F1)) as (s1 & E1 & R1). rewrite E1. cbn [bind].
      destruct (HO a) as [O1 O2]. rewrite O2 in R1, F1. destruct (IH _ _ R1 F1) as (rs & E2 & M2). rewrite E2. cbn [bind].
      eexists. split; [reflexivity|]. cbn [map]. now rewrite O1, M2.
    + assert (FM : fits a (call_blen k)) by (apply (fl_mono _ _ _ _ FL _ _ _ F0); lia).
      destruct (call_feeds h nul A au ar' ok Rel RF fits FL gir (fun r => g (out r)) Hg' i f k a s0 (proj2 Hx) R0 (proj1 Hx) FM) as (s1 & E1 & R1).
      rewrite E1. cbn [bind].
      destruct (IH _ _ R1) as (rs & E2 & M2).
      { apply (fl_au _ _ _ _ FL). apply (fl_mono _ _ _ _ FL _ _ _ F0). apply Nat.add_le_mono_r. apply call_blen_ok. }
      exists rs. split; [exact E2|].
      rewrite M2. f_equal. f_equal. apply call_msg_ext. intros m. unfold qa, aq. destruct (HO (au a m)) as [O1 _]. now rewrite O1.
Qed.
End Thm.

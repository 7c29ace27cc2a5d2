(* A hash algorithm as the library's users see it: constructors, update(), result(); call
   histories; refinement to an abstract algorithm. *)
From Verif Require Import Base BaseFacts.
Open Scope N_scope.

(* the interface documented in doc/hash2/hashing_bytes.adoc; e.g. md5.hpp:198-313 *)
Record hasher := {
  h_S : Type;                                        (* the object *)
  h_R : Type;                                        (* result_type *)
  h_init : h_S;                                      (* H() *)
  h_seed : N -> res h_S;                             (* H( uint64_t ) *)
  h_bytes : ptr -> nat -> res h_S;                   (* H( unsigned char const*, size_t ) *)
  h_update : h_S -> ptr -> nat -> res h_S;           (* update( p, n ) *)
  h_result : h_S -> res (h_R * h_S) }.               (* result() *)

(* the constructors, e.g. md5.hpp:204-225 *)
Inductive ctor := CDefault | CSeed (seed : N) | CBytes (p : ptr) (n : nat).
(* the member functions, e.g. md5.hpp:227-313 *)
Inductive op := OUpdate (p : ptr) (n : nat) | OResult.

(* the constructors, e.g. md5.hpp:204-225 *)
Definition construct (h : hasher) (c : ctor) : res (h_S h) :=
  match c with
  | CDefault => Ok (h_init h)
  | CSeed n => h_seed h n
  | CBytes p n => h_bytes h p n
  end.

(* the results returned by a history of calls, and the final object *)
Fixpoint run (h : hasher) (s : h_S h) (ops : list op) : res (list (h_R h) * h_S h) :=
  match ops with
  | [] => Ok ([], s)
  | OUpdate p n :: t => s <- h_update h s p n ;; run h s t
  | OResult :: t => '(r, s) <- h_result h s ;; '(rs, s) <- run h s t ;; Ok (r :: rs, s)
  end.
Definition session (h : hasher) (c : ctor) (ops : list op) : res (list (h_R h)) :=
  s <- construct h c ;; '(rs, _) <- run h s ops ;; Ok rs.

(* results and final object of a whole history, constructor included *)
Definition exec (h : hasher) (c : ctor) (ops : list op) : res (list (h_R h) * h_S h) :=
  s <- construct h c ;; run h s ops.

(* What a caller must guarantee for update( p, n ): n readable bytes at p.  [nul]: whether
   a null pointer (with n = 0) is admitted. *)
Definition valid_arg (nul : bool) (p : ptr) (n : nat) : Prop :=
  match p with
  | Null => nul = true /\ n = 0%nat
  | Ptr l => (n <= length l)%nat /\ bytes l
  end.
Definition data (p : ptr) (n : nat) : list N :=
  match p with Null => [] | Ptr l => firstn n l end.
Definition valid_op (nul : bool) (o : op) : Prop :=
  match o with OUpdate p n => valid_arg nul p n | OResult => True end.
Definition valid_ctor (c : ctor) : Prop :=
  match c with
  | CDefault => True
  | CSeed n => n < 2^64
  | CBytes p n => valid_arg true p n
  end.

(* The byte strings fed between consecutive results: all a history says besides how the bytes
   were cut into update() calls. *)
Fixpoint segments (acc : list N) (ops : list op) : list (list N) :=
  match ops with
  | [] => [acc]
  | OUpdate p n :: t => segments (acc ++ data p n) t
  | OResult :: t => acc :: segments [] t
  end.

Lemma valid_data nul p n : valid_arg nul p n -> bytes (data p n) /\ length (data p n) = n.
Proof.
  destruct p as [|l]; cbn; intros H.
  - destruct H as [_ ->]. split; [constructor|easy].
  - destruct H. split; [now apply bytes_firstn|]. now apply firstn_length_le.
Qed.

(* ------------------------------------------------------------------ *)
(* Refinement to an abstract algorithm (A, au, ar): au feeds bytes, ar yields a result.
   [ok] restricts abstract states (True unless stated otherwise). *)
Record refines (h : hasher) (nul : bool) (A : Type) (au : A -> list N -> A) (ar : A -> h_R h * A)
    (ok : A -> Prop) (Rel : A -> h_S h -> Prop) : Prop := {
  rf_update : forall a s p n, Rel a s -> ok a -> valid_arg nul p n -> ok (au a (data p n)) ->
      exists s', h_update h s p n = Ok s' /\ Rel (au a (data p n)) s';
  rf_result : forall a s, Rel a s -> ok a -> ok (snd (ar a)) ->
      exists s', h_result h s = Ok (fst (ar a), s') /\ Rel (snd (ar a)) s';
  rf_nil : forall a, au a [] = a;
  rf_app : forall a d1 d2, au (au a d1) d2 = au a (d1 ++ d2) }.

Section Abs.
Context {A R : Type}.
Variables (au : A -> list N -> A) (ar : A -> R * A).

(* the abstract run *)
Fixpoint arun (a : A) (ops : list op) : list R * A :=
  match ops with
  | [] => ([], a)
  | OUpdate p n :: t => arun (au a (data p n)) t
  | OResult :: t => let '(r, a') := ar a in let '(rs, a'') := arun a' t in (r :: rs, a'')
  end.
(* all intermediate abstract states satisfy [ok] *)
Fixpoint aok (ok : A -> Prop) (a : A) (ops : list op) : Prop :=
  ok a /\
  match ops with
  | [] => True
  | OUpdate p n :: t => aok ok (au a (data p n)) t
  | OResult :: t => aok ok (snd (ar a)) t
  end.
(* the abstract run as a function of the segments *)
Fixpoint aseg (a : A) (segs : list (list N)) : list R :=
  match segs with
  | [] => []
  | [_] => []
  | d :: t => let '(r, a') := ar (au a d) in r :: aseg a' t
  end.

(* the final abstract state as a function of the segments *)
Fixpoint afinal (a : A) (segs : list (list N)) : A :=
  match segs with
  | [] => a
  | [d] => au a d
  | d :: t => afinal (snd (ar (au a d))) t
  end.

Hypothesis Hnil : forall a, au a [] = a.
Hypothesis Happ : forall a d1 d2, au (au a d1) d2 = au a (d1 ++ d2).

Lemma segments_nonempty acc ops : segments acc ops <> [].
Proof. revert acc; induction ops as [|[p n|] t IH]; intros acc; cbn; try easy. Qed.

Lemma arun_segments ops : forall a acc,
  fst (arun (au a acc) ops) = aseg a (segments acc ops).
Proof.
  induction ops as [|[p n|] t IH]; intros a acc.
  - reflexivity.
  - cbn [arun segments]. rewrite Happ. apply IH.
  - cbn [arun segments]. pose proof (segments_nonempty [] t) as Hne.
    destruct (segments [] t) as [|d ds] eqn:E; [easy|].
    change (fst (let '(r, a') := ar (au a acc) in let '(rs, a'') := arun a' t in (r :: rs, a''))
            = (let '(r, a') := ar (au a acc) in r :: aseg a' (d :: ds))).
    destruct (ar (au a acc)) as [r a'].
    specialize (IH a' []). rewrite Hnil, E in IH. rewrite <- IH.
    destruct (arun a' t). reflexivity.
Qed.

Lemma arun_final_acc ops : forall a acc,
  snd (arun (au a acc) ops) = afinal a (segments acc ops).
Proof.
  induction ops as [|[p n|] t IH]; intros a acc.
  - reflexivity.
  - cbn [arun segments]. rewrite Happ. apply IH.
  - cbn [arun segments]. pose proof (segments_nonempty [] t) as Hne.
    destruct (segments [] t) as [|d ds] eqn:E; [easy|].
    change (snd (let '(r, a') := ar (au a acc) in let '(rs, a'') := arun a' t in (r :: rs, a''))
            = afinal (snd (ar (au a acc))) (d :: ds)).
    destruct (ar (au a acc)) as [r a'].
    specialize (IH a' []). rewrite Hnil, E in IH. cbn [snd]. rewrite <- IH.
    destruct (arun a' t). reflexivity.
Qed.
Lemma arun_final a ops : snd (arun a ops) = afinal a (segments [] ops).
Proof. rewrite <- (Hnil a) at 1. apply arun_final_acc. Qed.
End Abs.

Lemma run_refines h nul A au ar ok Rel (RF : refines h nul A au ar ok Rel) :
  forall ops a s, Rel a s -> Forall (valid_op nul) ops -> aok au ar ok a ops ->
  exists s', run h s ops = Ok (fst (arun au ar a ops), s') /\ Rel (snd (arun au ar a ops)) s'.
Proof.
  destruct RF as [Hu Hr Hn Ha].
  induction ops as [|[p n|] t IH]; intros a s HR HV HO.
  - exists s. split; [reflexivity|exact HR].
  - inversion HV as [|? ? V1 V2]; subst. cbn [aok] in HO. destruct HO as [O1 O2].
    assert (O3 : ok (au a (data p n))) by (destruct t as [|[]]; apply O2).
    destruct (Hu a s p n HR O1 V1 O3) as (s1 & E1 & R1).
    destruct (IH _ _ R1 V2 O2) as (s2 & E2 & R2).
    exists s2. cbn [run arun]. rewrite E1. cbn [bind]. split; assumption.
  - inversion HV as [|? ? V1 V2]; subst. cbn [aok] in HO. destruct HO as [O1 O2].
    assert (O3 : ok (snd (ar a))) by (destruct t as [|[]]; apply O2).
    destruct (Hr a s HR O1 O3) as (s1 & E1 & R1).
    destruct (IH _ _ R1 V2 O2) as (s2 & E2 & R2).
    exists s2. cbn [run arun]. rewrite E1. cbn [bind].
    destruct (ar a) as [r a'] eqn:Ea. cbn [fst snd] in *.
    rewrite E2. cbn [bind]. destruct (arun au ar a' t) as [rs a'']. cbn [fst snd] in *.
    split; [reflexivity|assumption].
Qed.

Lemma aok_true {A R} (au : A -> list N -> A) (ar : A -> R * A) a ops :
  aok au ar (fun _ => True) a ops.
Proof. revert a; induction ops as [|[p n|] t IH]; intros a; cbn [aok]; auto. Qed.

Lemma session_exec h c ops : session h c ops = ('(rs, _) <- exec h c ops ;; Ok rs).
Proof. unfold session, exec. destruct (construct h c); reflexivity. Qed.
Lemma session_ok h c ops rs s : exec h c ops = Ok (rs, s) -> session h c ops = Ok rs.
Proof. rewrite session_exec. now intros ->. Qed.

(* ------------------------------------------------------------------ *)
(* The virtual message of a Merkle-Damgard class: the bytes fed, with every result()
   contributing the padding it processed.  [pad l] is l followed by its padding, [H] the
   hash function. *)
Section Virtual.
Context {R : Type}.
Variables (pad : list N -> list N) (H : list N -> R).
Definition vstart (c : ctor) : list N :=
  match c with
  | CDefault => []
  | CSeed n => if n =? 0 then [] else pad (le_bytes 8 n)
  | CBytes p n => if Nat.eqb n 0 then [] else pad (data p n)
  end.
Fixpoint vresults (m : list N) (segs : list (list N)) : list R :=
  match segs with
  | [] => []
  | [_] => []
  | d :: t => H (m ++ d) :: vresults (pad (m ++ d)) t
  end.
Fixpoint vfinal (m : list N) (segs : list (list N)) : list N :=
  match segs with
  | [] => m
  | [d] => m ++ d
  | d :: t => vfinal (pad (m ++ d)) t
  end.
End Virtual.

Lemma vresults_ext {R} pad pad' (H H' : list N -> R) : (forall l, pad l = pad' l) -> (forall l, H l = H' l) ->
  forall segs m, vresults pad H m segs = vresults pad' H' m segs.
Proof.
  intros E1 E2. induction segs as [|d t IH]; intros m; [reflexivity|].
  destruct t as [|d2 t]; [reflexivity|].
  change (H (m ++ d) :: vresults pad H (pad (m ++ d)) (d2 :: t)
        = H' (m ++ d) :: vresults pad' H' (pad' (m ++ d)) (d2 :: t)).
  rewrite IH, E1, E2. reflexivity.
Qed.
Lemma vfinal_ext pad pad' : (forall l, pad l = pad' l) ->
  forall segs m, vfinal pad m segs = vfinal pad' m segs.
Proof.
  intros E1. induction segs as [|d t IH]; intros m; [reflexivity|].
  destruct t as [|d2 t]; [reflexivity|].
  change (vfinal pad (pad (m ++ d)) (d2 :: t) = vfinal pad' (pad' (m ++ d)) (d2 :: t)).
  rewrite IH, E1. reflexivity.
Qed.
Lemma vstart_ext pad pad' : (forall l, pad l = pad' l) -> forall c, vstart pad c = vstart pad' c.
Proof. intros E [|n|p n]; cbn; rewrite ?E; reflexivity. Qed.

(* What is proved of every Merkle-Damgard class: [pad] and [H] are the padding and the hash
   function of the standard, [B] the block size. *)
Record md_ok (St R : Type) (B : nat) (nul : bool) (pad : list N -> list N) (H : list N -> R)
    (init : bst St) (seedf : N -> res (bst St)) (bytesf : ptr -> nat -> res (bst St))
    (updf : bst St -> ptr -> nat -> res (bst St)) (resf : bst St -> res (R * bst St)) : Prop := {
  mo_exec : forall c ops, valid_ctor c -> Forall (valid_op nul) ops ->
    exists s,
      exec (Build_hasher (bst St) R init seedf bytesf updf resf) c ops
      = Ok (vresults pad H (vstart pad c) (segments [] ops), s) /\
      let m := vfinal pad (vstart pad c) (segments [] ops) in
      b_m s = (length m mod B)%nat /\
      b_n s = N.of_nat (length m) mod 2^64 /\
      b_buf s = skipn (B * (length m / B)) m ++ zeros (B - length m mod B);
  mo_eq : forall c1 c2 ops1 ops2, valid_ctor c1 -> valid_ctor c2 ->
    Forall (valid_op nul) ops1 -> Forall (valid_op nul) ops2 ->
    vstart pad c1 = vstart pad c2 -> segments [] ops1 = segments [] ops2 ->
    exec (Build_hasher (bst St) R init seedf bytesf updf resf) c1 ops1
    = exec (Build_hasher (bst St) R init seedf bytesf updf resf) c2 ops2;
  mo_pad : forall l, (length (pad l) mod B = 0)%nat /\ firstn (length l) (pad l) = l;
  mo_refines : exists Rel : list N -> bst St -> Prop,
    Rel [] init /\
    refines (Build_hasher (bst St) R init seedf bytesf updf resf) nul (list N)
      (fun l d => l ++ d) (fun l => (H l, pad l)) (fun _ => True) Rel /\
    (forall l s1 s2, Rel l s1 -> Rel l s2 -> s1 = s2) /\
    (forall l s, Rel l s -> b_m s = (length l mod B)%nat /\ b_n s = N.of_nat (length l) mod 2^64 /\
       b_buf s = skipn (B * (length l / B)) l ++ zeros (B - length l mod B)) /\
    (forall c, valid_ctor c -> exists s,
       construct (Build_hasher (bst St) R init seedf bytesf updf resf) c = Ok s /\ Rel (vstart pad c) s) }.

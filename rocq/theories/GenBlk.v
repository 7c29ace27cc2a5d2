(* Generic theory of the block-buffered classes whose result() is not Merkle-Damgard padding:
   the abstract state is (chaining value, count, bytes since the last aligned point). *)
From Verif Require Import Base BaseFacts SpecCommon Gen Hasher.
Open Scope N_scope.

Definition ast (St : Type) : Type := (St * N * list N)%type.
Definition ab_au {St} (a : ast St) (d : list N) : ast St :=
  let '(st, c, l) := a in (st, c, l ++ d).

Theorem refines_exec h nul A au ar ok Rel (RF : refines h nul A au ar ok Rel) c a0 ops :
  (exists s, construct h c = Ok s /\ Rel a0 s) -> Forall (valid_op nul) ops -> aok au ar ok a0 ops ->
  exists s, exec h c ops = Ok (aseg au ar a0 (segments [] ops), s) /\ Rel (snd (arun au ar a0 ops)) s.
Proof.
  intros (s0 & E & R0) HV HO. unfold exec. rewrite E. cbn [bind].
  destruct (run_refines _ _ _ _ _ _ _ RF ops a0 s0 R0 HV HO) as (s' & E' & R').
  exists s'. rewrite E'. split; [|exact R'].
  pose proof (arun_segments au ar (rf_nil _ _ _ _ _ _ _ RF) (rf_app _ _ _ _ _ _ _ RF) ops a0 []) as AS.
  rewrite (rf_nil _ _ _ _ _ _ _ RF) in AS. rewrite AS. reflexivity.
Qed.

Section Rel.
Variable St : Type.
Variable B : nat.
Variable wipe : bool.
Variable cw : N.
Variable compress : St -> list N -> St.
Hypothesis HB : (0 < B)%nat.
Hypothesis Hcw : cw <> 0.

Definition RelB (a : ast St) (s : bst St) : Prop :=
  let '(st, c, l) := a in
  bytes l /\ c mod N.of_nat B = 0 /\ Rep St B wipe cw compress st c l s.
Definition okB (a : ast St) : Prop :=
  let '(st, c, l) := a in cw mod N.of_nat B = 0 \/ c + N.of_nat (length l) < cw.

(* what an object representing (st, c, l) looks like *)
Lemma RelB_inv st c l s : RelB (st, c, l) s -> okB (st, c, l) ->
  bytes l /\ b_st s = fold_left compress (chunks B l) st /\
  b_m s = length (rest B l) /\ (length (rest B l) < B)%nat /\
  b_n s = (c + N.of_nat (length l)) mod cw /\
  (N.of_nat (b_m s) =? b_n s mod N.of_nat B) = true /\
  length (b_buf s) = B /\ firstn (length (rest B l)) (b_buf s) = rest B l /\
  (wipe = true -> b_buf s = rest B l ++ zeros (B - length (rest B l))).
Proof.
  intros (Hl & Hc & (Hst & Hm & Hn & tail & Hb & Hbl & Hz)) HO.
  pose proof (rest_length B HB l) as RL. pose proof (rest_lt B HB l) as RLt.
  split; [exact Hl|]. split; [exact Hst|]. split; [congruence|]. split; [exact RLt|]. split; [exact Hn|].
  split.
  { rewrite Hm, Hn, (cnt_mod B cw HB Hcw) by (split; assumption). apply N.eqb_refl. }
  split; [exact Hbl|]. split.
  { rewrite Hb. now apply firstn_app_exact. }
  intros W. rewrite Hb, (Hz W). do 2 f_equal. rewrite Hb, app_length in Hbl. lia.
Qed.

(* a freshly aligned object *)
Lemma RelB_aligned st c buf : c mod N.of_nat B = 0 -> length buf = B ->
  (wipe = true -> buf = zeros B) -> RelB (st, c, []) (mkB st buf 0 (c mod cw)).
Proof.
  clear Hcw. intros Hc HL HZ. split; [constructor|]. split; [exact Hc|].
  unfold Rep. cbn [b_st b_m b_n b_buf length].
  rewrite (chunks_short B HB) by (cbn; lia). rewrite N.add_0_r.
  split; [reflexivity|]. split; [rewrite Nat.mod_0_l; lia|]. split; [reflexivity|].
  exists buf. rewrite (rest_short B []) by (cbn; lia).
  split; [reflexivity|]. split; [exact HL|]. intros W. rewrite (HZ W), zeros_length. reflexivity.
Qed.

End Rel.

Section Blk.
Variable St : Type.
Variable B : nat.
Variables guard wipe : bool.
Variable cw : N.
Variable pf : plat.
Variable tr : St -> ptr -> res St.
Variable blocks : St -> ptr -> nat -> res (St * ptr * nat).
Variable compress : St -> list N -> St.
Hypothesis HB : (0 < B)%nat.
Hypothesis Hcw : cw <> 0.
Hypothesis Htr : forall st l, (B <= length l)%nat -> bytes l ->
  tr st (Ptr l) = Ok (compress st (firstn B l)).
Hypothesis Hblocks : forall st l n, (n <= length l)%nat -> bytes l ->
  blocks st (Ptr l) n =
  Ok (fold_left compress (chunks B (firstn n l)) st, Ptr (skipn (B * (n / B)) l), (n mod B)%nat).

Local Notation RelB := (RelB St B wipe cw compress).
Local Notation okB := (okB St B cw).

Lemma RelB_update a s p n : guard = true -> RelB a s -> okB a -> okB (ab_au a (data p n)) ->
  valid_arg true p n ->
  exists s', gen_update St B guard wipe cw pf tr blocks s p n = Ok s' /\ RelB (ab_au a (data p n)) s'.
Proof.
  intros Hg. destruct a as [[st c] l]. unfold GenBlk.RelB, GenBlk.okB, ab_au. intros (Hl & Hc & HR) O1 O2 HV.
  destruct p as [|src]; cbn [valid_arg data] in *.
  - destruct HV as [_ ->]. exists s. rewrite app_nil_r. split; [|auto].
    pose proof HR as (Hst & Hm & Hn & _). unfold gen_update. rewrite Hm, Hn.
    rewrite (cnt_mod B cw HB Hcw) by (split; assumption). rewrite N.eqb_refl, Hg. reflexivity.
  - destruct HV as [HV1 HV2].
    destruct (gen_update_ok St B guard wipe cw pf tr blocks compress HB Hcw Htr Hblocks st c l s src n HR)
      as (s' & E & HR'); try assumption.
    + split; [exact Hc|]. rewrite app_length, firstn_length_le in O2 by assumption.
      destruct O2 as [O2|O2]; [left|right]; lia || exact O2.
    + exists s'. split; [exact E|]. split; [|split; [exact Hc|exact HR']].
      apply bytes_app. split; [exact Hl|now apply bytes_firstn].
Qed.

(* the class *)
Variable R : Type.
Variable ar : ast St -> R * ast St.
Variable init : bst St.
Variable seedf : N -> res (bst St).
Variable bytesf : ptr -> nat -> res (bst St).
Variable updf : bst St -> ptr -> nat -> res (bst St).
Variable resf : bst St -> res (R * bst St).
Hypothesis Hguard : guard = true.
Hypothesis Hupd : forall s p n, updf s p n = gen_update St B guard wipe cw pf tr blocks s p n.
Hypothesis Hres : forall a s, RelB a s -> okB a -> okB (snd (ar a)) ->
  exists s', resf s = Ok (fst (ar a), s') /\ RelB (snd (ar a)) s'.

Theorem blk_refines :
  refines (Build_hasher (bst St) R init seedf bytesf updf resf) true (ast St) ab_au ar okB RelB.
Proof.
  constructor; cbn [h_update h_result].
  - intros a s p n HR O1 HV O2. rewrite Hupd. now apply RelB_update.
  - exact Hres.
  - intros [[st c] l]. unfold ab_au. now rewrite app_nil_r.
  - intros [[st c] l] d1 d2. unfold ab_au. now rewrite app_assoc.
Qed.
End Blk.

(* The Merkle-Damgard reduction: a collision of the hash function is one of its compression function. *)
From Verif Require Import Base BaseFacts SpecCommon Gen Bits ProofMurmurDistinct.
Open Scope N_scope.

Lemma app_inj_tail_len {A} (a b c d : list A) : length b = length d -> a ++ b = c ++ d -> a = c /\ b = d.
Proof. intros HL E. apply app_inj_len; [|exact E]. apply (f_equal (@length A)) in E. rewrite !app_length in E. lia. Qed.

Section Reduce.
Variables (St R : Type) (eq_St : forall s1 s2 : St, {s1 = s2} + {s1 <> s2}).
Variables (B : nat) (IV : St) (compress : St -> list N -> St) (out : St -> R).
Hypothesis HB : (0 < B)%nat.

(* blocks, and collisions: two blocks b1, b2 of two sequences of blocks, such that the chaining values before them
   or the blocks themselves differ, are compressed to chaining values that agree in g *)
Definition block (b : list N) : Prop := length b = B /\ bytes b.
Definition collide_in {Y : Type} (g : St -> Y) (bs1 bs2 : list (list N)) : Prop := exists x1 b1 y1 x2 b2 y2,
  bs1 = x1 ++ b1 :: y1 /\ bs2 = x2 ++ b2 :: y2 /\ (fold_left compress x1 IV, b1) <> (fold_left compress x2 IV, b2) /\
  g (compress (fold_left compress x1 IV) b1) = g (compress (fold_left compress x2 IV) b2).

Lemma collide_more {Y} (g : St -> Y) x1 z1 x2 z2 : collide_in g x1 x2 -> collide_in g (x1 ++ z1) (x2 ++ z2).
Proof.
  intros (u1 & b1 & v1 & u2 & b2 & v2 & -> & -> & HN & HE). exists u1, b1, (v1 ++ z1), u2, b2, (v2 ++ z2).
  split; [now rewrite <- app_assoc|]. split; [now rewrite <- app_assoc|]. now split.
Qed.
Lemma fold_collision : forall bs1 bs2, length bs1 = length bs2 -> bs1 <> bs2 ->
  fold_left compress bs1 IV = fold_left compress bs2 IV -> collide_in (fun s => s) bs1 bs2.
Proof.
  intros bs1. induction bs1 as [|b1 x1 IH] using rev_ind; intros bs2 HL HN E.
  - destruct bs2; [easy|discriminate].
  - destruct bs2 as [|b2 x2 _] using rev_ind; [rewrite app_length in HL; cbn in HL; lia|].
    rewrite !fold_left_app in E. cbn [fold_left] in E. rewrite !app_length in HL. cbn [length] in HL.
    destruct (eq_St (fold_left compress x1 IV) (fold_left compress x2 IV)) as [ES|NS].
    + destruct (list_eq_dec N.eq_dec b1 b2) as [->|NB].
      * apply collide_more. apply (IH x2); [lia| |exact ES]. intros ->. now apply HN.
      * exists x1, b1, [], x2, b2, []. repeat (split; [reflexivity|]). split; [|exact E]. intros X. injection X as _ X. now apply NB.
    + exists x1, b1, [], x2, b2, []. repeat (split; [reflexivity|]). split; [|exact E]. intros X. apply NS. now injection X.
Qed.

Variables (lb : nat) (enc : N -> list N).
Hypothesis Hlb : (lb <= B)%nat.
Hypothesis enc_len : forall n, length (enc n) = lb.
Hypothesis enc_bytes : forall n, bytes (enc n).
Hypothesis enc_inj : forall a b, a < 2^64 -> b < 2^64 -> enc a = enc b -> a = b.
Hypothesis pad_mult : forall l, (length (MDpad B lb enc l) mod B = 0)%nat.

Lemma pad_split l : bytes l -> exists x b, chunks B (MDpad B lb enc l) = x ++ [b] /\ Forall block x /\ block b /\
  skipn (B - lb) b = enc (8 * N.of_nat (length l)) /\ S (length x) = (length (MDpad B lb enc l) / B)%nat /\ concat x ++ b = MDpad B lb enc l.
Proof.
  intros Hl. set (p := MDpad B lb enc l).
  assert (HP : bytes p).
  { unfold p, MDpad. rewrite !bytes_app. split; [exact Hl|]. split; [repeat constructor|]. split; [|apply enc_bytes].
    apply Forall_forall. intros x Hx. apply repeat_spec in Hx. subst. reflexivity. }
  assert (HL : (1 <= length p)%nat) by (unfold p, MDpad; rewrite !app_length; cbn; lia).
  pose proof (pad_mult l) as HM. fold p in HM. pose proof (Nat.div_mod (length p) B ltac:(lia)) as DM. rewrite HM in DM.
  assert (FU : concat (chunks B p) = p) by (rewrite (chunks_concat B HB p); unfold full; apply firstn_all2; lia).
  assert (CL : length (chunks B p) = (length p / B)%nat) by apply (chunks_length B HB p).
  assert (AB : Forall block (chunks B p)).
  { apply Forall_forall. intros b Hb. split; [exact (chunks_all_length B HB p b Hb)|exact (chunks_bytes B p b HP Hb)]. }
  destruct (chunks B p) as [|y ys] eqn:EC; [cbn in FU; rewrite <- FU in HL; cbn in HL; lia|].
  destruct (exists_last (l := y :: ys) ltac:(discriminate)) as (x & b & EX). rewrite EX in *. exists x, b.
  apply Forall_app in AB. destruct AB as [AX AB]. inversion AB as [|? ? KB _]; subst.
  rewrite concat_app in FU. cbn [concat] in FU. rewrite app_nil_r in FU.
  split; [reflexivity|]. split; [exact AX|]. split; [exact KB|]. split; [|split; [rewrite app_length in CL; cbn [length] in CL; lia|exact FU]].
  destruct KB as [LB _]. assert (E : (concat x ++ firstn (B - lb) b) ++ skipn (B - lb) b =
    (l ++ [0x80] ++ repeat 0 ((2 * B - 1 - lb - length l mod B) mod B)) ++ enc (8 * N.of_nat (length l))).
  { rewrite <- app_assoc, firstn_skipn, FU. unfold p, MDpad. now rewrite <- !app_assoc. }
  apply app_inj_tail_len in E; [tauto|]. rewrite skipn_length, enc_len. lia.
Qed.
Lemma pad_inj l1 l2 : length l1 = length l2 -> MDpad B lb enc l1 = MDpad B lb enc l2 -> l1 = l2.
Proof. intros HL E. unfold MDpad in E. now apply app_inj_len in E. Qed.

Theorem md_reduce l1 l2 : bytes l1 -> bytes l2 -> 8 * N.of_nat (length l1) < 2^64 -> 8 * N.of_nat (length l2) < 2^64 -> l1 <> l2 ->
  out (fold_left compress (chunks B (MDpad B lb enc l1)) IV) = out (fold_left compress (chunks B (MDpad B lb enc l2)) IV) ->
  collide_in out (chunks B (MDpad B lb enc l1)) (chunks B (MDpad B lb enc l2)).
Proof.
  intros B1 B2 L1 L2 HN E.
  destruct (pad_split l1 B1) as (x1 & b1 & C1 & X1 & K1 & S1 & N1 & F1). destruct (pad_split l2 B2) as (x2 & b2 & C2 & X2 & K2 & S2 & N2 & F2).
  rewrite C1, C2 in *. rewrite !fold_left_app in E. cbn [fold_left] in E.
  assert (G : (fold_left compress x1 IV, b1) <> (fold_left compress x2 IV, b2) -> collide_in out (x1 ++ [b1]) (x2 ++ [b2])).
  { intros NE. exists x1, b1, [], x2, b2, []. repeat (split; [reflexivity|]). now split. }
  destruct (eq_St (fold_left compress x1 IV) (fold_left compress x2 IV)) as [ES|NS]; [|apply G; intros X; apply NS; now injection X].
  destruct (list_eq_dec N.eq_dec b1 b2) as [EB|NB]; [|apply G; intros X; apply NB; now injection X].
  assert (HL : length l1 = length l2).
  { rewrite EB, S2 in S1. apply enc_inj in S1; [lia|assumption|assumption]. }
  assert (HP : length (MDpad B lb enc l1) = length (MDpad B lb enc l2)).
  { unfold MDpad. rewrite !app_length, !repeat_length, !enc_len, HL. reflexivity. }
  apply collide_more. destruct (fold_collision x1 x2) as (u1 & c1 & v1 & u2 & c2 & v2 & H1 & H2 & H3 & H4).
  - rewrite HP in N1. lia.
  - intros EX. apply HN, pad_inj; [exact HL|]. rewrite <- F1, <- F2. congruence.
  - exact ES.
  - exists u1, c1, v1, u2, c2, v2. repeat (split; [assumption|]). now rewrite H4.
Qed.
Lemma collide_full bs1 bs2 : (forall s1 b1 s2 b2, out (compress s1 b1) = out (compress s2 b2) -> compress s1 b1 = compress s2 b2) ->
  collide_in out bs1 bs2 -> collide_in (fun s => s) bs1 bs2.
Proof. intros HO (x1 & b1 & y1 & x2 & b2 & y2 & H1 & H2 & H3 & H4). exists x1, b1, y1, x2, b2, y2. repeat (split; [assumption|]). now apply HO. Qed.
End Reduce.

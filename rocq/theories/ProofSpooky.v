(* spooky2_128: the model computes SpookyHash V2, continued. *)
From Verif Require Import Base BaseFacts SpecCommon Gen Hasher Words GenBlk Loops
  SpecSpooky ModelMurmur ModelSpooky ProofMurmur ProofSpookyMix.
Open Scope N_scope.

(* ------------------------------------------------------------------ the short form *)
Definition sp_fin le (x : sp_4) (p : ptr) (m n : nat) : res (N * N) :=
  let '(a, b, c, d) := x in
  '(c, d) <-
    (if Nat.eqb m 0 then Ok (add64 c sp_const, add64 d sp_const)
     else
       assert! (Nat.ltb m 16) ;;
       tmp <- std_memcpy (zeros 16) 0 p m ;;
       t0 <- padd (Ptr tmp) 0 ;; k <- read64le (rt le) t0 ;; let c := add64 c k in
       t8 <- padd (Ptr tmp) 8 ;; k <- read64le (rt le) t8 ;; let d := add64 d k in
       Ok (c, d)) ;;
  let d := add64 d (shl64 (N.of_nat n) 56) in
  let '(a, b, c, d) := sp_short_end a b c d in
  Ok (a, b).
Definition spec_fin (h : list N) (r : list N) (n : nat) : N * N :=
  let h := assign 4 3 (ADD 64 (var 4 3 h) ((N.of_nat n * 2^56) mod 2^64)) h in
  let h := match r with
           | [] => Short_cd h sc_const sc_const
           | _ => Short_cd h (LE (firstn 8 r)) (LE (skipn 8 r))
           end in
  let h := Spooky_ShortEnd h in
  (var 4 0 h, var 4 1 h).
Lemma ADD_swap w a b c : ADD w (ADD w a b) c = ADD w (ADD w a c) b.
Proof. rewrite <- !ADD_assoc. f_equal. apply ADD_comm. Qed.
Lemma spec_fin_lit a b c d r n x y :
  (match r with [] => (sc_const, sc_const) | _ => (LE (firstn 8 r), LE (skipn 8 r)) end) = (x, y) ->
  (let '(a, b, c, d) := sp_short_end a b (add64 c x) (add64 (add64 d y) (shl64 (N.of_nat n) 56)) in (a, b))
  = spec_fin [a; b; c; d] r n.
Proof.
  intros H. unfold spec_fin. cbv zeta.
  change (assign 4 3 (ADD 64 (var 4 3 [a; b; c; d]) ((N.of_nat n * 2^56) mod 2^64)) [a; b; c; d])
    with [a; b; c; ADD 64 d ((N.of_nat n * 2^56) mod 2^64)].
  set (h := [a; b; c; ADD 64 d _]).
  replace (match r with [] => Short_cd h sc_const sc_const | _ => Short_cd h (LE (firstn 8 r)) (LE (skipn 8 r)) end)
    with (Short_cd h x y).
  2:{ transitivity (Short_cd h (fst (x, y)) (snd (x, y))); [reflexivity|]. rewrite <- H. destruct r; reflexivity. }
  unfold h. clear h H. rewrite Short_cd_lit.
  assert (ES : shl64 (N.of_nat n) 56 = (N.of_nat n * 2^56) mod 2^64).
  { unfold shl64. rewrite N.shiftl_mul_pow2. reflexivity. }
  rewrite ES. clear ES. set (v := (N.of_nat n * 2^56) mod 2^64). clearbody v.
  pose proof (sp_short_end_ok a b (add64 c x) (add64 (add64 d y) v)) as E.
  rewrite (add64_ADD c), (add64_ADD d), (add64_ADD (ADD 64 d y)) in E. rewrite ADD_swap in E.
  rewrite (add64_ADD c), (add64_ADD d), (add64_ADD (ADD 64 d y)), ADD_swap.
  destruct (sp_short_end a b _ _) as [[[a' b'] c'] d'].
  rewrite <- E; reflexivity.
Qed.
Lemma sp_fin_ok le x r tail n : (length r < 16)%nat -> bytes r ->
  sp_fin le x (Ptr (r ++ tail)) (length r) n = Ok (spec_fin (list4 x) r n).
Proof.
  intros HL Hb. destruct x as [[[a b] c] d]. unfold sp_fin. change (list4 (a, b, c, d)) with [a; b; c; d].
  destruct r as [|r0 r'] eqn:Er.
  - cbn [length Nat.eqb bind]. cbv zeta.
    rewrite <- (spec_fin_lit a b c d [] n sp_const sp_const eq_refl).
    destruct (sp_short_end a b _ _) as [[[a' b'] c'] d']. reflexivity.
  - rewrite <- Er in *. assert (Hne : Nat.eqb (length r) 0 = false) by (rewrite Er; reflexivity).
    rewrite Hne. replace (Nat.ltb (length r) 16) with true by (symmetry; apply Nat.ltb_lt; lia). cbn [assert_ bind].
    change std_memcpy with (memcpy (rt true)).
    rewrite memcpy_ok by (rewrite ?zeros_length, ?app_length; lia). cbn [bind].
    rewrite firstn_app_exact by reflexivity.
    assert (ES : splice (zeros 16) 0 r = r ++ zeros (16 - length r)).
    { unfold splice. cbn [firstn app Nat.add]. f_equal. now rewrite skipn_zeros. }
    rewrite ES. set (t := r ++ zeros (16 - length r)).
    assert (Ht : length t = 16%nat) by (unfold t; rewrite app_length, zeros_length; lia).
    assert (Hbt : bytes t) by (apply bytes_app; split; [exact Hb|apply bytes_zeros]).
    rewrite (bind_rd le t 0 16) by (lia || now apply bytes_firstn). cbv zeta.
    rewrite (bind_rd le t 1 16) by (lia || now apply bytes_firstn). cbn [bind].
    rewrite firstn_all2 by lia.
    assert (E0 : word64 t 0 = LE (firstn 8 r)).
    { unfold word64, t. change (8 * 0)%nat with 0%nat. cbn [skipn]. apply LE_firstn_pad. lia. }
    assert (E1 : word64 t 1 = LE (skipn 8 r)).
    { unfold word64. change (8 * 1)%nat with 8%nat. rewrite firstn_all2 by (rewrite skipn_length; lia).
      apply LE_skipn_pad. }
    rewrite E0, E1. unfold list4.
    rewrite <- (spec_fin_lit a b c d r n (LE (firstn 8 r)) (LE (skipn 8 r))) by (rewrite Er; reflexivity).
    destruct (sp_short_end a b _ _) as [[[a' b'] c'] d']. reflexivity.
Qed.

Lemma sp_short_hash_ok le l tail h1 h2 : bytes l ->
  sp_short_hash le (Ptr (l ++ tail)) (length l) h1 h2 = Ok (Spooky_Short h1 h2 l).
Proof.
  intros Hb. unfold sp_short_hash. rewrite sp_short_loop_w.
  rewrite (wblocks_ok' sp_4 32 (sp_str le) sp_s32 ltac:(lia) (sp_str_ok le))
    by (rewrite ?app_length, ?firstn_app_exact; lia || assumption || reflexivity).
  cbn [bind]. rewrite firstn_app_exact by reflexivity.
  assert (Esk : skipn (32 * (length l / 32)) (l ++ tail) = rest 32 l ++ tail).
  { rewrite skipn_app_le; [reflexivity|]. apply Nat.mul_div_le. lia. }
  rewrite Esk. clear Esk. rewrite <- (rest_length 32 ltac:(lia) l).
  pose proof (sp_s32_fold (chunks 32 l) (h1, h2, sp_const, sp_const)) as EF.
  set (x := fold_left sp_s32 (chunks 32 l) (h1, h2, sp_const, sp_const)) in *. clearbody x.
  unfold Spooky_Short. cbv zeta.
  change [h1; h2; sc_const; sc_const] with (list4 (h1, h2, sp_const, sp_const)). rewrite <- EF. clear EF.
  pose proof (rest_lt 32 ltac:(lia) l) as HR. pose proof (rest_bytes 32 l Hb) as HbR.
  set (r := rest 32 l) in *. clearbody r.
  destruct x as [[[a b] c] d]. cbn [bind].
  destruct (Nat.leb_spec 16 (length r)) as [H16|H16].
  - rewrite (bind_rd le (r ++ tail) 0 16) by (rewrite ?app_length, ?firstn_app_le; lia || (now apply bytes_firstn)).
    cbv zeta.
    rewrite (bind_rd le (r ++ tail) 1 16) by (rewrite ?app_length, ?firstn_app_le; lia || (now apply bytes_firstn)).
    pose proof (sp_s16_list (a, b, c, d) r) as EM. unfold sp_s16 in EM.
    rewrite firstn_app_le by lia.
    assert (Hw : forall i, (i < 2)%nat -> word64 (firstn 16 r) i = word64 r i).
    { intros i Hi. unfold word64. f_equal. apply firstn_skipn_firstn. lia. }
    rewrite !Hw by lia.
    destruct (sp_short_mix a b _ _) as [[[a' b'] c'] d'].
    rewrite padd_ok by (rewrite app_length; lia). cbn [bind]. rewrite skipn_app_le by lia.
    replace (length r - 16)%nat with (length (skipn 16 r)) by (rewrite skipn_length; reflexivity).
    pose proof (sp_fin_ok le (a', b', c', d') (skipn 16 r) tail (length l)) as EFI.
    unfold sp_fin in EFI. rewrite EFI by ((rewrite skipn_length; lia) || now apply bytes_skipn).
    rewrite EM. reflexivity.
  - cbn [bind].
    pose proof (sp_fin_ok le (a, b, c, d) r tail (length l)) as EFI.
    unfold sp_fin in EFI. rewrite EFI by (lia || assumption). reflexivity.
Qed.

(* ------------------------------------------------------------------ the class *)
(* result() of an object with variables st at the last multiple of 192 bytes, c bytes counted
   then, l bytes fed since; the variables are left modified, and the count moves to the next
   multiple of 192 (zero if that does not fit) *)
Definition sp_next (cw c : N) (n : nat) : N :=
  let x := c + N.of_nat (n + (192 - n mod 192)) in if cw <=? x then 0 else x.
Definition sp_fin_st (st : sp_st) (c : N) (l : list N) : sp_st :=
  if c + N.of_nat (length l) <? 192 then
    let '(SP h0 h1 h2 h3 h4 h5 h6 h7 h8 h9 h10 h11) := st in
    let '(a, b) := Spooky_Short h0 h1 l in SP a b h2 h3 h4 h5 h6 h7 h8 h9 h10 h11
  else sp_of (Spooky_End (fold_left Spooky_Mix (chunks 96 l) (sp_list st)) (Spooky_last (rest 96 l))).
Definition sp_ar (cw : N) (a : ast sp_st) : list N * ast sp_st :=
  let '(st, c, l) := a in
  let st' := sp_fin_st st c l in
  (toLE 8 (nth 0 (sp_list st') 0) ++ toLE 8 (nth 1 (sp_list st') 0), (st', sp_next cw c (length l), [])).

Definition sp_start (cw : N) (c : ctor) : ast sp_st :=
  match c with
  | CDefault => (sp_of (Spooky_init 0 0), 0, [])
  | CSeed n => (sp_of (Spooky_init n 0), 0, [])
  | CBytes p n =>
      let d := data p n in
      if Nat.leb n 16 then (sp_of (Spooky_init (LE (firstn 8 d)) (LE (skipn 8 d))), 0, [])
      else snd (sp_ar cw (sp_of (Spooky_init (LE (firstn 8 d)) (LE (firstn 8 (skipn 8 d)))), 0, skipn 16 d))
  end.

(* legacy/spooky2.hpp:24-406; the default constructor is the seed constructor with its default arguments (237-245) *)
Definition sp_class (cw : N) (le : bool) (junk : list N) : hasher :=
  {| h_S := bst sp_st; h_R := list N; h_init := sp_seed junk 0;
     h_seed := fun n => Ok (sp_seed junk n); h_bytes := sp_bytes cw le junk;
     h_update := sp_update cw le; h_result := sp_result cw le |}.

Lemma word64_app_zeros d k i : (8 * i + 8 <= length d)%nat -> word64 (d ++ k) i = word64 d i.
Proof.
  intros H. unfold word64. rewrite skipn_app_le by lia. rewrite firstn_app_le; [reflexivity|].
  rewrite skipn_length. lia.
Qed.
Lemma sp_last_length r : (length r < 96)%nat -> length (Spooky_last r) = 96%nat.
Proof. intros H. unfold Spooky_last. rewrite !app_length, repeat_length. cbn [length]. lia. Qed.
Lemma sp_last_bytes r : (length r < 96)%nat -> bytes r -> bytes (Spooky_last r).
Proof.
  intros H Hb. unfold Spooky_last. apply bytes_app. split; [exact Hb|]. apply bytes_app. split; [apply bytes_zeros|].
  constructor; [|constructor]. lia.
Qed.
(* the padded last block, written into the buffer *)
Lemma sp_pad_ok buf off r : (length r < 96)%nat -> (off + 96 <= length buf)%nat ->
  firstn (length r) (skipn off buf) = r ->
  exists buf', (b <- std_memset buf (off + length r) 0 (96 - length r) ;;
                store b (off + 95) (N.land (N.of_nat (length r)) 255 mod 256)) = Ok buf' /\
    length buf' = length buf /\ firstn 96 (skipn off buf') = Spooky_last r.
Proof.
  intros Hr Ho Hf. change std_memset with (memset (rt true)). rewrite memset_ok by lia. cbn [bind].
  set (b1 := splice buf (off + length r) (repeat 0 (96 - length r))).
  assert (L1 : length b1 = length buf) by (unfold b1; rewrite splice_length; rewrite ?repeat_length; lia).
  assert (E1 : b1 = firstn off buf ++ (r ++ repeat 0 (96 - length r)) ++ skipn (off + 96) buf).
  { unfold b1, splice. rewrite repeat_length. rewrite firstn_add, Hf. rewrite <- !app_assoc.
    do 3 f_equal. f_equal. lia. }
  unfold store. replace (Nat.ltb (off + 95) (length b1)) with true by (symmetry; apply Nat.ltb_lt; lia).
  eexists. split; [reflexivity|]. split; [rewrite splice_length; cbn [length]; lia|].
  assert (Ev : N.land (N.of_nat (length r)) 255 mod 256 = N.of_nat (length r)).
  { change 255 with (N.ones 8). rewrite N.land_ones. change (2^8) with 256. rewrite N.mod_mod by discriminate.
    apply N.mod_small. lia. }
  rewrite Ev.
  assert (Lo : length (firstn off buf) = off) by (apply firstn_length_le; lia).
  unfold splice. rewrite firstn_add. rewrite E1. rewrite firstn_app_exact by (symmetry; exact Lo).
  rewrite <- app_assoc. rewrite skipn_app_exact by (symmetry; exact Lo).
  rewrite skipn_app_exact by (symmetry; exact Lo).
  replace (96 - length r)%nat with (95 - length r + 1)%nat by lia. rewrite repeat_app. cbn [repeat].
  rewrite <- !app_assoc. rewrite (app_assoc r).
  rewrite (firstn_app_exact (r ++ repeat 0 (95 - length r))) by (rewrite app_length, repeat_length; lia).
  unfold Spooky_last. rewrite (app_assoc r (repeat 0 (95 - length r)) [N.of_nat (length r)]).
  rewrite (app_assoc (r ++ repeat 0 (95 - length r))).
  rewrite firstn_app_exact; [reflexivity|]. rewrite !app_length, repeat_length. cbn [length]. lia.
Qed.

Section C.
Variable cw : N.
Hypothesis Hcw : cw = 2^32 \/ cw = 2^64.
Lemma scw_0 : cw <> 0.
Proof. destruct Hcw as [-> | ->]; discriminate. Qed.
Lemma scw_big : 1000 < cw.
Proof. destruct Hcw as [-> | ->]; reflexivity. Qed.

Lemma sp_update_gen le s p n :
  sp_update cw le s p n = gen_update sp_st 192 true false cw (rt le) (sp_tr le) (sp_bl le) s p n.
Proof. reflexivity. Qed.

Notation Rel := (RelB sp_st 192 false cw sp_cm2).
Notation ok := (okB sp_st 192 cw).
Lemma sp_ok_iff st c l : ok (st, c, l) <-> c + N.of_nat (length l) < cw.
Proof.
  unfold okB. split; [|intros; right; assumption]. intros [H|H]; [|exact H].
  exfalso. destruct Hcw as [-> | ->]; discriminate H.
Qed.

Lemma sp_next_ok c n : c + N.of_nat n < cw -> c mod 192 = 0 ->
  (let n_ := ((c + N.of_nat n) mod cw + N.of_nat (192 - n mod 192)) mod cw in if n_ <? 192 then 0 else n_)
  = sp_next cw c n /\ sp_next cw c n < cw /\ sp_next cw c n mod 192 = 0.
Proof.
  intros H Hc. cbv zeta. unfold sp_next. rewrite N.add_mod_idemp_l by apply scw_0.
  rewrite <- N.add_assoc, <- Nat2N.inj_add.
  pose proof (align_mod 192 c n ltac:(lia) Hc) as HA. change (N.of_nat 192) with 192 in HA.
  pose proof (Nat.mod_upper_bound n 192 ltac:(lia)) as U.
  assert (HX : c + N.of_nat (n + (192 - n mod 192)) < cw + 192) by lia.
  assert (HY : 192 <= c + N.of_nat (n + (192 - n mod 192))) by (pose proof (Nat.mod_le n 192 ltac:(lia)); lia).
  set (x := c + N.of_nat (n + (192 - n mod 192))) in *. clearbody x. clear H U.
  destruct (N.leb_spec cw x) as [HW|HW].
  - assert (E : x mod cw = x - cw).
    { symmetry. apply N.mod_unique with (q := 1); [pose proof scw_big; lia|lia]. }
    rewrite E. replace (x - cw <? 192) with true by (symmetry; apply N.ltb_lt; lia).
    split; [reflexivity|]. split; [pose proof scw_big; lia|reflexivity].
  - rewrite N.mod_small by exact HW. replace (x <? 192) with false by (symmetry; apply N.ltb_ge; exact HY).
    split; [reflexivity|]. split; [exact HW|exact HA].
Qed.

Lemma sp_result_ok le a s : Rel a s -> ok a ->
  exists s', sp_result cw le s = Ok (fst (sp_ar cw a), s') /\ Rel (snd (sp_ar cw a)) s'
    /\ b_buf s' = zeros 192.
Proof.
  intros HR HO. destruct a as [[st c] l]. pose proof HR as (_ & Hc & _).
  destruct (RelB_inv sp_st 192 false cw sp_cm2 ltac:(lia) scw_0 st c l s HR HO)
    as (Hl & Hst & Hm & Hlt & Hn & HA & HBL & Hf & _).
  apply sp_ok_iff in HO. change (N.of_nat 192) with 192 in *.
  unfold sp_result. rewrite HA. cbn [assert_ bind].
  destruct (sp_next_ok c (length l) HO Hc) as (EN & Hlt' & Hc').
  rewrite <- (rest_length 192 ltac:(lia) l), <- Hm, <- Hn in EN. cbv zeta in EN |- *.
  rewrite EN. clear EN.
  rewrite (N.mod_small _ _ HO) in Hn.
  (* the computation of the new variables *)
  assert (HS : exists buf',
    (let '(SP h0 h1 h2 h3 h4 h5 h6 h7 h8 h9 h10 h11) := b_st s in
     (if b_n s <? 192 then
       '(h0, h1) <- sp_short_hash le (Ptr (b_buf s)) (N.to_nat (b_n s)) h0 h1 ;;
       Ok (SP h0 h1 h2 h3 h4 h5 h6 h7 h8 h9 h10 h11, b_buf s)
     else
       '(st, off, m) <-
         (if Nat.leb 96 (b_m s) then
            st <- sp_mix le (Ptr (b_buf s)) (b_st s) ;;
            Ok (st, 96%nat, (b_m s - 96)%nat)
          else Ok (b_st s, 0%nat, b_m s)) ;;
       buf <- std_memset (b_buf s) (off + m) 0 (96 - m) ;;
       buf <- store buf (off + 95) (N.land (N.of_nat m) 255 mod 256) ;;
       p <- padd (Ptr buf) off ;;
       st <- sp_end le p st ;;
       Ok (st, buf))) = Ok (sp_fin_st st c l, buf') /\ length buf' = 192%nat).
  { unfold sp_fin_st. rewrite <- Hn. destruct (N.ltb_spec (b_n s) 192) as [H192|H192].
    - assert (Hs : (length l < 192)%nat) by lia.
      rewrite (chunks_short 192 ltac:(lia)) in Hst by exact Hs. cbn [fold_left] in Hst.
      assert (Hc0 : c = 0).
      { destruct (N.eq_dec c 0) as [|Hne]; [assumption|]. exfalso.
        apply N.mod_divide in Hc; [|discriminate]. destruct Hc as [q Hq].
        destruct (N.eq_dec q 0) as [->|Hq0]; [lia|]. nia. }
      rewrite (rest_short 192) in * by exact Hs.
      rewrite Hst. destruct st as [h0 h1 h2 h3 h4 h5 h6 h7 h8 h9 h10 h11].
      rewrite Hn, Hc0, N.add_0_l, Nat2N.id.
      pose proof (sp_short_hash_ok le l (skipn (length l) (b_buf s)) h0 h1 Hl) as ESH.
      assert (EBF : l ++ skipn (length l) (b_buf s) = b_buf s) by (rewrite <- Hf at 1; apply firstn_skipn).
      rewrite EBF in ESH.
      rewrite ESH. cbn [bind]. destruct (Spooky_Short h0 h1 l) as [a b]. eexists. split; [reflexivity|exact HBL].
    - destruct (b_st s) as [g0 g1 g2 g3 g4 g5 g6 g7 g8 g9 g10 g11] eqn:Eb. rewrite <- Eb in *. clear Eb g0 g1 g2 g3 g4 g5 g6 g7 g8 g9 g10 g11.
      destruct (chunks_192 _ l st eq_refl) as [EC ER]. rewrite <- Hst in EC.
      rewrite <- (sp_fold_list (chunks 96 l) st), <- sp_ce_of, EC, ER.
      rewrite Hm. set (r := rest 192 l) in *.
      pose proof (rest_bytes 192 l Hl) as Hbr. fold r in Hbr. clearbody r.
      assert (HB' : firstn 96 (b_buf s) = firstn 96 r \/ (length r < 96)%nat).
      { destruct (Nat.lt_ge_cases (length r) 96) as [H|H]; [right; exact H|left].
        transitivity (firstn 96 (firstn (length r) (b_buf s))); [rewrite firstn_firstn_le by lia; reflexivity|now rewrite Hf]. }
      assert (FIN : forall st' off r', (length r' < 96)%nat -> bytes r' -> (off + 96 <= 192)%nat ->
                firstn (length r') (skipn off (b_buf s)) = r' ->
                exists buf',
                 (buf <- std_memset (b_buf s) (off + length r') 0 (96 - length r') ;;
                  buf <- store buf (off + 95) (N.land (N.of_nat (length r')) 255 mod 256) ;;
                  p <- padd (Ptr buf) off ;;
                  st <- sp_end le p st' ;;
                  Ok (st, buf)) = Ok (sp_ce st' (Spooky_last r'), buf') /\ length buf' = 192%nat).
      { intros st' off r' Hr' Hb' Ho Hff.
        destruct (sp_pad_ok (b_buf s) off r' Hr' ltac:(lia) Hff) as (buf' & E1 & E2 & E3).
        exists buf'. destruct (std_memset (b_buf s) (off + length r') 0 (96 - length r')) as [b1| | |]; cbn [bind] in E1 |- *; try discriminate.
        rewrite E1. cbn [bind]. rewrite padd_ok by lia. cbn [bind].
        rewrite sp_end_ok.
        - rewrite E3. cbn [bind]. split; [reflexivity|lia].
        - rewrite skipn_length. lia.
        - rewrite E3. now apply sp_last_bytes. }
      unfold half, half_rest. destruct (Nat.leb_spec 96 (length r)) as [H96|H96].
      + destruct HB' as [HB'|]; [|lia].
        rewrite sp_mix_ok; [|lia|rewrite HB'; now apply bytes_firstn]. rewrite HB'. cbn [bind].
        replace (length r - 96)%nat with (length (skipn 96 r)) by (rewrite skipn_length; reflexivity).
        apply FIN.
        * rewrite skipn_length. lia.
        * now apply bytes_skipn.
        * lia.
        * transitivity (skipn 96 (firstn (length r) (b_buf s))); [|now rewrite Hf].
          rewrite skipn_firstn_comm, skipn_length. reflexivity.
      + cbn [bind]. apply FIN; (assumption || lia). }
  destruct HS as (buf' & ES & HBL').
  destruct (b_st s) as [g0 g1 g2 g3 g4 g5 g6 g7 g8 g9 g10 g11].
  rewrite ES. cbn [bind]. clear ES.
  change std_memset with (memset (rt true)). rewrite memset_ok by lia. cbn [bind].
  rewrite splice_0_all by (rewrite repeat_length; lia).
  unfold sp_ar. set (st' := sp_fin_st st c l). cbn [fst snd].
  pose proof (RelB_aligned sp_st 192 false cw sp_cm2 ltac:(lia) st' (sp_next cw c (length l)) (zeros 192) Hc' (zeros_length 192) ltac:(discriminate)) as RA.
  rewrite (N.mod_small _ _ Hlt') in RA.
  destruct st' as [k0 k1 k2 k3 k4 k5 k6 k7 k8 k9 k10 k11].
  cbn [bind]. eexists. split; [|split; [exact RA|reflexivity]].
  rewrite (write64le_ok (rt le) k0), (write64le_ok (rt le) k1). reflexivity.
Qed.

Lemma sp_refines le junk :
  refines (sp_class cw le junk) true (ast sp_st) ab_au (sp_ar cw) ok Rel.
Proof.
  eapply (blk_refines sp_st 192 true false cw (rt le) (sp_tr le) (sp_bl le) sp_cm2).
  - lia.
  - apply scw_0.
  - intros. now apply sp_tr_ok.
  - intros. now apply sp_bl_ok.
  - reflexivity.
  - apply sp_update_gen.
  - intros a s HR HO _. destruct (sp_result_ok le a s HR HO) as (s' & E1 & E2 & _). eauto.
Qed.
Lemma sp_fresh junk h : length junk = 192%nat -> Rel (h, 0, []) (mkB h junk 0 0).
Proof.
  intros HJ. rewrite <- (N.mod_0_l cw) at 2 by apply scw_0.
  apply RelB_aligned; [lia|reflexivity|exact HJ|discriminate].
Qed.

(* an upper bound on the value of n_: the bytes fed, and 192 per result() *)
Fixpoint op_weight (ops : list op) : N :=
  match ops with
  | [] => 0
  | OUpdate p n :: t => N.of_nat n + op_weight t
  | OResult :: t => 192 + op_weight t
  end.
Definition ctor_weight (c : ctor) : N :=
  match c with CBytes p n => N.of_nat n + 192 | _ => 0 end.

Lemma sp_next_le c n : sp_next cw c n <= c + N.of_nat n + 192.
Proof. unfold sp_next. destruct (N.leb_spec cw (c + N.of_nat (n + (192 - n mod 192)))); lia. Qed.
Lemma sp_aok ops : forall st c l, Forall (valid_op true) ops -> c + N.of_nat (length l) + op_weight ops < cw ->
  aok ab_au (sp_ar cw) ok (st, c, l) ops.
Proof.
  induction ops as [|[p n|] ops IH]; intros st c l HV H; cbn [aok op_weight] in *.
  - split; [apply sp_ok_iff; lia|exact I].
  - inversion HV as [|? ? V1 V2]; subst. split; [apply sp_ok_iff; lia|]. unfold ab_au. apply IH; [exact V2|].
    cbn [valid_op] in V1. pose proof (valid_data _ _ _ V1) as [_ E]. rewrite app_length, E. lia.
  - inversion HV as [|? ? V1 V2]; subst. split; [apply sp_ok_iff; lia|]. unfold sp_ar. cbn [snd]. apply IH; [exact V2|].
    cbn [length]. pose proof (sp_next_le c (length l)). lia.
Qed.

Lemma sp_start_weight c : valid_ctor c ->
  let '(_, k, l) := sp_start cw c in k + N.of_nat (length l) <= ctor_weight c.
Proof.
  destruct c as [|n|p n]; cbn [sp_start ctor_weight]; intros HV; try (cbn [length]; lia).
  cbn [valid_ctor] in HV. pose proof (valid_data _ _ _ HV) as [_ E].
  destruct (Nat.leb_spec n 16); cbn [length snd sp_ar]; [lia|]. rewrite skipn_length, E.
  pose proof (sp_next_le 0 (n - 16)). lia.
Qed.

Lemma sp_construct le junk c : length junk = 192%nat -> valid_ctor c -> ctor_weight c < cw ->
  exists s, construct (sp_class cw le junk) c = Ok s /\ Rel (sp_start cw c) s.
Proof.
  intros HJ HC HW. destruct c as [|n|p n]; cbn [construct sp_start sp_class h_init h_seed h_bytes].
  - eexists. split; [reflexivity|]. now apply sp_fresh.
  - eexists. split; [reflexivity|]. now apply sp_fresh.
  - cbn [valid_ctor ctor_weight] in HC, HW. pose proof (valid_data _ _ _ HC) as [Hdb Hdl].
    unfold sp_bytes. cbv zeta. destruct (Nat.eqb_spec n 0) as [->|H2].
    + cbn [Nat.leb]. eexists. split; [reflexivity|]. destruct (data p 0); [|discriminate]. now apply sp_fresh.
    + destruct p as [|l]; [destruct HC; lia|]. cbn [valid_arg data] in *. destruct HC as [HC1 HC2].
      assert (ES : forall k, (n <= k)%nat -> splice (zeros k) 0 (firstn n l) = firstn n l ++ zeros (k - n)).
      { intros k Hk. unfold splice. cbn [firstn app Nat.add]. f_equal. rewrite Hdl. now rewrite skipn_zeros. }
      assert (EB : forall k, bytes (firstn n l ++ zeros k)).
      { intros k. apply bytes_app. split; [exact Hdb|apply bytes_zeros]. }
      destruct (Nat.leb_spec n 16) as [H5|H5].
      * change std_memcpy with (memcpy (rt true)). rewrite memcpy_ok by (rewrite ?zeros_length; lia). cbn [bind].
        rewrite ES by lia. rewrite padd_ok by (rewrite app_length, zeros_length, Hdl; lia). cbn [bind].
        change (skipn 0 (firstn n l ++ zeros (18 - n))) with (firstn n l ++ zeros (18 - n)).
        rewrite read64le_ok' by ((rewrite app_length, zeros_length, Hdl; lia) || apply bytes_firstn, EB).
        cbn [bind]. rewrite padd_ok by (rewrite app_length, zeros_length, Hdl; lia). cbn [bind].
        rewrite read64le_ok' by ((rewrite skipn_length, app_length, zeros_length, Hdl; lia) || apply bytes_firstn, bytes_skipn, EB).
        cbn [bind]. change le_val with LE.
        rewrite LE_firstn_pad by (rewrite Hdl; lia).
        replace (LE (firstn 8 (skipn 8 (firstn n l ++ zeros (18 - n))))) with (LE (skipn 8 (firstn n l))).
        -- eexists. split; [reflexivity|]. now apply sp_fresh.
        -- rewrite skipn_app, skipn_zeros. rewrite LE_firstn_pad by (rewrite skipn_length, Hdl; lia).
           rewrite (firstn_all2 (skipn 8 (firstn n l))) by (rewrite skipn_length, Hdl; lia). reflexivity.
      * rewrite padd_ok by lia. cbn [bind]. change (skipn 0 l) with l.
        rewrite read64le_ok' by (lia || now apply bytes_firstn). cbn [bind].
        rewrite padd_ok by lia. cbn [bind].
        rewrite read64le_ok' by ((rewrite skipn_length; lia) || now apply bytes_firstn, bytes_skipn). cbn [bind].
        rewrite padd_ok by lia. cbn [bind].
        assert (HV : valid_arg true (Ptr (skipn 16 l)) (n - 16)).
        { split; [rewrite skipn_length; lia|now apply bytes_skipn]. }
        pose proof (valid_data _ _ _ HV) as [_ HVl].
        assert (O2 : ok (ab_au (sp_init (le_val (firstn 8 l)) (le_val (firstn 8 (skipn 8 l))), 0, [])
                          (data (Ptr (skipn 16 l)) (n - 16)))).
        { unfold ab_au. apply sp_ok_iff. rewrite app_nil_l, HVl. lia. }
        destruct (rf_update _ _ _ _ _ _ _ (sp_refines le junk) _ _ (Ptr (skipn 16 l)) (n - 16)%nat
                   (sp_fresh junk (sp_init (le_val (firstn 8 l)) (le_val (firstn 8 (skipn 8 l)))) HJ)
                   ltac:(apply sp_ok_iff; pose proof scw_big; cbn [length]; lia) HV O2)
          as (s1 & E1 & R1).
        cbn [sp_class h_update] in E1. rewrite E1. cbn [bind].
        destruct (sp_result_ok le _ _ R1 O2) as (s2 & E2 & R2 & _). rewrite E2. cbn [bind].
        exists s2. split; [reflexivity|]. unfold ab_au in R2. cbn [data] in R2. rewrite app_nil_l in R2.
        rewrite (firstn_firstn_le 8 n) by lia. rewrite !skipn_firstn_comm.
        rewrite (firstn_firstn_le 8 (n - 8)) by lia. exact R2.
Qed.

(* every history whose byte count fits *)
Theorem sp_exec le junk c ops : length junk = 192%nat -> valid_ctor c -> Forall (valid_op true) ops ->
  ctor_weight c + op_weight ops < cw ->
  exists s, exec (sp_class cw le junk) c ops
    = Ok (aseg ab_au (sp_ar cw) (sp_start cw c) (segments [] ops), s) /\
    Rel (snd (arun ab_au (sp_ar cw) (sp_start cw c) ops)) s.
Proof.
  intros HJ HC HO HW. apply (refines_exec _ _ _ _ _ _ _ (sp_refines le junk)).
  - apply sp_construct; try assumption. lia.
  - exact HO.
  - pose proof (sp_start_weight c HC) as HS. destruct (sp_start cw c) as [[st k] l]. apply sp_aok; [exact HO|lia].
Qed.
(* the two-seed constructor *)
Theorem sp_exec2 le junk s1 s2 ops : length junk = 192%nat -> Forall (valid_op true) ops -> op_weight ops < cw ->
  exists s, run (sp_class cw le junk) (sp_seed2 junk s1 s2) ops
    = Ok (aseg ab_au (sp_ar cw) (sp_of (Spooky_init s1 s2), 0, []) (segments [] ops), s) /\
    Rel (snd (arun ab_au (sp_ar cw) (sp_of (Spooky_init s1 s2), 0, []) ops)) s.
Proof.
  intros HJ HO HW. pose proof (sp_refines le junk) as RF.
  destruct (run_refines _ _ _ _ _ _ _ RF ops (sp_of (Spooky_init s1 s2), 0, []) (sp_seed2 junk s1 s2)) as (s & E & R).
  - now apply sp_fresh.
  - exact HO.
  - apply sp_aok; [exact HO|]. cbn [length]. lia.
  - exists s. split; [|exact R]. rewrite E. do 2 f_equal.
    pose proof (arun_segments ab_au (sp_ar cw) (rf_nil _ _ _ _ _ _ _ RF) (rf_app _ _ _ _ _ _ _ RF) ops (sp_of (Spooky_init s1 s2), 0, []) []) as AS.
    rewrite (rf_nil _ _ _ _ _ _ _ RF) in AS. exact AS.
Qed.

(* the first result is the published function *)
Theorem sp_first s1 s2 l : fst (sp_ar cw (sp_of (Spooky_init s1 s2), 0, l)) = SpookyV2_128 s1 s2 l.
Proof.
  unfold sp_ar, SpookyV2_128, sp_fin_st. cbn [fst]. rewrite N.add_0_l. unfold sc_bufSize.
  replace (N.of_nat (length l) <? 192) with (Nat.ltb (length l) 192).
  2:{ destruct (Nat.ltb_spec (length l) 192); symmetry; [apply N.ltb_lt|apply N.ltb_ge]; lia. }
  destruct (Nat.ltb (length l) 192).
  - unfold Spooky_init, sp_of. destruct (Spooky_Short s1 s2 l) as [a b]. reflexivity.
  - unfold Spooky_Long. change sc_blockSize with 96%nat.
    assert (E : Spooky_init s1 s2 = sp_list (sp_of (Spooky_init s1 s2))) by reflexivity.
    set (st0 := sp_of (Spooky_init s1 s2)) in *. rewrite E. clearbody st0.
    rewrite <- (sp_fold_list (chunks 96 l) st0). rewrite <- sp_ce_of, <- sp_ce_list. reflexivity.
Qed.

End C.

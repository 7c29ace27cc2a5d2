(* ripemd_128 and ripemd_160: instances of the generic theory; transform() is the RIPEMD
   compression function. *)
From Verif Require Import Base BaseFacts SpecCommon Gen Hasher GenMD Words ModelRipemd SpecRipemd.
Open Scope N_scope.

(* a program that works on two independent halves *)
Lemma fold_pair {X Y I} (f : X * Y -> bool * I -> X * Y) (fl : X -> I -> X) (fr : Y -> I -> Y) prog :
  (forall b i x y, In (b, i) prog -> f (x, y) (b, i) = if b then (fl x i, y) else (x, fr y i)) ->
  forall x y, fold_left f prog (x, y) =
    (fold_left fl (map snd (filter fst prog)) x,
     fold_left fr (map snd (filter (fun t => negb (fst t)) prog)) y).
Proof.
  induction prog as [|[b i] prog IH]; intros H x y; [reflexivity|].
  cbn [fold_left filter fst]. rewrite H by now left.
  destruct b; cbn [negb map fold_left snd]; apply IH; intros; apply H; now right.
Qed.

Definition RMD_Ktab : list N := [0; 0x5a827999; 0x6ed9eba1; 0x8f1bbcdc; 0xa953fd4e].
Lemma RMD_K_ok i : RMD_K i = nth (i / 16) RMD_Ktab 0.
Proof.
  unfold RMD_K. generalize (i / 16)%nat. intros q.
  destruct q as [|[|[|[|[|q]]]]]; try (vm_compute; reflexivity). now destruct q.
Qed.
Definition RMD_Ktab' : list N := [0x50a28be6; 0x5c4dd124; 0x6d703ef3; 0x7a6d76e9].
Lemma RMD_K'_ok n i : RMD_K' n i = if Nat.eqb (i / 16) n then 0 else nth (i / 16) RMD_Ktab' 0.
Proof.
  unfold RMD_K'. generalize (i / 16)%nat. intros q. destruct (Nat.eqb q n); [reflexivity|].
  destruct q as [|[|[|[|q]]]]; try (vm_compute; reflexivity). destruct q; vm_compute; reflexivity.
Qed.
Lemma RMD_s_range i : (i < 80)%nat -> (0 < RMD_s i /\ RMD_s i < 32) /\ (0 < RMD_s' i /\ RMD_s' i < 32).
Proof.
  intros H. assert (HA : forallb (fun i => (0 <? RMD_s i) && (RMD_s i <? 32) &&
       ((0 <? RMD_s' i) && (RMD_s' i <? 32))) (seq 0 80) = true) by (vm_compute; reflexivity).
  rewrite forallb_forall in HA. specialize (HA i). rewrite in_seq in HA.
  specialize (HA (conj (Nat.le_0_l _) H)).
  apply andb_prop in HA. destruct HA as [A1 A2].
  apply andb_prop in A1. apply andb_prop in A2. destruct A1, A2.
  repeat split; now apply N.ltb_lt.
Qed.

(* ------------------------------------------------------------------ ripemd_128 *)
Definition rmd128_regs (lft : bool) (r : nat) :=
  if lft then
    match r with
    | 0%nat => (xA, xB, xC, xD)
    | 1%nat => (xD, xA, xB, xC)
    | 2%nat => (xC, xD, xA, xB)
    | _ => (xB, xC, xD, xA)
    end
  else
    match r with
    | 0%nat => (yA, yB, yC, yD)
    | 1%nat => (yD, yA, yB, yC)
    | 2%nat => (yC, yD, yA, yB)
    | _ => (yB, yC, yD, yA)
    end.
Definition rmd128_mk (t : bool * nat) : rmd128_ins :=
  let '(lft, i) := t in
  let '(a, b, c, d) := rmd128_regs lft (i mod 4) in
  if lft then (match (i / 16)%nat with 0%nat => JR1 | 1%nat => JR2 | 2%nat => JR3 | _ => JR4 end) a b c d (RMD_r i) (RMD_s i)
  else (match (i / 16)%nat with 0%nat => JRR1 | 1%nat => JRR2 | 2%nat => JRR3 | _ => JRR4 end) a b c d (RMD_r' i) (RMD_s' i).
Definition rmd128_order : list (bool * nat) :=
  flat_map (fun q => map (pair true) (seq (16 * q) 16) ++ map (pair false) (seq (16 * q) 16)) (seq 0 4).
Lemma rmd128_program_ok : rmd128_program = map rmd128_mk rmd128_order.
Proof. vm_compute. reflexivity. Qed.

Definition rmd128_view (i : nat) (v : rmd128_st) : RMD128_word :=
  let '(a, b, c, d) := rmd128_regs true (i mod 4) in
  (get8 (v, v) a, get8 (v, v) b, get8 (v, v) c, get8 (v, v) d).
Definition rmd128_unview (i : nat) (v : RMD128_word) : rmd128_st :=
  let '(a, b, c, d) := v in
  match (i mod 4)%nat with
  | 0%nat => (a, b, c, d)
  | 1%nat => (b, c, d, a)
  | 2%nat => (c, d, a, b)
  | _ => (d, a, b, c)
  end.
Lemma rmd128_view_unview i v : rmd128_view i (rmd128_unview i v) = v.
Proof.
  unfold rmd128_view, rmd128_unview. destruct v as [[[a b] c] d].
  assert (Hr : (i mod 4 < 4)%nat) by (apply Nat.mod_upper_bound; discriminate).
  generalize dependent (i mod 4)%nat. intros r Hr.
  destruct r as [|[|[|[|r]]]]; try (exfalso; lia); reflexivity.
Qed.

Lemma rmd128_sim X x y i : (i < 64)%nat ->
  rmd128_exec X (x, y) (rmd128_mk (true, i))
  = (rmd128_unview (1 + i)%nat (RMD128_left X (rmd128_view i x) i), y) /\
  rmd128_exec X (x, y) (rmd128_mk (false, i))
  = (x, rmd128_unview (1 + i)%nat (RMD128_right X (rmd128_view i y) i)).
Proof.
  intros Hi. destruct (RMD_s_range i ltac:(lia)) as [[S1 S2] [S3 S4]].
  unfold RMD128_left, RMD128_right, RMD128_step. rewrite RMD_K_ok, RMD_K'_ok.
  unfold rmd128_view, rmd128_mk, rmd128_unview, RMD_f.
  generalize (RMD_r i) (RMD_r' i). intros k k'.
  generalize dependent (RMD_s' i). generalize dependent (RMD_s i). intros s S1 S2 s' S3 S4.
  rewrite <- (Nat.add_mod_idemp_r 1 i) by discriminate.
  assert (Hr : (i mod 4 < 4)%nat) by (apply Nat.mod_upper_bound; discriminate).
  assert (Hq : (i / 16 < 4)%nat) by (apply Nat.div_lt_upper_bound; lia).
  generalize dependent (i mod 4)%nat. generalize dependent (i / 16)%nat. clear Hi i.
  intros q Hq r Hr. destruct x as [[[a b] c] d], y as [[[a' b'] c'] d'].
  assert (AR : forall a f x k, add32 a (add32 (add32 f x) k) = ADD 32 (ADD 32 (ADD 32 a f) x) k).
  { intros. change add32 with (ADD 32). add_norm. }
  destruct q as [|[|[|[|q]]]]; try (exfalso; lia);
  destruct r as [|[|[|[|r]]]]; try (exfalso; lia);
  cbn [rmd128_regs rmd128_exec Nat.add Nat.modulo Nat.divmod Nat.sub fst snd nth RMD_Ktab RMD_Ktab' Nat.eqb];
  unfold rmd128_step; cbn [get8 set8];
  rewrite !AR, !rotl32_ROTL by (assumption || reflexivity); split; reflexivity.
Qed.

Lemma rmd128_order_ok :
  map snd (filter fst rmd128_order) = seq 0 64 /\
  map snd (filter (fun t => negb (fst t)) rmd128_order) = seq 0 64 /\
  forallb (fun t => Nat.ltb (snd t) 64) rmd128_order = true.
Proof. repeat split; vm_compute; reflexivity. Qed.

Lemma rmd128_fold_ok X st :
  fold_left (rmd128_exec X) rmd128_program (st, st) =
  (fold_left (RMD128_left X) (seq 0 64) st, fold_left (RMD128_right X) (seq 0 64) st).
Proof.
  rewrite rmd128_program_ok, fold_left_map.
  destruct rmd128_order_ok as (O1 & O2 & O3). rewrite forallb_forall in O3.
  rewrite (fold_pair _ (fun x i => rmd128_unview (1 + i) (RMD128_left X (rmd128_view i x) i))
                       (fun y i => rmd128_unview (1 + i) (RMD128_right X (rmd128_view i y) i))).
  2:{ intros b i x y Hin. apply O3 in Hin. cbn [snd] in Hin. apply Nat.ltb_lt in Hin.
      destruct (rmd128_sim X x y i Hin) as [A1 A2]. destruct b; assumption. }
  rewrite O1, O2.
  assert (V : forall v, rmd128_view 0 v = v /\ rmd128_view 64 v = v).
  { intros [[[? ?] ?] ?]. split; reflexivity. }
  f_equal.
  - pose proof (fold_sim (fun x i => rmd128_unview (1 + i) (RMD128_left X (rmd128_view i x) i))
      (RMD128_left X) rmd128_view 64 (fun i s _ => rmd128_view_unview _ _) 64 0 st (le_n _)) as Sim.
    rewrite (proj1 (V st)), (proj2 (V _)) in Sim. exact Sim.
  - pose proof (fold_sim (fun x i => rmd128_unview (1 + i) (RMD128_right X (rmd128_view i x) i))
      (RMD128_right X) rmd128_view 64 (fun i s _ => rmd128_view_unview _ _) 64 0 st (le_n _)) as Sim.
    rewrite (proj1 (V st)), (proj2 (V _)) in Sim. exact Sim.
Qed.

Lemma rmd128_transform_ok pf st l : (64 <= length l)%nat -> bytes l ->
  rmd128_transform pf st (Ptr l) = Ok (RMD128_compress st (firstn 64 l)).
Proof.
  intros HL HB. unfold rmd128_transform, RMD128_compress.
  rewrite (words_of_block (read32le pf) LE 4 16); [|lia|apply read32le_ok|lia|assumption].
  cbn [bind]. change (16 * 4)%nat with 64%nat.
  generalize (map LE (chunks 4 (firstn 64 l))) as X. intros X.
  rewrite rmd128_fold_ok.
  destruct (fold_left (RMD128_left X) (seq 0 64) st) as [[[a b] c] d].
  destruct (fold_left (RMD128_right X) (seq 0 64) st) as [[[a' b'] c'] d'].
  destruct st as [[[s0 s1] s2] s3]. cbv zeta. change add32 with (ADD 32).
  rewrite (ADD_comm 32 d' (ADD 32 c s1)), (ADD_comm 32 c s1). reflexivity.
Qed.

Definition rmd128_class (pf : plat) : hasher :=
  {| h_S := bst rmd128_st; h_R := list N; h_init := rmd128_init;
     h_seed := rmd128_seed pf; h_bytes := rmd128_bytes pf;
     h_update := rmd128_update pf; h_result := rmd128_result pf |}.

Definition rmd128_bl pf (st : rmd128_st) (p : ptr) (n : nat) := rmd128_blocks pf n st p n.
Definition rmd128_bits (n : N) : list N := le_bytes 8 (mul64 n 8).

Lemma rmd128_update_gen pf :
  rmd128_update pf = gen_update rmd128_st 64 true true (2^64) pf (rmd128_transform pf) (rmd128_bl pf).
Proof. reflexivity. Qed.

Lemma rmd128_result_gen pf s :
  rmd128_result pf s =
  gen_result rmd128_st 64 8 true true pf (rmd128_transform pf) (rmd128_bl pf) rmd128_bits (list N) RMD128_out s.
Proof.
  unfold rmd128_result, gen_result, rmd128_bits. rewrite <- rmd128_update_gen, write64le_ok.
  change (N.of_nat 64) with 64. destruct (assert_ _); try reflexivity. cbn [bind].
  change (64 - 8)%nat with 56%nat. change (64 + 56)%nat with 120%nat. change (64 - 1)%nat with 63%nat.
  destruct (rmd128_update pf s _ _) as [s1| | |]; try reflexivity. cbn [bind].
  destruct (rmd128_update pf s1 _ _) as [s2| | |]; try reflexivity. cbn [bind].
  destruct (assert_ _); try reflexivity. cbn [bind].
  destruct (b_st s2) as [[[h0 h1] h2] h3]. unfold RMD128_out. cbn [map concat].
  rewrite !write32le_ok, app_nil_r. reflexivity.
Qed.

Lemma rmd128_blocks_w pf fuel : forall st p n,
  rmd128_blocks pf fuel st p n = wblocks rmd128_st 64 (rmd128_transform pf) fuel st p n.
Proof.
  induction fuel as [|fuel IH]; intros st p n; [reflexivity|].
  cbn [rmd128_blocks wblocks]. destruct (Nat.leb 64 n); [|reflexivity].
  destruct (rmd128_transform pf st p); try reflexivity. cbn [bind].
  destruct (padd p 64); try reflexivity. cbn [bind]. apply IH.
Qed.

Lemma rmd128_bl_ok pf st l n : (n <= length l)%nat -> bytes l ->
  rmd128_bl pf st (Ptr l) n =
  Ok (fold_left RMD128_compress (chunks 64 (firstn n l)) st, Ptr (skipn (64 * (n / 64)) l), (n mod 64)%nat).
Proof.
  intros Hn Hl. unfold rmd128_bl. rewrite rmd128_blocks_w.
  apply wblocks_ok; [lia| |lia|assumption|assumption]. intros. now apply rmd128_transform_ok.
Qed.

Theorem rmd128_ok pf : md_ok rmd128_st (list N) 64 true RMD_pad RIPEMD128
  rmd128_init (rmd128_seed pf) (rmd128_bytes pf) (rmd128_update pf) (rmd128_result pf).
Proof.
  eapply (md_ok_intro rmd128_st 64 8 true true pf (rmd128_transform pf) (rmd128_bl pf) RMD128_compress rmd128_bits (list N) RMD128_out) with (iv := RMD128_IV).
  - lia.
  - lia.
  - apply cnt_ok_64.
  - intros. now apply rmd128_transform_ok.
  - intros. now apply rmd128_bl_ok.
  - intros v. split; [apply le_bytes_bytes|apply le_bytes_length].
  - reflexivity.
  - apply rmd128_update_gen.
  - apply rmd128_result_gen.
  - intros n. unfold rmd128_seed. rewrite write64le_ok. reflexivity.
  - reflexivity.
  - intros l. unfold padm, RMD_pad, MDpad, rmd128_bits. rewrite le64_bits. reflexivity.
  - reflexivity.
Qed.

(* ------------------------------------------------------------------ ripemd_160 *)
Definition rmd160_regs (lft : bool) (r : nat) :=
  if lft then
    match r with
    | 0%nat => (zxA, zxB, zxC, zxD, zxE)
    | 1%nat => (zxE, zxA, zxB, zxC, zxD)
    | 2%nat => (zxD, zxE, zxA, zxB, zxC)
    | 3%nat => (zxC, zxD, zxE, zxA, zxB)
    | _ => (zxB, zxC, zxD, zxE, zxA)
    end
  else
    match r with
    | 0%nat => (zyA, zyB, zyC, zyD, zyE)
    | 1%nat => (zyE, zyA, zyB, zyC, zyD)
    | 2%nat => (zyD, zyE, zyA, zyB, zyC)
    | 3%nat => (zyC, zyD, zyE, zyA, zyB)
    | _ => (zyB, zyC, zyD, zyE, zyA)
    end.
Definition rmd160_mk (t : bool * nat) : rmd160_ins :=
  let '(lft, i) := t in
  let '(a, b, c, d, e) := rmd160_regs lft (i mod 5) in
  if lft then (match (i / 16)%nat with 0%nat => KR1 | 1%nat => KR2 | 2%nat => KR3 | 3%nat => KR4 | _ => KR5 end) a b c d e (RMD_r i) (RMD_s i)
  else (match (i / 16)%nat with 0%nat => KRR1 | 1%nat => KRR2 | 2%nat => KRR3 | 3%nat => KRR4 | _ => KRR5 end) a b c d e (RMD_r' i) (RMD_s' i).
Definition rmd160_order : list (bool * nat) :=
  flat_map (fun q => map (pair true) (seq (16 * q) 16) ++ map (pair false) (seq (16 * q) 16)) (seq 0 5).
Lemma rmd160_program_ok : rmd160_program = map rmd160_mk rmd160_order.
Proof. vm_compute. reflexivity. Qed.

Definition rmd160_view (i : nat) (v : rmd160_st) : RMD160_word :=
  let '(a, b, c, d, e) := rmd160_regs true (i mod 5) in
  (get10 (v, v) a, get10 (v, v) b, get10 (v, v) c, get10 (v, v) d, get10 (v, v) e).
Definition rmd160_unview (i : nat) (v : RMD160_word) : rmd160_st :=
  let '(a, b, c, d, e) := v in
  match (i mod 5)%nat with
  | 0%nat => (a, b, c, d, e)
  | 1%nat => (b, c, d, e, a)
  | 2%nat => (c, d, e, a, b)
  | 3%nat => (d, e, a, b, c)
  | _ => (e, a, b, c, d)
  end.
Lemma rmd160_view_unview i v : rmd160_view i (rmd160_unview i v) = v.
Proof.
  unfold rmd160_view, rmd160_unview. destruct v as [[[[a b] c] d] e].
  assert (Hr : (i mod 5 < 5)%nat) by (apply Nat.mod_upper_bound; discriminate).
  generalize dependent (i mod 5)%nat. intros r Hr.
  destruct r as [|[|[|[|[|r]]]]]; try (exfalso; lia); reflexivity.
Qed.

Lemma rmd160_sim X x y i : (i < 80)%nat ->
  rmd160_exec X (x, y) (rmd160_mk (true, i))
  = (rmd160_unview (1 + i)%nat (RMD160_left X (rmd160_view i x) i), y) /\
  rmd160_exec X (x, y) (rmd160_mk (false, i))
  = (x, rmd160_unview (1 + i)%nat (RMD160_right X (rmd160_view i y) i)).
Proof.
  intros Hi. destruct (RMD_s_range i ltac:(lia)) as [[S1 S2] [S3 S4]].
  unfold RMD160_left, RMD160_right, RMD160_step. rewrite RMD_K_ok, RMD_K'_ok.
  unfold rmd160_view, rmd160_mk, rmd160_unview, RMD_f.
  generalize (RMD_r i) (RMD_r' i). intros k k'.
  generalize dependent (RMD_s' i). generalize dependent (RMD_s i). intros s S1 S2 s' S3 S4.
  rewrite <- (Nat.add_mod_idemp_r 1 i) by discriminate.
  assert (Hr : (i mod 5 < 5)%nat) by (apply Nat.mod_upper_bound; discriminate).
  assert (Hq : (i / 16 < 5)%nat) by (apply Nat.div_lt_upper_bound; lia).
  generalize dependent (i mod 5)%nat. generalize dependent (i / 16)%nat. clear Hi i.
  intros q Hq r Hr. destruct x as [[[[a b] c] d] e], y as [[[[a' b'] c'] d'] e'].
  assert (AR : forall a f x k, add32 a (add32 (add32 f x) k) = ADD 32 (ADD 32 (ADD 32 a f) x) k).
  { intros. change add32 with (ADD 32). add_norm. }
  destruct q as [|[|[|[|[|q]]]]]; try (exfalso; lia);
  destruct r as [|[|[|[|[|r]]]]]; try (exfalso; lia);
  cbn [rmd160_regs rmd160_exec Nat.add Nat.modulo Nat.divmod Nat.sub fst snd nth RMD_Ktab RMD_Ktab' Nat.eqb];
  unfold rmd160_step; cbn [get10 set10];
  rewrite !AR, !rotl32_ROTL by (assumption || reflexivity); split; reflexivity.
Qed.

Lemma rmd160_order_ok :
  map snd (filter fst rmd160_order) = seq 0 80 /\
  map snd (filter (fun t => negb (fst t)) rmd160_order) = seq 0 80 /\
  forallb (fun t => Nat.ltb (snd t) 80) rmd160_order = true.
Proof. repeat split; vm_compute; reflexivity. Qed.

Lemma rmd160_fold_ok X st :
  fold_left (rmd160_exec X) rmd160_program (st, st) =
  (fold_left (RMD160_left X) (seq 0 80) st, fold_left (RMD160_right X) (seq 0 80) st).
Proof.
  rewrite rmd160_program_ok, fold_left_map.
  destruct rmd160_order_ok as (O1 & O2 & O3). rewrite forallb_forall in O3.
  rewrite (fold_pair _ (fun x i => rmd160_unview (1 + i) (RMD160_left X (rmd160_view i x) i))
                       (fun y i => rmd160_unview (1 + i) (RMD160_right X (rmd160_view i y) i))).
  2:{ intros b i x y Hin. apply O3 in Hin. cbn [snd] in Hin. apply Nat.ltb_lt in Hin.
      destruct (rmd160_sim X x y i Hin) as [A1 A2]. destruct b; assumption. }
  rewrite O1, O2.
  assert (V : forall v, rmd160_view 0 v = v /\ rmd160_view 80 v = v).
  { intros [[[[? ?] ?] ?] ?]. split; reflexivity. }
  f_equal.
  - pose proof (fold_sim (fun x i => rmd160_unview (1 + i) (RMD160_left X (rmd160_view i x) i))
      (RMD160_left X) rmd160_view 80 (fun i s _ => rmd160_view_unview _ _) 80 0 st (le_n _)) as Sim.
    rewrite (proj1 (V st)), (proj2 (V _)) in Sim. exact Sim.
  - pose proof (fold_sim (fun x i => rmd160_unview (1 + i) (RMD160_right X (rmd160_view i x) i))
      (RMD160_right X) rmd160_view 80 (fun i s _ => rmd160_view_unview _ _) 80 0 st (le_n _)) as Sim.
    rewrite (proj1 (V st)), (proj2 (V _)) in Sim. exact Sim.
Qed.

Lemma rmd160_transform_ok pf st l : (64 <= length l)%nat -> bytes l ->
  rmd160_transform pf st (Ptr l) = Ok (RMD160_compress st (firstn 64 l)).
Proof.
  intros HL HB. unfold rmd160_transform, RMD160_compress.
  rewrite (words_of_block (read32le pf) LE 4 16); [|lia|apply read32le_ok|lia|assumption].
  cbn [bind]. change (16 * 4)%nat with 64%nat.
  generalize (map LE (chunks 4 (firstn 64 l))) as X. intros X.
  rewrite rmd160_fold_ok.
  destruct (fold_left (RMD160_left X) (seq 0 80) st) as [[[[a b] c] d] e].
  destruct (fold_left (RMD160_right X) (seq 0 80) st) as [[[[a' b'] c'] d'] e'].
  destruct st as [[[[s0 s1] s2] s3] s4]. cbv zeta. change add32 with (ADD 32).
  rewrite (ADD_comm 32 d' (ADD 32 c s1)), (ADD_comm 32 c s1). reflexivity.
Qed.

Definition rmd160_class (pf : plat) : hasher :=
  {| h_S := bst rmd160_st; h_R := list N; h_init := rmd160_init;
     h_seed := rmd160_seed pf; h_bytes := rmd160_bytes pf;
     h_update := rmd160_update pf; h_result := rmd160_result pf |}.

Definition rmd160_bl pf (st : rmd160_st) (p : ptr) (n : nat) := rmd160_blocks pf n st p n.
Definition rmd160_bits (n : N) : list N := le_bytes 8 (mul64 n 8).

Lemma rmd160_update_gen pf :
  rmd160_update pf = gen_update rmd160_st 64 true true (2^64) pf (rmd160_transform pf) (rmd160_bl pf).
Proof. reflexivity. Qed.

Lemma rmd160_result_gen pf s :
  rmd160_result pf s =
  gen_result rmd160_st 64 8 true true pf (rmd160_transform pf) (rmd160_bl pf) rmd160_bits (list N) RMD160_out s.
Proof.
  unfold rmd160_result, gen_result, rmd160_bits. rewrite <- rmd160_update_gen, write64le_ok.
  change (N.of_nat 64) with 64. destruct (assert_ _); try reflexivity. cbn [bind].
  change (64 - 8)%nat with 56%nat. change (64 + 56)%nat with 120%nat. change (64 - 1)%nat with 63%nat.
  destruct (rmd160_update pf s _ _) as [s1| | |]; try reflexivity. cbn [bind].
  destruct (rmd160_update pf s1 _ _) as [s2| | |]; try reflexivity. cbn [bind].
  destruct (assert_ _); try reflexivity. cbn [bind].
  destruct (b_st s2) as [[[[h0 h1] h2] h3] h4]. unfold RMD160_out. cbn [map concat].
  rewrite !write32le_ok, app_nil_r. reflexivity.
Qed.

Lemma rmd160_blocks_w pf fuel : forall st p n,
  rmd160_blocks pf fuel st p n = wblocks rmd160_st 64 (rmd160_transform pf) fuel st p n.
Proof.
  induction fuel as [|fuel IH]; intros st p n; [reflexivity|].
  cbn [rmd160_blocks wblocks]. destruct (Nat.leb 64 n); [|reflexivity].
  destruct (rmd160_transform pf st p); try reflexivity. cbn [bind].
  destruct (padd p 64); try reflexivity. cbn [bind]. apply IH.
Qed.

Lemma rmd160_bl_ok pf st l n : (n <= length l)%nat -> bytes l ->
  rmd160_bl pf st (Ptr l) n =
  Ok (fold_left RMD160_compress (chunks 64 (firstn n l)) st, Ptr (skipn (64 * (n / 64)) l), (n mod 64)%nat).
Proof.
  intros Hn Hl. unfold rmd160_bl. rewrite rmd160_blocks_w.
  apply wblocks_ok; [lia| |lia|assumption|assumption]. intros. now apply rmd160_transform_ok.
Qed.

Theorem rmd160_ok pf : md_ok rmd160_st (list N) 64 true RMD_pad RIPEMD160
  rmd160_init (rmd160_seed pf) (rmd160_bytes pf) (rmd160_update pf) (rmd160_result pf).
Proof.
  eapply (md_ok_intro rmd160_st 64 8 true true pf (rmd160_transform pf) (rmd160_bl pf) RMD160_compress rmd160_bits (list N) RMD160_out) with (iv := RMD160_IV).
  - lia.
  - lia.
  - apply cnt_ok_64.
  - intros. now apply rmd160_transform_ok.
  - intros. now apply rmd160_bl_ok.
  - intros v. split; [apply le_bytes_bytes|apply le_bytes_length].
  - reflexivity.
  - apply rmd160_update_gen.
  - apply rmd160_result_gen.
  - intros n. unfold rmd160_seed. rewrite write64le_ok. reflexivity.
  - reflexivity.
  - intros l. unfold padm, RMD_pad, MDpad, rmd160_bits. rewrite le64_bits. reflexivity.
  - reflexivity.
Qed.

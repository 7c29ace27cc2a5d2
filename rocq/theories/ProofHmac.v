(* hmac<H> for every H shown to be a Merkle-Damgard hash function (md_ok). *)
From Verif Require Import Base BaseFacts SpecCommon Hasher SpecHmac ModelHmac.
Open Scope N_scope.

(* results of a history, given the two virtual messages (see Hasher.v, Section Virtual) *)
Section HVirtual.
Variables (pad : list N -> list N) (H : list N -> list N).
Fixpoint hresults (mi mo : list N) (segs : list (list N)) : list (list N) :=
  match segs with
  | [] => []
  | [_] => []
  | d :: t => H (mo ++ H (mi ++ d)) :: hresults (pad (mi ++ d)) (pad (mo ++ H (mi ++ d))) t
  end.
End HVirtual.

(* the key of a constructor call: integers are 8 little-endian bytes, zero is the empty key *)
Definition hkey (c : ctor) : list N :=
  match c with
  | CDefault => []
  | CSeed n => if n =? 0 then [] else toLE 8 n
  | CBytes p n => data p n
  end.

Lemma lxor_lt256 a b : a < 256 -> b < 256 -> N.lxor a b < 256.
Proof.
  intros Ha Hb. change 256 with (2^8) in *.
  destruct (N.eq_dec (N.lxor a b) 0) as [->|Hz]; [reflexivity|].
  apply N.log2_lt_pow2; [lia|]. pose proof (N.log2_lxor a b) as HL.
  assert (La : N.log2 a < 8) by (destruct (N.eq_dec a 0) as [->|]; [reflexivity|apply N.log2_lt_pow2; [lia|exact Ha]]).
  assert (Lb : N.log2 b < 8) by (destruct (N.eq_dec b 0) as [->|]; [reflexivity|apply N.log2_lt_pow2; [lia|exact Hb]]).
  lia.
Qed.

Section Hmac.
Variable St : Type.
Variable B : nat.
Variable nul : bool.
Variable pad : list N -> list N.
Variable H : list N -> list N.
Variable init : bst St.
Variable seedf : N -> res (bst St).
Variable bytesf : ptr -> nat -> res (bst St).
Variable updf : bst St -> ptr -> nat -> res (bst St).
Variable resf : bst St -> res (list N * bst St).
Hypothesis MO : md_ok St (list N) B nul pad H init seedf bytesf updf resf.
Variable D : nat.
Hypothesis HD : (0 < D <= B)%nat.
Hypothesis HL : forall l, length (H l) = D.
Hypothesis HB : forall l, bytes (H l).
Variable pf : plat.

Notation hst := (hmac_st (bst St)).
Notation hau := (fun (a : list N * list N) (d : list N) => (fst a ++ d, snd a)).
Notation har := (fun a : list N * list N => (H (snd a ++ H (fst a)), (pad (fst a), pad (snd a ++ H (fst a))))).
Notation hinit := (hmac_init pf (bst St) init updf resf B).
(* hmac.hpp:93-96: hmac() { init( 0, 0 ); } *)
Definition hmac_default : hst :=
  match hinit Null 0 with Ok s => s | _ => mkH init init end.
Definition hmac_class : hasher :=
  {| h_S := hst; h_R := list N; h_init := hmac_default;
     h_seed := hmac_seed pf (bst St) init updf resf B;
     h_bytes := hinit;
     h_update := hmac_update (bst St) updf;
     h_result := hmac_result (bst St) updf resf |}.

(* ---------- the key block ---------- *)
Lemma splice_zeros d : (length d <= B)%nat -> splice (zeros B) 0 d = d ++ zeros (B - length d).
Proof. intros L. unfold splice. cbn [firstn app Nat.add]. f_equal. now rewrite skipn_zeros. Qed.

Lemma hmac_key_length K : length (HMAC_key B H K) = B.
Proof.
  unfold HMAC_key. destruct (Nat.leb_spec (length K) B); rewrite app_length, repeat_length, ?HL; lia.
Qed.
Lemma hmac_key_bytes K : bytes K -> bytes (HMAC_key B H K).
Proof.
  intros Hb. unfold HMAC_key. apply bytes_app. split; [|apply bytes_zeros].
  destruct (Nat.leb (length K) B); [exact Hb|apply HB].
Qed.
Lemma xor_bytes x K : x < 256 -> bytes K -> bytes (map (N.lxor x) K).
Proof.
  intros Hx Hb. induction Hb as [|b K Hb1 Hb2 IH]; cbn [map]; constructor; [|exact IH].
  now apply lxor_lt256.
Qed.
Lemma map_ikey K : bytes K -> map (fun b => N.lxor b 0x36 mod 256) K = map (N.lxor 0x36) K.
Proof.
  induction 1 as [|b K Hb1 Hb2 IH]; cbn [map]; [reflexivity|]. rewrite IH. f_equal.
  rewrite N.lxor_comm. apply N.mod_small. now apply lxor_lt256.
Qed.
Lemma map_okey K : bytes K ->
  map (fun b => N.lxor (N.lxor b 0x36) 0x5C mod 256) (map (N.lxor 0x36) K) = map (N.lxor 0x5C) K.
Proof.
  induction 1 as [|b K Hb1 Hb2 IH]; cbn [map]; [reflexivity|]. rewrite IH. f_equal.
  replace (N.lxor (N.lxor (N.lxor 54 b) 54) 92) with (N.lxor 92 b).
  - apply N.mod_small. now apply lxor_lt256.
  - rewrite (N.lxor_comm 54 b), (N.lxor_assoc b 54 54), N.lxor_nilpotent, N.lxor_0_r. apply N.lxor_comm.
Qed.

Theorem hmac_spec : exists Rel : list N * list N -> hst -> Prop,
  refines hmac_class nul (list N * list N) (fun a d => (fst a ++ d, snd a))
    (fun a => (H (snd a ++ H (fst a)), (pad (fst a), pad (snd a ++ H (fst a))))) (fun _ => True) Rel /\
  (forall p n, valid_arg true p n -> exists s, hinit p n = Ok s /\
      Rel (HMAC_ikey B H (data p n), HMAC_okey B H (data p n)) s) /\
  (forall a s1 s2, Rel a s1 -> Rel a s2 -> s1 = s2) /\
  (forall mi mo s, Rel (mi, mo) s ->
     (b_m (hm_inner s) = length mi mod B)%nat /\
     b_buf (hm_inner s) = skipn (B * (length mi / B)) mi ++ zeros (B - length mi mod B) /\
     (b_m (hm_outer s) = length mo mod B)%nat /\
     b_buf (hm_outer s) = skipn (B * (length mo / B)) mo ++ zeros (B - length mo mod B)).
Proof.
  destruct (mo_refines _ _ _ _ _ _ _ _ _ _ _ MO) as (R & R0 & RF & RU & RS & _).
  destruct RF as [Fu Fr _ _]. cbn [h_update h_result h_S h_R] in Fu, Fr.
  exists (fun a s => R (fst a) (hm_inner s) /\ R (snd a) (hm_outer s)).
  split; [|split; [|split]].
  - constructor; cbn [h_update h_result hmac_class fst snd].
    + intros [mi mo] s p n [R1 R2] _ HV _. cbn [fst snd] in *.
      destruct (Fu mi (hm_inner s) p n R1 I HV I) as (s1 & E1 & R1').
      unfold hmac_update. rewrite E1. cbn [bind]. eexists. split; [reflexivity|]. cbn [hm_inner hm_outer]. auto.
    + intros [mi mo] s [R1 R2] _ _. cbn [fst snd] in *.
      destruct (Fr mi (hm_inner s) R1 I I) as (s1 & E1 & R1'). cbn [fst snd] in E1, R1'.
      assert (HV : valid_arg nul (Ptr (H mi)) (length (H mi))) by (split; [lia|apply HB]).
      destruct (Fu mo (hm_outer s) (Ptr (H mi)) (length (H mi)) R2 I HV I) as (s2 & E2 & R2').
      cbn [data] in R2'. rewrite firstn_all in R2'.
      destruct (Fr _ s2 R2' I I) as (s3 & E3 & R3). cbn [fst snd] in E3, R3.
      unfold hmac_result. rewrite E1. cbn [bind]. rewrite E2. cbn [bind]. rewrite E3. cbn [bind].
      eexists. split; [reflexivity|]. cbn [hm_inner hm_outer]. auto.
    + intros [mi mo]. cbn [fst snd]. now rewrite app_nil_r.
    + intros [mi mo] d1 d2. cbn [fst snd]. now rewrite app_assoc.
  - intros p n HV. pose proof (valid_data _ _ _ HV) as [Hdb Hdl].
    assert (EK : hmac_key pf (bst St) init updf resf B p n = Ok (HMAC_key B H (data p n))).
    { unfold hmac_key, HMAC_key. cbv zeta. rewrite Hdl. destruct (Nat.eqb_spec n 0) as [->|Hn].
      - destruct (data p 0); [|discriminate]. cbn [length Nat.leb app]. rewrite Nat.sub_0_r. reflexivity.
      - destruct p as [|l]; [destruct HV; lia|]. cbn [valid_arg data] in *. destruct HV as [HV1 HV2].
        destruct (Nat.leb_spec n B) as [HnB|HnB].
        + rewrite memcpy_ok by (rewrite ?zeros_length; lia).
          rewrite splice_zeros by lia. reflexivity.
        + destruct (Fu [] init (Ptr l) n R0 I (conj HV1 HV2) I) as (s1 & E1 & R1). rewrite E1. cbn [bind].
          destruct (Fr _ s1 R1 I I) as (s2 & E2 & R2). rewrite E2. cbn [bind fst]. rewrite app_nil_l.
          cbn [data]. rewrite HL. replace (Nat.ltb B D) with false by (symmetry; apply Nat.ltb_ge; lia).
          rewrite memcpy_ok by (rewrite ?zeros_length, ?HL; lia).
          rewrite firstn_all2 by (rewrite HL; lia). rewrite splice_zeros by (rewrite HL; lia). rewrite HL. reflexivity. }
    unfold hmac_init. rewrite EK. cbn [bind]. clear EK. cbv zeta.
    pose proof (hmac_key_length (data p n)) as LK. pose proof (hmac_key_bytes (data p n) Hdb) as BK.
    unfold HMAC_ikey, HMAC_okey. set (K := HMAC_key B H (data p n)) in *. clearbody K.
    rewrite map_ikey by exact BK. rewrite map_okey by exact BK.
    assert (V : forall x, x < 256 -> valid_arg nul (Ptr (map (N.lxor x) K)) B).
    { intros x Hx. split; [rewrite map_length; lia|now apply xor_bytes]. }
    destruct (Fu [] init _ B R0 I (V 0x36 eq_refl) I) as (s1 & E1 & R1). rewrite E1. cbn [bind].
    destruct (Fu [] init _ B R0 I (V 0x5C eq_refl) I) as (s2 & E2 & R2). rewrite E2. cbn [bind].
    eexists. split; [reflexivity|]. cbn [hm_inner hm_outer fst snd].
    cbn [data app] in R1, R2. rewrite firstn_all2 in R1, R2 by (rewrite map_length; lia). auto.
  - intros [mi mo] [o1 i1] [o2 i2] [A1 A2] [B1 B2]. cbn [fst snd hm_inner hm_outer] in *.
    now rewrite (RU _ _ _ A1 B1), (RU _ _ _ A2 B2).
  - intros mi mo s [R1 R2]. cbn [fst snd] in *.
    destruct (RS _ _ R1) as (? & _ & ?). destruct (RS _ _ R2) as (? & _ & ?). auto.
Qed.

(* the default constructor never fails *)
Theorem hmac_default_ok : hinit Null 0 = Ok hmac_default.
Proof.
  destruct hmac_spec as (Rel & _ & HI & _). destruct (HI Null 0%nat (conj eq_refl eq_refl)) as (s & E & _).
  unfold hmac_default. rewrite E. reflexivity.
Qed.

Lemma hresults_aseg segs : forall mi mo,
  aseg (fun a d => (fst a ++ d, snd a))
    (fun a : list N * list N => (H (snd a ++ H (fst a)), (pad (fst a), pad (snd a ++ H (fst a))))) (mi, mo) segs
  = hresults pad H mi mo segs.
Proof.
  induction segs as [|d t IH]; intros mi mo; [reflexivity|]. destruct t as [|d2 t]; [reflexivity|].
  change (H (mo ++ H (mi ++ d)) ::
     aseg (fun a d => (fst a ++ d, snd a)) (fun a : list N * list N => (H (snd a ++ H (fst a)), (pad (fst a), pad (snd a ++ H (fst a)))))
       (pad (mi ++ d), pad (mo ++ H (mi ++ d))) (d2 :: t)
   = H (mo ++ H (mi ++ d)) :: hresults pad H (pad (mi ++ d)) (pad (mo ++ H (mi ++ d))) (d2 :: t)).
  now rewrite IH.
Qed.

Lemma hmac_construct_eq c : valid_ctor c -> construct hmac_class c =
  match c with
  | CBytes p n => hinit p n
  | _ => if Nat.eqb (length (hkey c)) 0 then hinit Null 0 else hinit (Ptr (hkey c)) 8
  end.
Proof.
  destruct c as [|n|p n]; cbn [construct hmac_class h_init h_seed h_bytes hkey].
  - intros _. cbn [length Nat.eqb]. symmetry. apply hmac_default_ok.
  - intros _. unfold hmac_seed. destruct (n =? 0); cbn [length Nat.eqb]; [reflexivity|].
    rewrite write64le_ok. reflexivity.
  - reflexivity.
Qed.

(* every history, and what the buffers then hold *)
Theorem hmac_exec c ops : valid_ctor c -> Forall (valid_op nul) ops ->
  exists s, exec hmac_class c ops =
    Ok (hresults pad H (HMAC_ikey B H (hkey c)) (HMAC_okey B H (hkey c)) (segments [] ops), s).
Proof.
  intros HC HO. destruct hmac_spec as (Rel & RF & HI & _).
  assert (exists s, construct hmac_class c = Ok s /\ Rel (HMAC_ikey B H (hkey c), HMAC_okey B H (hkey c)) s) as HS.
  { rewrite hmac_construct_eq by exact HC. destruct c as [|n|p n]; cbn [hkey].
    - exact (HI Null 0%nat (conj eq_refl eq_refl)).
    - destruct (n =? 0); cbn [length Nat.eqb]; [exact (HI Null 0%nat (conj eq_refl eq_refl))|].
      apply (HI (Ptr (toLE 8 n)) 8%nat). change toLE with le_bytes. split; [now rewrite le_bytes_length|apply le_bytes_bytes].
    - apply HI. exact HC. }
  unfold exec. destruct HS as (s0 & E0 & R0). rewrite E0. cbn [bind].
  destruct (run_refines _ _ _ _ _ _ _ RF ops _ s0 R0 HO (aok_true _ _ _ _)) as (s & E & _). exists s. rewrite E.
  do 2 f_equal. rewrite <- hresults_aseg.
  pose proof (arun_segments hau har (rf_nil _ _ _ _ _ _ _ RF) (rf_app _ _ _ _ _ _ _ RF) ops
                (HMAC_ikey B H (hkey c), HMAC_okey B H (hkey c)) []) as AS.
  cbn [fst snd] in AS. rewrite app_nil_r in AS. exact AS.
Qed.

(* the object, too, depends only on the effective key and on the segments *)
Theorem hmac_exec_eq c1 c2 ops1 ops2 : valid_ctor c1 -> valid_ctor c2 ->
  Forall (valid_op nul) ops1 -> Forall (valid_op nul) ops2 ->
  HMAC_key B H (hkey c1) = HMAC_key B H (hkey c2) -> segments [] ops1 = segments [] ops2 ->
  exec hmac_class c1 ops1 = exec hmac_class c2 ops2.
Proof.
  intros C1 C2 O1 O2 EK ES. destruct hmac_spec as (Rel & RF & HI & RU & _).
  assert (HS : forall c, valid_ctor c ->
     exists s, construct hmac_class c = Ok s /\ Rel (HMAC_ikey B H (hkey c), HMAC_okey B H (hkey c)) s).
  { intros c HC. rewrite hmac_construct_eq by exact HC. destruct c as [|n|p n]; cbn [hkey].
    - exact (HI Null 0%nat (conj eq_refl eq_refl)).
    - destruct (n =? 0); cbn [length Nat.eqb]; [exact (HI Null 0%nat (conj eq_refl eq_refl))|].
      apply (HI (Ptr (toLE 8 n)) 8%nat). change toLE with le_bytes. split; [now rewrite le_bytes_length|apply le_bytes_bytes].
    - apply HI. exact HC. }
  unfold exec. destruct (HS c1 C1) as (s1 & E1 & R1). destruct (HS c2 C2) as (s2 & E2 & R2).
  unfold HMAC_ikey, HMAC_okey in R1, R2. rewrite EK in R1.
  pose proof (RU _ _ _ R1 R2). subst s2. rewrite E1, E2. cbn [bind].
  destruct (run_refines _ _ _ _ _ _ _ RF ops1 _ s1 R1 O1 (aok_true _ _ _ _)) as (t1 & F1 & G1).
  destruct (run_refines _ _ _ _ _ _ _ RF ops2 _ s1 R2 O2 (aok_true _ _ _ _)) as (t2 & F2 & G2).
  pose proof (arun_final hau har (rf_nil _ _ _ _ _ _ _ RF) (rf_app _ _ _ _ _ _ _ RF)) as AF.
  rewrite AF in G1, G2. rewrite ES in G1. pose proof (RU _ _ _ G1 G2). subst t2.
  rewrite F1, F2. do 2 f_equal.
  set (a0 := (map (N.lxor 54) (HMAC_key B H (hkey c2)), map (N.lxor 92) (HMAC_key B H (hkey c2)))).
  pose proof (arun_segments hau har (rf_nil _ _ _ _ _ _ _ RF) (rf_app _ _ _ _ _ _ _ RF) ops1 a0 []) as A1.
  pose proof (arun_segments hau har (rf_nil _ _ _ _ _ _ _ RF) (rf_app _ _ _ _ _ _ _ RF) ops2 a0 []) as A2.
  unfold a0 in *. cbn [fst snd] in A1, A2. rewrite app_nil_r in A1, A2. rewrite ES, <- A2 in A1. exact A1.
Qed.

(* after result(), both objects are block aligned and their buffers are clear *)
Theorem hmac_result_clear c ops rs s : valid_ctor c -> Forall (valid_op nul) ops ->
  exec hmac_class c (ops ++ [OResult]) = Ok (rs, s) ->
  b_m (hm_inner s) = 0%nat /\ b_buf (hm_inner s) = zeros B /\
  b_m (hm_outer s) = 0%nat /\ b_buf (hm_outer s) = zeros B.
Proof.
  intros HC HO E. destruct hmac_spec as (Rel & RF & HI & RU & RS).
  assert (HS : exists s, construct hmac_class c = Ok s /\ Rel (HMAC_ikey B H (hkey c), HMAC_okey B H (hkey c)) s).
  { rewrite hmac_construct_eq by exact HC. destruct c as [|n|p n]; cbn [hkey].
    - exact (HI Null 0%nat (conj eq_refl eq_refl)).
    - destruct (n =? 0); cbn [length Nat.eqb]; [exact (HI Null 0%nat (conj eq_refl eq_refl))|].
      apply (HI (Ptr (toLE 8 n)) 8%nat). change toLE with le_bytes. split; [now rewrite le_bytes_length|apply le_bytes_bytes].
    - apply HI. exact HC. }
  destruct HS as (s0 & E0 & R0). unfold exec in E. rewrite E0 in E. cbn [bind] in E.
  assert (HO' : Forall (valid_op nul) (ops ++ [OResult])).
  { apply Forall_app. split; [exact HO|]. constructor; [exact I|constructor]. }
  destruct (run_refines _ _ _ _ _ _ _ RF (ops ++ [OResult]) _ s0 R0 HO' (aok_true _ _ _ _)) as (s' & E' & R').
  rewrite E' in E. injection E as _ <-.
  set (au := fun (a : list N * list N) d => (fst a ++ d, snd a)) in *.
  set (ar := fun a : list N * list N => (H (snd a ++ H (fst a)), (pad (fst a), pad (snd a ++ H (fst a))))) in *.
  assert (EA : forall ops a, exists a', snd (arun au ar a (ops ++ [OResult])) = (pad (fst a'), pad (snd a' ++ H (fst a')))).
  { clear. induction ops as [|[p n|] t IH]; intros a.
    - exists a. reflexivity.
    - cbn [app arun]. apply IH.
    - cbn [app arun]. unfold ar at 1. destruct (IH (pad (fst a), pad (snd a ++ H (fst a)))) as (a' & Ea). exists a'.
      destruct (arun au ar _ (t ++ [OResult])) as [rs a'']. exact Ea. }
  destruct (EA ops (HMAC_ikey B H (hkey c), HMAC_okey B H (hkey c))) as (a' & Ea).
  match type of R' with ?RR ?x s' => change x with (snd (arun au ar (HMAC_ikey B H (hkey c), HMAC_okey B H (hkey c)) (ops ++ [OResult]))) in R' end.
  rewrite Ea in R'.
  destruct (RS _ _ _ R') as (A1 & A2 & A3 & A4).
  pose proof (mo_pad _ _ _ _ _ _ _ _ _ _ _ MO) as MP.
  assert (Z : forall l, skipn (B * (length (pad l) / B)) (pad l) ++ zeros (B - length (pad l) mod B) = zeros B).
  { intros l. destruct (MP l) as [M0 _].
    pose proof (Nat.div_mod (length (pad l)) B ltac:(lia)) as DM. rewrite M0, Nat.add_0_r in DM.
    rewrite skipn_all2 by lia. rewrite M0, Nat.sub_0_r. reflexivity. }
  rewrite Z in A2, A4. rewrite (proj1 (MP _)) in A1. rewrite (proj1 (MP _)) in A3. auto.
Qed.
End Hmac.

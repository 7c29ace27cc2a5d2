(* C46: hmac<H> for any class H that meets the requirements for hash algorithms and has an
   array-like result_type and a block_size; in particular hmac< hmac<H> >, to any depth. *)
From Verif Require Import Base BaseFacts SpecCommon SpecMd5 Hasher Types ModelResult ModelAppend SpecAppend SpecHmac ModelHmac ProofHmac
  ProofMsg ProofAppend Behaves UserAlg Instances ProofRuns PropsHistory Samples PropsAppend PropsUser.
Open Scope N_scope.

(* hmac.hpp over a class [h] with block_size [B]; [dig r] are the elements of the result r *)
Section Class.
Variables (pf : plat) (h : hasher) (dig : h_R h -> list N) (B : nat).
Definition dig_result (s : h_S h) : res (list N * h_S h) := '(r, s) <- h_result h s ;; Ok (dig r, s).
Definition hmac_over : hasher :=
  {| h_S := hmac_st (h_S h); h_R := list N;
     h_init := match hmac_init pf (h_S h) (h_init h) (h_update h) dig_result B Null 0 with Ok s => s | _ => mkH (h_init h) (h_init h) end;
     h_seed := hmac_seed pf (h_S h) (h_init h) (h_update h) dig_result B;
     h_bytes := hmac_init pf (h_S h) (h_init h) (h_update h) dig_result B;
     h_update := hmac_update (h_S h) (h_update h);
     h_result := hmac_result (h_S h) (h_update h) dig_result |}.
(* the function computed by h: the result of a default-constructed object bytes_fed the bytes l *)
Definition function_of (l : list N) : list N :=
  match session h CDefault [OUpdate (Ptr l) (length l); OResult] with Ok [r] => dig r | _ => [] end.
End Class.

(* result_type is an array of D bytes *)
Definition digests (h : hasher) (nul : bool) (dig : h_R h -> list N) (D : nat) : Prop :=
  all_results h nul (fun r => length (dig r) = D /\ bytes (dig r)).

Definition upd (l : list N) : op := OUpdate (Ptr l) (length l).
(* what hmac does with the results of the inner hash *)
Definition outer_ops (rs : list (list N)) : list op := flat_map (fun r => [upd r; OResult]) rs.

(* the key: hashed when it is longer than B bytes; of a hash of more than B bytes, the first B
   (hmac.hpp:73; RFC 2104 only has hashes of at most B bytes) *)
Definition key_of (B : nat) (H : list N -> list N) (K : list N) : list N :=
  if Nat.leb (length K) B then K else firstn B (H K).

Section Hmac.
Variables (pf : plat) (h : hasher) (nul : bool) (dig : h_R h -> list N) (B D : nat).
Hypothesis HA : hash_algorithm h nul.
Hypothesis HG : digests h nul dig D.
Notation H := (function_of h dig).
Notation hm := (hmac_over pf h dig B).

Lemma upd_valid l : bytes l -> valid_op nul (upd l).
Proof. intros Hl. split; [apply le_n|exact Hl]. Qed.
Lemma function_ok l : bytes l -> exists s r s', h_update h (h_init h) (Ptr l) (length l) = Ok s /\
  h_result h s = Ok (r, s') /\ dig r = H l /\ length (H l) = D /\ bytes (H l).
Proof.
  intros Hl. assert (HV : Forall (valid_op nul) [upd l; OResult]) by (constructor; [now apply upd_valid|now constructor]).
  destruct (al_runs _ _ HA CDefault _ I HV) as (rs & E). pose proof (HG CDefault _ _ I HV E) as HR.
  unfold function_of. fold (upd l). rewrite E. unfold session in E. cbn [construct bind run upd] in E.
  destruct (h_update h (h_init h) (Ptr l) (length l)) as [s| | |]; cbn [bind] in E; try discriminate.
  destruct (h_result h s) as [[r s']| | |] eqn:ER; cbn [bind] in E; try discriminate. injection E as <-.
  inversion HR as [|? ? [H1 H2] _]; subst. exists s, r, s'. auto.
Qed.
(* update( p, n ) instead of update( data, n ) *)
Lemma function_ptr p n : valid_arg nul p n -> exists s r s', h_update h (h_init h) p n = Ok s /\
  h_result h s = Ok (r, s') /\ dig r = H (data p n).
Proof.
  intros Hp. assert (HV : Forall (valid_op nul) [OUpdate p n; OResult]) by (constructor; [exact Hp|now constructor]).
  destruct (valid_data _ _ _ Hp) as [Hb Hl].
  assert (HV2 : Forall (valid_op nul) [upd (data p n); OResult]) by (constructor; [now apply upd_valid|now constructor]).
  destruct (al_runs _ _ HA CDefault _ I HV) as (rs & E).
  unfold function_of. fold (upd (data p n)). rewrite <- (al_parts _ _ HA CDefault [OUpdate p n; OResult] _ I HV HV2), E.
  - unfold session in E. cbn [construct bind run] in E.
    destruct (h_update h (h_init h) p n) as [s| | |]; cbn [bind] in E; try discriminate.
    destruct (h_result h s) as [[r s']| | |] eqn:ER; cbn [bind] in E; try discriminate. injection E as <-. eauto 6.
  - cbn [segments app upd data]. now rewrite firstn_all.
Qed.
Lemma key_of_ok K : bytes K -> (length (key_of B H K) <= B)%nat /\ bytes (key_of B H K).
Proof.
  intros Hb. unfold key_of. destruct (Nat.leb_spec (length K) B) as [L|L]; [now split|].
  destruct (function_ok K Hb) as (_ & _ & _ & _ & _ & _ & HL & HB).
  split; [rewrite firstn_length; lia|]. now apply bytes_firstn.
Qed.
Lemma HK_eq K : bytes K -> HMAC_key B H (key_of B H K) = key_of B H K ++ repeat 0 (B - length (key_of B H K)).
Proof.
  intros Hb. destruct (key_of_ok K Hb) as [L _]. unfold HMAC_key. apply Nat.leb_le in L. now rewrite L.
Qed.
Lemma key_ok K : bytes K -> length (HMAC_key B H (key_of B H K)) = B /\ bytes (HMAC_key B H (key_of B H K)).
Proof.
  intros Hb. rewrite HK_eq by exact Hb. destruct (key_of_ok K Hb) as [L KB].
  split; [rewrite app_length, repeat_length; lia|]. apply bytes_app. split; [exact KB|apply bytes_zeros].
Qed.
Lemma pads_ok K x : x < 256 -> bytes K -> length (map (N.lxor x) (HMAC_key B H (key_of B H K))) = B /\ bytes (map (N.lxor x) (HMAC_key B H (key_of B H K))).
Proof. intros Hx Hb. destruct (key_ok K Hb). split; [now rewrite map_length|]. now apply xor_bytes. Qed.

Lemma key_block p n : valid_arg true p n ->
  hmac_key pf (h_S h) (h_init h) (h_update h) (dig_result h dig) B p n = Ok (HMAC_key B H (key_of B H (data p n))).
Proof.
  intros HV. pose proof (valid_data _ _ _ HV) as [Hdb Hdl]. rewrite HK_eq by exact Hdb.
  unfold hmac_key, key_of. cbv zeta. rewrite Hdl. destruct (Nat.eqb_spec n 0) as [->|Hn].
  - destruct (data p 0); [|discriminate]. cbn [length Nat.leb app]. rewrite Nat.sub_0_r. reflexivity.
  - destruct p as [|l]; [destruct HV; lia|].
    assert (HV' : valid_arg nul (Ptr l) n) by exact HV.
    destruct HV as [HV1 HV2].
    destruct (Nat.leb_spec n B) as [HnB|HnB].
    + rewrite memcpy_ok by (rewrite ?zeros_length; lia). cbn [data]. rewrite (splice_zeros B) by (rewrite firstn_length_le; lia).
      rewrite firstn_length_le by lia. reflexivity.
    + destruct (function_ptr (Ptr l) n HV') as (s & r & s' & E1 & E2 & E3). rewrite E1. cbn [bind].
      unfold dig_result. rewrite E2. cbn [bind]. rewrite E3.
      destruct (function_ok (data (Ptr l) n) Hdb) as (_ & _ & _ & _ & _ & _ & HL & HB). rewrite HL.
      assert (EF : firstn (if Nat.ltb B D then B else D) (H (data (Ptr l) n)) = firstn B (H (data (Ptr l) n))).
      { destruct (Nat.ltb_spec B D); [reflexivity|]. rewrite !firstn_all2 by (rewrite HL; lia). reflexivity. }
      assert (LE1 : ((if Nat.ltb B D then B else D) <= B)%nat) by (destruct (Nat.ltb_spec B D); lia).
      assert (LE2 : ((if Nat.ltb B D then B else D) <= D)%nat) by (destruct (Nat.ltb_spec B D); lia).
      rewrite memcpy_ok by (rewrite ?zeros_length, ?HL; lia).
      rewrite EF. rewrite (splice_zeros B) by (rewrite firstn_length; lia). reflexivity.
Qed.
Lemma init_ok p n : valid_arg true p n -> exists i o,
  h_bytes hm p n = Ok (mkH o i) /\
  h_update h (h_init h) (Ptr (HMAC_ikey B H (key_of B H (data p n)))) (length (HMAC_ikey B H (key_of B H (data p n)))) = Ok i /\
  h_update h (h_init h) (Ptr (HMAC_okey B H (key_of B H (data p n)))) (length (HMAC_okey B H (key_of B H (data p n)))) = Ok o.
Proof.
  intros HV. destruct (valid_data _ _ _ HV) as [Hb _]. destruct (key_ok _ Hb) as [KL KB].
  destruct (pads_ok _ 0x36 eq_refl Hb) as [IL IB]. destruct (pads_ok _ 0x5C eq_refl Hb) as [OL OB].
  destruct (function_ok _ IB) as (i & _ & _ & EI & _). destruct (function_ok _ OB) as (o & _ & _ & EO & _).
  exists i, o. cbn [h_bytes hmac_over]. unfold hmac_init. rewrite key_block by exact HV. cbn [bind]. cbv zeta beta.
  rewrite map_ikey by exact KB. rewrite map_okey by exact KB.
  unfold HMAC_ikey, HMAC_okey. rewrite EI, EO. rewrite IL in EI. rewrite OL in EO. rewrite EI. cbn [bind]. rewrite EO. cbn [bind]. auto.
Qed.
Lemma construct_ok c : valid_ctor c -> exists i o, construct hm c = Ok (mkH o i) /\
  h_update h (h_init h) (Ptr (HMAC_ikey B H (key_of B H (hkey c)))) (length (HMAC_ikey B H (key_of B H (hkey c)))) = Ok i /\
  h_update h (h_init h) (Ptr (HMAC_okey B H (key_of B H (hkey c)))) (length (HMAC_okey B H (key_of B H (hkey c)))) = Ok o.
Proof.
  intros HC. assert (HN : valid_arg true Null 0) by (split; reflexivity).
  destruct c as [|n|p n]; cbn [hkey].
  - destruct (init_ok Null 0%nat HN) as (i & o & E & E1 & E2). exists i, o. split; [|auto].
    cbn [construct h_init hmac_over]. change (hmac_init _ _ _ _ _ _ Null 0) with (h_bytes hm Null 0). now rewrite E.
  - cbn [construct h_seed hmac_over]. unfold hmac_seed. destruct (n =? 0).
    + exact (init_ok Null 0%nat HN).
    + rewrite write64le_ok. cbv zeta.
      destruct (init_ok (Ptr (le_bytes 8 n)) 8%nat) as (i & o & E).
      { split; [now rewrite le_bytes_length|apply le_bytes_bytes]. }
      exists i, o. cbn [data] in E. rewrite firstn_all2 in E by (rewrite le_bytes_length; lia). exact E.
  - now apply init_ok.
Qed.

Lemma hmac_run ops : forall si so ri si' ro so', run h si ops = Ok (ri, si') ->
  run h so (outer_ops (map dig ri)) = Ok (ro, so') -> run hm (mkH so si) ops = Ok (map dig ro, mkH so' si').
Proof.
  induction ops as [|[p n|] t IH]; intros si so ri si' ro so' EI EO; cbn [run] in EI |- *.
  - injection EI as <- <-. cbn in EO. injection EO as <- <-. reflexivity.
  - cbn [h_update hmac_over]. unfold hmac_update. cbn [hm_inner hm_outer].
    destruct (h_update h si p n) as [s1| | |]; cbn [bind] in EI |- *; try discriminate. eapply IH; eassumption.
  - cbn [h_result hmac_over]. unfold hmac_result, dig_result. cbn [hm_inner hm_outer].
    destruct (h_result h si) as [[r s1]| | |]; cbn [bind] in EI |- *; try discriminate.
    destruct (run h s1 t) as [[rs s2]| | |] eqn:ET; cbn [bind] in EI; try discriminate. injection EI as <- <-.
    cbn [map outer_ops flat_map app run upd] in EO.
    destruct (h_update h so (Ptr (dig r)) (length (dig r))) as [s3| | |]; cbn [bind] in EO |- *; try discriminate.
    destruct (h_result h s3) as [[r' s4]| | |]; cbn [bind] in EO |- *; try discriminate.
    destruct (run h s4 (flat_map (fun r => [upd r; OResult]) (map dig rs))) as [[ro' s5]| | |] eqn:EO2; cbn [bind] in EO; try discriminate.
    injection EO as <- <-. rewrite (IH _ _ _ _ _ _ ET EO2). reflexivity.
Qed.
Lemma outer_valid rs : Forall (fun r => length (dig r) = D /\ bytes (dig r)) rs -> Forall (valid_op nul) (outer_ops (map dig rs)).
Proof.
  induction 1 as [|r rs [_ Hr] HR IH]; cbn [map outer_ops flat_map app]; [constructor|].
  constructor; [now apply upd_valid|]. constructor; [exact I|exact IH].
Qed.

Lemma hkey_bytes c : valid_ctor c -> bytes (hkey c).
Proof.
  intros HC. destruct c as [|n|p n]; cbn [hkey]; [constructor| |apply (valid_data _ _ _ HC)].
  destruct (n =? 0); [constructor|apply le_bytes_bytes].
Qed.
(* All results of any history: those of the outer hash, bytes_fed its key block and the results of the inner
   hash, which is bytes_fed its key block and the updates of the history. *)
Theorem hmac_history c ops : valid_ctor c -> Forall (valid_op nul) ops ->
  exists ri ro, session h CDefault (upd (HMAC_ikey B H (key_of B H (hkey c))) :: ops) = Ok ri /\
    session h CDefault (upd (HMAC_okey B H (key_of B H (hkey c))) :: outer_ops (map dig ri)) = Ok ro /\
    Forall (fun r => length (dig r) = D /\ bytes (dig r)) ro /\
    session hm c ops = Ok (map dig ro).
Proof.
  intros HC HV. pose proof (hkey_bytes c HC) as HKB.
  destruct (pads_ok _ 0x36 eq_refl HKB) as [IL IB]. destruct (pads_ok _ 0x5C eq_refl HKB) as [OL OB].
  assert (V1 : Forall (valid_op nul) (upd (HMAC_ikey B H (key_of B H (hkey c))) :: ops)) by (constructor; [now apply upd_valid|exact HV]).
  destruct (al_runs _ _ HA CDefault _ I V1) as (ri & EI).
  pose proof (HG CDefault _ _ I V1 EI) as RI.
  assert (V2 : Forall (valid_op nul) (upd (HMAC_okey B H (key_of B H (hkey c))) :: outer_ops (map dig ri))).
  { constructor; [now apply upd_valid|now apply outer_valid]. }
  destruct (al_runs _ _ HA CDefault _ I V2) as (ro & EO).
  exists ri, ro. split; [exact EI|]. split; [exact EO|]. split; [exact (HG CDefault _ _ I V2 EO)|].
  destruct (construct_ok c HC) as (i & o & EC & EI0 & EO0).
  apply session_inv in EI. destruct EI as (si & EI). apply session_inv in EO. destruct EO as (so & EO).
  unfold exec in EI, EO. cbn [construct bind run upd] in EI, EO. rewrite EI0 in EI. rewrite EO0 in EO. cbn [bind] in EI, EO.
  unfold session. rewrite EC. cbn [bind]. rewrite (hmac_run _ _ _ _ _ _ _ EI EO). reflexivity.
Qed.
End Hmac.

(* the bytes of the updates of a history *)
Definition bytes_fed (ops : list op) : list N := flat_map (fun o => match o with OUpdate p n => data p n | OResult => [] end) ops.
Definition no_results (ops : list op) : Prop := Forall (fun o => o <> OResult) ops.
Lemma segments_fed ops : no_results ops -> forall acc, segments acc ops = [acc ++ bytes_fed ops].
Proof.
  induction 1 as [|[p n|] t Ho HT IH]; intros acc; cbn [segments bytes_fed flat_map]; [now rewrite app_nil_r| |easy].
  rewrite IH. now rewrite app_assoc.
Qed.

(* hmac<H> is HMAC (RFC 2104) with the function computed by H; blocks shorter than the hash included *)
Theorem C46_hmac_any pf h nul dig B D c ops : hash_algorithm h nul -> digests h nul dig D ->
  valid_ctor c -> Forall (valid_op nul) ops -> no_results ops ->
  session (hmac_over pf h dig B) c (ops ++ [OResult]) = Ok [HMAC B (function_of h dig) (key_of B (function_of h dig) (hkey c)) (bytes_fed ops)].
Proof.
  intros HA HG HC HV HN.
  assert (HV' : Forall (valid_op nul) (ops ++ [OResult])) by (apply Forall_app; split; [exact HV|now constructor]).
  destruct (hmac_history pf h nul dig B D HA HG c _ HC HV') as (ri & ro & E1 & E2 & _ & E3).
  rewrite E3. f_equal. unfold HMAC. set (H := function_of h dig) in *.
  pose proof (hkey_bytes c HC) as HKB.
  destruct (pads_ok h nul dig B D HA HG _ 0x36 eq_refl HKB) as [IL IB].
  destruct (pads_ok h nul dig B D HA HG _ 0x5C eq_refl HKB) as [OL OB].
  assert (FB : bytes (bytes_fed ops)).
  { clear -HV. induction HV as [|[p n|] t Ho HT IH]; cbn [bytes_fed flat_map]; [constructor| |exact IH].
    apply bytes_app. split; [apply (valid_data _ _ _ Ho)|exact IH]. }
  (* a session that feeds x and then calls result() *)
  assert (HF : forall ops x rs, bytes x -> Forall (valid_op nul) ops -> segments [] ops = [x; []] ->
    session h CDefault ops = Ok rs -> map dig rs = [H x] /\ bytes (H x)).
  { intros o x rs Hx Ho Hs Er.
    assert (V2 : Forall (valid_op nul) [upd x; OResult]) by (constructor; [now apply upd_valid|now constructor]).
    rewrite (al_parts _ _ HA CDefault o [upd x; OResult] I Ho V2) in Er.
    - destruct (function_ok h nul dig D HA HG x Hx) as (s & r & s' & F1 & F2 & F3 & _ & F5).
      unfold session in Er. cbn [construct bind run upd] in Er. rewrite F1 in Er. cbn [bind] in Er. rewrite F2 in Er. cbn [bind] in Er.
      injection Er as <-. cbn [map]. rewrite F3. auto.
    - rewrite Hs. cbn [segments upd data app]. now rewrite firstn_all. }
  assert (S1 : segments [] (upd (HMAC_ikey B H (key_of B H (hkey c))) :: ops ++ [OResult]) = [HMAC_ikey B H (key_of B H (hkey c)) ++ bytes_fed ops; []]).
  { cbn [segments upd data app]. rewrite firstn_all.
    rewrite (segments_result _ ops [] (HMAC_ikey B H (key_of B H (hkey c)) ++ bytes_fed ops)); [reflexivity|now apply segments_fed]. }
  destruct (HF (upd (HMAC_ikey B H (key_of B H (hkey c))) :: ops ++ [OResult]) (HMAC_ikey B H (key_of B H (hkey c)) ++ bytes_fed ops) ri) as [EM BM]; [apply bytes_app; auto| |exact S1|exact E1|].
  { constructor; [now apply upd_valid|exact HV']. }
  rewrite EM in E2.
  destruct (HF (upd (HMAC_okey B H (key_of B H (hkey c))) :: outer_ops [H (HMAC_ikey B H (key_of B H (hkey c)) ++ bytes_fed ops)]) (HMAC_okey B H (key_of B H (hkey c)) ++ H (HMAC_ikey B H (key_of B H (hkey c)) ++ bytes_fed ops)) ro) as [EO _]; [apply bytes_app; auto| | |exact E2|exact EO].
  - constructor; [now apply upd_valid|]. constructor; [now apply upd_valid|]. now constructor.
  - cbn [outer_ops flat_map app segments upd data]. rewrite !firstn_all. reflexivity.
Qed.

(* RFC 2104: hashes of at most B bytes *)
Theorem C46_hmac pf h nul dig B D c ops : hash_algorithm h nul -> digests h nul dig D -> (D <= B)%nat ->
  valid_ctor c -> Forall (valid_op nul) ops -> no_results ops ->
  session (hmac_over pf h dig B) c (ops ++ [OResult]) = Ok [HMAC B (function_of h dig) (hkey c) (bytes_fed ops)].
Proof.
  intros HA HG HD HC HV HN. rewrite (C46_hmac_any pf h nul dig B D c ops HA HG HC HV HN). do 2 f_equal.
  destruct (function_ok h nul dig D HA HG (hkey c) (hkey_bytes c HC)) as (_ & _ & _ & _ & _ & _ & HL & _).
  assert (EK : HMAC_key B (function_of h dig) (key_of B (function_of h dig) (hkey c)) = HMAC_key B (function_of h dig) (hkey c)).
  { unfold HMAC_key at 1. unfold key_of. unfold HMAC_key. cbv zeta. destruct (Nat.leb (length (hkey c)) B) eqn:E; [now rewrite E|].
    rewrite firstn_all2 by lia. rewrite HL. replace (Nat.leb D B) with true by (symmetry; now apply Nat.leb_le). now rewrite HL. }
  unfold HMAC, HMAC_ikey, HMAC_okey. now rewrite EK.
Qed.

(* and again a hash algorithm with results of D bytes *)
Theorem C46_closed pf h nul dig B D : hash_algorithm h nul -> digests h nul dig D ->
  hash_algorithm (hmac_over pf h dig B) nul /\ digests (hmac_over pf h dig B) nul (fun r => r) D.
Proof.
  intros HA HG. pose proof (hmac_history pf h nul dig B D HA HG) as HH. split; [constructor|].
  - intros c ops HC HV. destruct (HH c ops HC HV) as (ri & ro & _ & _ & _ & E). eauto.
  - intros c o1 o2 HC V1 V2 ES. destruct (HH c o1 HC V1) as (ri & ro & A1 & A2 & _ & A3). destruct (HH c o2 HC V2) as (ri' & ro' & B1 & B2 & _ & B3).
    rewrite A3, B3. do 2 f_equal.
    assert (V : forall x ops, bytes x -> Forall (valid_op nul) ops -> Forall (valid_op nul) (upd x :: ops)).
    { intros x ops Hx Ho. constructor; [now apply upd_valid|exact Ho]. }
    pose proof (pads_ok h nul dig B D HA HG _ 0x36 eq_refl (hkey_bytes c HC)) as [_ IB].
    rewrite (al_parts _ _ HA CDefault _ (upd (HMAC_ikey B (function_of h dig) (key_of B (function_of h dig) (hkey c))) :: o2)) in A1.
    + rewrite A1 in B1. injection B1 as <-. rewrite A2 in B2. now injection B2 as <-.
    + exact I.
    + now apply V.
    + now apply V.
    + cbn [segments upd data app]. rewrite firstn_all.
      assert (HS : forall o acc, segments acc o = match segments [] o with [] => [] | d :: t => (acc ++ d) :: t end).
      { clear. induction o as [|[p n|] t IH]; intros acc; cbn [segments app].
        - now rewrite app_nil_r.
        - rewrite IH. rewrite (IH (data p n)). destruct (segments [] t) as [|d t']; [reflexivity|]. now rewrite app_assoc.
        - now rewrite app_nil_r. }
      rewrite (HS o1), (HS o2), ES. reflexivity.
  - intros ops HV. assert (H0 : 0 < 2^64) by reflexivity.
    destruct (HH (CSeed 0) ops H0 HV) as (ri & ro & A1 & A2 & _ & A3). destruct (HH CDefault ops I HV) as (ri' & ro' & B1 & B2 & _ & B3).
    change (hkey (CSeed 0)) with (hkey CDefault) in *. rewrite A3, B3. rewrite A1 in B1. injection B1 as <-. rewrite A2 in B2. now injection B2 as <-.
  - intros p ops HP HV. destruct (HH (CBytes p 0) ops HP HV) as (ri & ro & A1 & A2 & _ & A3). destruct (HH CDefault ops I HV) as (ri' & ro' & B1 & B2 & _ & B3).
    assert (EK : hkey (CBytes p 0) = hkey CDefault) by (destruct p; reflexivity). rewrite EK in *.
    rewrite A3, B3. rewrite A1 in B1. injection B1 as <-. rewrite A2 in B2. now injection B2 as <-.
  - intros c ops rs HC HV E. destruct (HH c ops HC HV) as (ri & ro & _ & _ & RO & E'). rewrite E' in E. injection E as <-.
    clear -RO. induction RO; cbn [map]; constructor; auto.
Qed.

(* hmac< hmac<H> >: HMAC over the function HMAC with the empty key *)
Lemma HMAC_ext B H1 H2 K l : (forall x, bytes x -> H1 x = H2 x) -> (forall x, bytes x -> bytes (H2 x)) -> bytes K -> bytes l ->
  HMAC B H1 K l = HMAC B H2 K l.
Proof.
  intros HE HB HK Hl.
  assert (EK : HMAC_key B H1 K = HMAC_key B H2 K) by (unfold HMAC_key; destruct (Nat.leb _ B); [reflexivity|now rewrite HE]).
  assert (BK : bytes (HMAC_key B H2 K)).
  { unfold HMAC_key. apply bytes_app. split; [destruct (Nat.leb _ B); auto|apply bytes_zeros]. }
  unfold HMAC, HMAC_ikey, HMAC_okey. rewrite EK.
  rewrite (HE (map (N.lxor 54) (HMAC_key B H2 K) ++ l)).
  - apply HE. apply bytes_app. split; [now apply xor_bytes|]. apply HB. apply bytes_app. split; [now apply xor_bytes|exact Hl].
  - apply bytes_app. split; [now apply xor_bytes|exact Hl].
Qed.
Theorem C46_nested pf h nul dig B D c ops : hash_algorithm h nul -> digests h nul dig D -> (D <= B)%nat ->
  valid_ctor c -> Forall (valid_op nul) ops -> no_results ops ->
  session (hmac_over pf (hmac_over pf h dig B) (fun r => r) B) c (ops ++ [OResult]) =
  Ok [HMAC B (HMAC B (function_of h dig) []) (hkey c) (bytes_fed ops)].
Proof.
  intros HA HG HD HC HV HN. destruct (C46_closed pf h nul dig B D HA HG) as [HA2 HG2].
  rewrite (C46_hmac pf (hmac_over pf h dig B) nul (fun r => r) B D c ops HA2 HG2 HD HC HV HN). do 2 f_equal.
  assert (FB : bytes (bytes_fed ops)).
  { clear -HV. induction HV as [|[p n|] t Ho HT IH]; cbn [bytes_fed flat_map]; [constructor| |exact IH].
    apply bytes_app. split; [apply (valid_data _ _ _ Ho)|exact IH]. }
  assert (HF : forall x, bytes x -> function_of (hmac_over pf h dig B) (fun r => r) x = HMAC B (function_of h dig) [] x).
  { intros x Hx. unfold function_of at 1. change [OUpdate (Ptr x) (length x); OResult] with ([upd x] ++ [OResult]).
    rewrite (C46_hmac pf h nul dig B D CDefault [upd x] HA HG HD I); [|constructor; [now apply upd_valid|constructor]|constructor; [discriminate|constructor]].
    cbn [hkey bytes_fed flat_map upd data]. now rewrite firstn_all, app_nil_r. }
  apply HMAC_ext; [exact HF| |now apply hkey_bytes|exact FB].
  intros x Hx. rewrite <- HF by exact Hx. destruct (function_ok _ nul _ D HA2 HG2 x Hx) as (_ & _ & _ & _ & _ & _ & _ & HB). exact HB.
Qed.

(* ---------- instances ---------- *)
(* the digest classes of the library *)
Definition library_digest (e : env) (m : md_alg) : h_R (pk_h (pack e (Amd m))) -> list N :=
  fun r => match pk_out (pack e (Amd m)) r with RDigest d => d | RInt _ _ => [] end.
Lemma library_digests e m : valid_env e -> hash_algorithm (pk_h (pack e (Amd m))) (nul_md m) /\
  digests (pk_h (pack e (Amd m))) (nul_md m) (library_digest e m) (size_of_md m).
Proof.
  intros HE. destruct (C45_library e (Amd m) HE ltac:(discriminate)) as [HA _]. split; [exact HA|].
  intros c ops rs HC HV E. destruct (session_library e (Amd m) c ops HE ltac:(discriminate) HC HV) as (rs' & E' & M).
  rewrite E in E'. injection E' as <-.
  assert (HF : Forall (fun r => exists l, r = RDigest (hash_of m l)) (map (pk_out (pack e (Amd m))) rs)).
  { rewrite M. apply aseg_results. intros s. exists s. reflexivity. }
  rewrite Forall_map in HF. eapply Forall_impl; [|exact HF]. intros r (l & El). unfold library_digest. rewrite El.
  split; [apply hash_length|apply hash_bytes].
Qed.
Lemma library_function e m l : valid_env e -> bytes l -> function_of (pk_h (pack e (Amd m))) (library_digest e m) l = hash_of m l.
Proof.
  intros HE Hl. assert (HV : Forall (valid_op (nul_md m)) [upd l; OResult]) by (constructor; [now apply upd_valid|now constructor]).
  destruct (session_library e (Amd m) CDefault [upd l; OResult] HE ltac:(discriminate) I HV) as (rs & E & M).
  unfold function_of. fold (upd l). rewrite E. cbn [segments upd data app] in M. rewrite firstn_all in M.
  change (aseg _ _ _ [l; []]) with [RDigest (hash_of m l)] in M.
  destruct rs as [|r [|r2 rs]]; try discriminate. unfold library_digest.
  assert (M1 : pk_out (pack e (Amd m)) r = RDigest (hash_of m l)) by (cbn [map] in M; congruence). now rewrite M1.
Qed.

Lemma key_of_ext B H1 H2 K : H1 K = H2 K -> key_of B H1 K = key_of B H2 K.
Proof. intros E. unfold key_of. now rewrite E. Qed.
Lemma fed_bytes nul ops : Forall (valid_op nul) ops -> bytes (bytes_fed ops).
Proof.
  induction 1 as [|[p n|] t Ho HT IH]; cbn [bytes_fed flat_map]; [constructor| |exact IH].
  apply bytes_app. split; [apply (valid_data _ _ _ Ho)|exact IH].
Qed.
Lemma library_hmac pf e m B c ops : valid_env e -> valid_ctor c -> Forall (valid_op (nul_md m)) ops -> no_results ops ->
  session (hmac_over pf (pk_h (pack e (Amd m))) (library_digest e m) B) c (ops ++ [OResult]) =
  Ok [HMAC B (hash_of m) (key_of B (hash_of m) (hkey c)) (bytes_fed ops)].
Proof.
  intros HE HC HV HN. destruct (library_digests e m HE) as [HA HG].
  rewrite (C46_hmac_any pf _ _ _ B _ _ _ HA HG HC HV HN). apply (f_equal (fun z => Ok [z])).
  pose proof (hkey_bytes c HC) as HK.
  rewrite (key_of_ext B _ (hash_of m)) by now apply library_function. apply HMAC_ext.
  - intros x Hx. now apply library_function.
  - intros x _. apply hash_bytes.
  - unfold key_of. destruct (Nat.leb _ B); [exact HK|]. apply bytes_firstn. apply hash_bytes.
  - now apply fed_bytes with (nul := nul_md m).
Qed.
Lemma library_nested pf e m B c ops : valid_env e -> (size_of_md m <= B)%nat -> valid_ctor c ->
  Forall (valid_op (nul_md m)) ops -> no_results ops ->
  session (hmac_over pf (hmac_over pf (pk_h (pack e (Amd m))) (library_digest e m) B) (fun r => r) B) c (ops ++ [OResult]) =
  Ok [HMAC B (HMAC B (hash_of m) []) (hkey c) (bytes_fed ops)].
Proof.
  intros HE HD HC HV HN. destruct (library_digests e m HE) as [HA HG].
  rewrite (C46_nested pf _ _ _ B _ _ _ HA HG HD HC HV HN). apply (f_equal (fun z => Ok [z])).
  apply HMAC_ext.
  - intros x Hx. apply HMAC_ext; [intros y Hy; now apply library_function|intros y _; apply hash_bytes|constructor|exact Hx].
  - intros x _. apply hash_bytes.
  - now apply hkey_bytes.
  - now apply fed_bytes with (nul := nul_md m).
Qed.

(* hmac< md5_128 >, written by the user *)
Example C46_hmac_ex : session (hmac_over (e_pf env_pc) (pk_h (pack env_pc (Amd Amd5))) (library_digest env_pc Amd5) 64)
    (CBytes (Ptr [107; 101; 121]) 3) ([upd [97]; OUpdate (Ptr [98; 99; 100]) 2] ++ [OResult]) =
  Ok [toBE 16 0xd2fe98063f876b03193afb49b4979591].
Proof.
  rewrite library_hmac.
  - vm_compute. reflexivity.
  - exact env_pc_valid.
  - repeat constructor; cbn; lia.
  - repeat constructor; cbn; lia.
  - repeat constructor; discriminate.
Qed.
(* with blocks of 8 bytes, shorter than the digest, and a key longer than a block *)
Example C46_hmac_any_ex : session (hmac_over (e_pf env_pc) (pk_h (pack env_pc (Amd Amd5))) (library_digest env_pc Amd5) 8)
    (CBytes (Ptr [1; 2; 3; 4; 5; 6; 7; 8; 9]) 9) ([upd [97]] ++ [OResult]) =
  Ok [toBE 16 0x2cbf1ca7a25a3f3de84df5c1407add2f].
Proof.
  rewrite library_hmac.
  - vm_compute. reflexivity.
  - exact env_pc_valid.
  - repeat constructor; cbn; lia.
  - repeat constructor; cbn; lia.
  - repeat constructor; discriminate.
Qed.
(* hmac< hmac< md5_128 > > *)
Example C46_nested_ex : session (hmac_over (e_pf env_pc) (hmac_over (e_pf env_pc) (pk_h (pack env_pc (Amd Amd5))) (library_digest env_pc Amd5) 64) (fun r => r) 64)
    (CBytes (Ptr [107; 101; 121]) 3) ([upd [97; 98; 99]] ++ [OResult]) =
  Ok [toBE 16 0xad7ec483994105ab2293fdba954b8c6c].
Proof.
  rewrite library_nested.
  - vm_compute. reflexivity.
  - exact env_pc_valid.
  - cbn. lia.
  - repeat constructor; cbn; lia.
  - repeat constructor; cbn; lia.
  - repeat constructor; discriminate.
Qed.

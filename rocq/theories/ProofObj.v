(* The object a program leaves behind. *)
From Verif Require Import Base BaseFacts SpecCommon Gen Hasher GenBlk Types ModelResult ModelAppend SpecAppend
  ProofMsg ProofAppend Behaves Instances ProofRuns PropsHistory.
From Verif Require Import SpecSip SpecXxh SpecFnv SpecMurmur SpecSpooky SpecHmac.
From Verif Require Import ModelMd5 ModelSha1 ModelRipemd ModelSha2 ModelSip ModelXxh ModelFnv ModelMurmur ModelSpooky ModelHmac.
From Verif Require Import ProofMd5 ProofSha1 ProofRipemd ProofSha2 ProofSip ProofXxh ProofFnv ProofMurmur ProofSpooky.
From Verif Require Import ProofHmac ProofHmacInst.
Open Scope N_scope.

Section Obj.
Variable h : hasher.
Variable gir : h_R h -> res N.
Variable i : impl.
Variable f : flavor.
(* the object after the calls [xs] *)
Fixpoint pobj (s : h_S h) (xs : list ustep) : res (h_S h) :=
  match xs with
  | [] => Ok s
  | SUpdate p n :: t => s <- h_update h s p n ;; pobj s t
  | SResult :: t => '(_, s) <- h_result h s ;; pobj s t
  | SCall k :: t => s <- ha_call h gir i f k s ;; pobj s t
  end.
Lemma pobj_app xs ys : forall s, pobj s (xs ++ ys) = (s <- pobj s xs ;; pobj s ys).
Proof.
  induction xs as [|[p n| |k] xs IH]; intros s; cbn [pobj app].
  - reflexivity.
  - destruct (h_update h s p n); cbn [bind]; auto.
  - destruct (h_result h s) as [[r s']| | | ]; cbn [bind]; auto.
  - destruct (ha_call h gir i f k s); cbn [bind]; auto.
Qed.
Lemma prun_app xs ys : forall s, prun h gir i f s (xs ++ ys) =
  (rs <- prun h gir i f s xs ;; s' <- pobj s xs ;; rs' <- prun h gir i f s' ys ;; Ok (rs ++ rs')).
Proof.
  induction xs as [|[p n| |k] xs IH]; intros s; cbn [pobj prun app].
  - cbn [bind]. destruct (prun h gir i f s ys); reflexivity.
  - destruct (h_update h s p n); cbn [bind]; auto.
  - destruct (h_result h s) as [[r s']| | | ]; cbn [bind]; auto. rewrite IH.
    destruct (prun h gir i f s' xs); cbn [bind]; auto. destruct (pobj s' xs); cbn [bind]; auto.
    destruct (prun h gir i f _ ys); reflexivity.
  - destruct (ha_call h gir i f k s); cbn [bind]; auto.
Qed.

Variable nul : bool.
Variables A R : Type.
Variables (au : A -> list N -> A) (ar' : A -> h_R h * A) (ar : A -> R * A) (out : h_R h -> R) (ok : A -> Prop).
Variable Rel : A -> h_S h -> Prop.
Variable fits : A -> nat -> Prop.
Variable g : R -> N.
Hypothesis RF : refines h nul A au ar' ok Rel.
Hypothesis FL : fits_laws au ar' ok fits.
Hypothesis HO : forall a, out (fst (ar' a)) = fst (ar a) /\ snd (ar' a) = snd (ar a).
Hypothesis Hg : forall a r, out r = fst (ar a) -> gir r = Ok (g (out r)).

Lemma pobj_ok xs : forall a s, Rel a s -> Forall (valid_step nul i) xs -> fits a (weight xs) ->
  exists s', pobj s xs = Ok s' /\ Rel (asteps au ar g (call_message i f) a xs) s'.
Proof.
  assert (Hg' : forall a, gir (fst (ar' a)) = Ok (g (out (fst (ar' a))))).
  { intros a. apply (Hg a). apply HO. }
  induction xs as [|x xs IH]; intros a s0 R0 HX F0.
  - exists s0. split; [reflexivity|exact R0].
  - inversion HX as [|? ? Hx HX']; subst.
    unfold weight in F0. cbn [map lsum fold_right] in F0. change (fold_right Nat.add 0%nat (map step_weight xs)) with (weight xs) in F0.
    assert (OK : ok a) by (exact (fl_ok _ _ _ _ FL _ _ F0)).
    destruct x as [p n| |k]; cbn [pobj asteps step_weight] in *.
    + assert (F1 : fits (au a (data p n)) (weight xs)).
      { apply (fl_au _ _ _ _ FL). now rewrite (proj2 (valid_data _ _ _ Hx)). }
      destruct (rf_update _ _ _ _ _ _ _ RF a s0 p n R0 OK Hx (fl_ok _ _ _ _ FL _ _ F1)) as (s1 & E1 & R1). rewrite E1. cbn [bind]. now apply IH.
    + assert (F1 : fits (snd (ar' a)) (weight xs)) by (now apply (fl_ar _ _ _ _ FL)).
      destruct (rf_result _ _ _ _ _ _ _ RF a s0 R0 OK (fl_ok _ _ _ _ FL _ _ F1)) as (s1 & E1 & R1). rewrite E1. cbn [bind].
      destruct (HO a) as [O1 O2]. rewrite O2 in R1, F1. now apply IH.
    + assert (FM : fits a (call_blen k)) by (apply (fl_mono _ _ _ _ FL _ _ _ F0); lia).
      destruct (call_feeds h nul A au ar' ok Rel RF fits FL gir (fun r => g (out r)) Hg' i f k a s0 (proj2 Hx) R0 (proj1 Hx) FM) as (s1 & E1 & R1).
      rewrite E1. cbn [bind].
      assert (EM : call_msg (order_le (fl_order f)) (fl_size f) (im_psz i) (fadd0 i 8 23) (fadd0 i 11 52) k
                     (qa h A au ar' (fun r => g (out r)) a) = call_message i f k (aq au ar g a)).
      { apply call_msg_ext. intros m. unfold qa, aq. destruct (HO (au a m)) as [O1 _]. now rewrite O1. }
      rewrite EM in R1. apply (IH _ s1); try assumption.
      apply (fl_au _ _ _ _ FL). apply (fl_mono _ _ _ _ FL _ _ _ F0). apply Nat.add_le_mono_r. apply call_blen_ok.
Qed.
End Obj.

(* The object algorithm [a] is left with by constructor [c] and the calls [xs] *)
Definition object (e : env) (a : alg) (f : flavor) (c : ctor) (xs : list ustep) : res (h_S (pk_h (pack e a))) :=
  s <- construct (pk_h (pack e a)) c ;; pobj (pk_h (pack e a)) (pk_gir (pack e a)) (e_impl e) f s xs.

(* The message buffers of an object (members buffer_ and m_): contents and number of pending bytes.
   hmac has two: inner and outer.  fnv1a has none. *)
Definition bbuf {St} (s : bst St) : list N * nat := (b_buf s, b_m s).
Definition buffers (e : env) (a : alg) : h_S (pk_h (pack e a)) -> list (list N * nat) :=
  match a with
  | Amd Amd5 => fun s => [bbuf s] | Amd Asha1 => fun s => [bbuf s]
  | Amd Armd128 => fun s => [bbuf s] | Amd Armd160 => fun s => [bbuf s]
  | Amd Asha256 => fun s => [bbuf s] | Amd Asha224 => fun s => [bbuf s]
  | Amd Asha512 => fun s => [bbuf s] | Amd Asha384 => fun s => [bbuf s]
  | Amd Asha512_224 => fun s => [bbuf s] | Amd Asha512_256 => fun s => [bbuf s]
  | Ahmac Amd5 => fun s => [bbuf (hm_inner s); bbuf (hm_outer s)]
  | Ahmac Asha1 => fun s => [bbuf (hm_inner s); bbuf (hm_outer s)]
  | Ahmac Armd128 => fun s => [bbuf (hm_inner s); bbuf (hm_outer s)]
  | Ahmac Armd160 => fun s => [bbuf (hm_inner s); bbuf (hm_outer s)]
  | Ahmac Asha256 => fun s => [bbuf (hm_inner s); bbuf (hm_outer s)]
  | Ahmac Asha224 => fun s => [bbuf (hm_inner s); bbuf (hm_outer s)]
  | Ahmac Asha512 => fun s => [bbuf (hm_inner s); bbuf (hm_outer s)]
  | Ahmac Asha384 => fun s => [bbuf (hm_inner s); bbuf (hm_outer s)]
  | Ahmac Asha512_224 => fun s => [bbuf (hm_inner s); bbuf (hm_outer s)]
  | Ahmac Asha512_256 => fun s => [bbuf (hm_inner s); bbuf (hm_outer s)]
  | Asip64 => fun s => [bbuf s] | Asip32 => fun s => [bbuf s]
  | Axx32 => fun s => [bbuf s] | Axx64 => fun s => [bbuf s]
  | Afnv32 => fun _ => [] | Afnv64 => fun _ => []
  | Amur32 => fun s => [bbuf s] | Amur128 => fun s => [bbuf s]
  | Aspooky => fun s => [bbuf s]
  end.
(* [b] holds the pending bytes [p] and is zero beyond *)
Definition holds (B : nat) (b : list N * nat) (p : list N) : Prop :=
  snd b = length p /\ (length p < B)%nat /\ fst b = p ++ repeat 0 (B - length p).

(* the pending bytes of each buffer, as a function of the abstract state *)
Definition pending (cw : N) (a : alg) : mc_A (machine_of cw a) -> list (nat * list N) :=
  match a with
  | Amd m => fun l => [(block_of m, rest (block_of m) l)]
  | Ahmac m => fun l => [(block_of m, rest (block_of m) (fst l)); (block_of m, rest (block_of m) (snd l))]
  | Asip64 => fun x => [(8%nat, rest 8 (snd x))]
  | Asip32 => fun x => [(4%nat, rest 4 (snd x))]
  | _ => fun _ => []
  end.
Definition zero_filling (a : alg) : bool :=
  match a with Amd _ | Ahmac _ | Asip64 | Asip32 => true | _ => false end.

Lemma holds_rest {St} B l (s : bst St) : (0 < B)%nat -> (b_m s = length l mod B)%nat ->
  b_buf s = skipn (B * (length l / B)) l ++ zeros (B - length l mod B) -> holds B (bbuf s) (rest B l).
Proof.
  intros HB Hm Hb. unfold holds, bbuf. cbn [fst snd]. rewrite rest_length by exact HB. split; [exact Hm|]. split.
  - apply Nat.mod_upper_bound. lia.
  - rewrite Hb. reflexivity.
Qed.
Lemma holds_Rep {St} B cw (cmp : St -> list N -> St) st c l s : (0 < B)%nat ->
  Rep St B true cw cmp st c l s -> holds B (bbuf s) (rest B l).
Proof.
  intros HB (_ & Hm & _ & tail & Hb & HL & Hz). unfold holds, bbuf. cbn [fst snd]. rewrite rest_length by exact HB.
  split; [exact Hm|]. split; [apply Nat.mod_upper_bound; lia|]. rewrite Hb. f_equal. rewrite (Hz eq_refl). unfold zeros. f_equal.
  rewrite Hb, app_length, rest_length in HL by exact HB. lia.
Qed.

Lemma gir_spec e a s r : pk_out (pack e a) r = fst (mc_ar (machine_of (e_cw e) a) s) ->
  pk_gir (pack e a) r = Ok (result64 (pk_out (pack e a) r)).
Proof. intros H. apply pack_gir. rewrite H. apply machine_digest. Qed.

(* the state of an object: [P] holds of every object representing an abstract state *)
Definition tracks (e : env) (a : alg) (P : mc_A (machine_of (e_cw e) a) -> h_S (pk_h (pack e a)) -> Prop) : Prop :=
  forall f c xs, valid_program e a c xs -> room e a c xs ->
  exists s, object e a f c xs = Ok s /\ P (state e a f c xs) s.
Lemma tracks_intro e a (P : mc_A (machine_of (e_cw e) a) -> h_S (pk_h (pack e a)) -> Prop) ar' ok Rel fits :
  refines (pk_h (pack e a)) (nul_of a) (mc_A (machine_of (e_cw e) a)) (mc_au (machine_of (e_cw e) a)) ar' ok Rel ->
  fits_laws (mc_au (machine_of (e_cw e) a)) ar' ok fits ->
  (forall x, pk_out (pack e a) (fst (ar' x)) = fst (mc_ar (machine_of (e_cw e) a) x) /\
             snd (ar' x) = snd (mc_ar (machine_of (e_cw e) a) x)) ->
  (forall c L, valid_ctor c -> roomy e a c L -> exists s, construct (pk_h (pack e a)) c = Ok s /\
     Rel (mc_start (machine_of (e_cw e) a) c) s /\ fits (mc_start (machine_of (e_cw e) a) c) L) ->
  (forall x s, Rel x s -> P x s) -> tracks e a P.
Proof.
  intros RF FL HO HS HP f c xs (HC & HX) HR. destruct (HS c _ HC HR) as (s0 & E0 & R0 & F0).
  destruct (pobj_ok _ (pk_gir (pack e a)) (e_impl e) f _ _ _ _ _ _ _ _ _ _ result64 RF FL HO (gir_spec e a) xs _ s0 R0 HX F0) as (s & E & R1).
  exists s. split.
  - unfold object. rewrite E0. exact E.
  - apply HP. exact R1.
Qed.

Definition buf_inv (e : env) (a : alg) (x : mc_A (machine_of (e_cw e) a)) (s : h_S (pk_h (pack e a))) : Prop :=
  Forall2 (fun b p => holds (fst p) b (snd p)) (buffers e a s) (pending (e_cw e) a x).

Lemma md_buf nul St pad H init seedf bytesf updf resf B :
  (0 < B)%nat -> md_ok St (list N) B nul pad H init seedf bytesf updf resf ->
  exists Rel, refines (Build_hasher (bst St) (list N) init seedf bytesf updf resf) nul (list N)
      (fun l d => l ++ d) (fun l => (H l, pad l)) (fun _ => True) Rel /\
    (forall c, valid_ctor c -> exists s,
       construct (Build_hasher (bst St) (list N) init seedf bytesf updf resf) c = Ok s /\ Rel (vstart pad c) s) /\
    (forall l s, Rel l s -> holds B (bbuf s) (rest B l)).
Proof.
  intros HB MO. destruct (mo_refines _ _ _ _ _ _ _ _ _ _ _ MO) as (Rel & _ & RF & _ & HR & HC).
  exists Rel. split; [exact RF|]. split; [exact HC|]. intros l s H1. destruct (HR l s H1) as (Hm & _ & Hb).
  now apply holds_rest.
Qed.
Ltac md_tracks e m H64 OK :=
  let Rel := fresh "Rel" in let RF := fresh "RF" in let HS := fresh "HS" in let HP := fresh "HP" in
  destruct (md_buf _ _ _ _ _ _ _ _ _ _ H64 OK) as (Rel & RF & HS & HP);
  apply (tracks_intro e (Amd m) _ _ _ Rel _ RF (fits_true _ _ _ (fun _ => I)));
  [intros x; split; reflexivity
  |intros c L V _; destruct (HS c V) as (s & E1 & R1); exists s; split; [exact E1|split; [exact R1|exact I]]
  |intros x s R1; constructor; [exact (HP x s R1)|constructor]].
Theorem buf_tracks_md e m : tracks e (Amd m) (buf_inv e (Amd m)).
Proof.
  assert (H64 : (0 < 64)%nat) by lia. assert (H128 : (0 < 128)%nat) by lia. destruct m.
  - md_tracks e Amd5 H64 (md5_ok (e_pf e)).
  - md_tracks e Asha1 H64 (sha1_ok (e_pf e)).
  - md_tracks e Armd128 H64 (rmd128_ok (e_pf e)).
  - md_tracks e Armd160 H64 (rmd160_ok (e_pf e)).
  - md_tracks e Asha256 H64 (sha2_256_ok (e_pf e)).
  - md_tracks e Asha224 H64 (sha2_224_ok (e_pf e)).
  - md_tracks e Asha512 H128 (sha2_512_ok (e_pf e)).
  - md_tracks e Asha384 H128 (sha2_384_ok (e_pf e)).
  - md_tracks e Asha512_224 H128 (sha2_512_224_ok (e_pf e)).
  - md_tracks e Asha512_256 H128 (sha2_512_256_ok (e_pf e)).
Qed.

Lemma hmac_buf nul St pad H init seedf bytesf updf resf B D pf :
  (0 < B)%nat -> md_ok St (list N) B nul pad H init seedf bytesf updf resf ->
  (0 < D <= B)%nat -> (forall l, length (H l) = D) -> (forall l, bytes (H l)) ->
  exists Rel, refines (hmac_class St B init updf resf pf) nul (list N * list N) (fun a d => (fst a ++ d, snd a))
    (fun a => (H (snd a ++ H (fst a)), (pad (fst a), pad (snd a ++ H (fst a))))) (fun _ => True) Rel /\
    (forall c, valid_ctor c -> exists s, construct (hmac_class St B init updf resf pf) c = Ok s /\
       Rel (HMAC_ikey B H (hkey c), HMAC_okey B H (hkey c)) s) /\
    (forall x s, Rel x s -> holds B (bbuf (hm_inner s)) (rest B (fst x)) /\ holds B (bbuf (hm_outer s)) (rest B (snd x))).
Proof.
  intros HB MO HD HL HBy. destruct (hmac_spec _ _ _ _ _ _ _ _ _ _ MO D HD HL HBy pf) as (Rel & RF & HI & _ & HP).
  exists Rel. split; [exact RF|]. split.
  - intros c HC. rewrite (hmac_construct_eq _ _ _ _ _ _ _ _ _ _ MO D HD HL HBy pf c HC).
    destruct c as [|n|p n]; cbn [hkey].
    + cbn [length Nat.eqb]. apply (HI Null 0%nat). split; reflexivity.
    + destruct (n =? 0).
      * cbn [length Nat.eqb]. apply (HI Null 0%nat). split; reflexivity.
      * change toLE with le_bytes. rewrite le_bytes_length. cbn [Nat.eqb].
        destruct (HI (Ptr (le_bytes 8 n)) 8%nat) as (s & E1 & R1).
        { split; [rewrite le_bytes_length; lia|apply le_bytes_bytes]. }
        cbn [data] in R1. rewrite firstn_all2 in R1 by (rewrite le_bytes_length; lia). eauto.
    + apply HI. exact HC.
  - intros [mi mo] s R1. destruct (HP mi mo s R1) as (H1 & H2 & H3 & H4). split; now apply holds_rest.
Qed.
Ltac hmac_tracks e m H64 OK HL HBy :=
  let Rel := fresh "Rel" in let RF := fresh "RF" in let HS := fresh "HS" in let HP := fresh "HP" in
  destruct (hmac_buf _ _ _ _ _ _ _ _ _ _ (size_of_md m) (e_pf e) H64 OK ltac:(cbn; lia) HL HBy) as (Rel & RF & HS & HP);
  apply (tracks_intro e (Ahmac m) _ _ _ Rel _ RF (fits_true _ _ _ (fun _ => I)));
  [intros x; split; reflexivity
  |intros c L V _; destruct (HS c V) as (s & E1 & R1); exists s; split; [exact E1|split; [exact R1|exact I]]
  |intros x s R1; constructor; [exact (proj1 (HP x s R1))|constructor; [exact (proj2 (HP x s R1))|constructor]]].
Theorem buf_tracks_hmac e m : tracks e (Ahmac m) (buf_inv e (Ahmac m)).
Proof.
  assert (H64 : (0 < 64)%nat) by lia. assert (H128 : (0 < 128)%nat) by lia. destruct m.
  - hmac_tracks e Amd5 H64 (md5_ok (e_pf e)) MD5_length MD5_bytes.
  - hmac_tracks e Asha1 H64 (sha1_ok (e_pf e)) SHA1_length SHA1_bytes.
  - hmac_tracks e Armd128 H64 (rmd128_ok (e_pf e)) RIPEMD128_length RIPEMD128_bytes.
  - hmac_tracks e Armd160 H64 (rmd160_ok (e_pf e)) RIPEMD160_length RIPEMD160_bytes.
  - hmac_tracks e Asha256 H64 (sha2_256_ok (e_pf e)) SHA256_64_length SHA256_64_bytes.
  - hmac_tracks e Asha224 H64 (sha2_224_ok (e_pf e)) SHA224_64_length SHA224_64_bytes.
  - hmac_tracks e Asha512 H128 (sha2_512_ok (e_pf e)) SHA512_64_length SHA512_64_bytes.
  - hmac_tracks e Asha384 H128 (sha2_384_ok (e_pf e)) SHA384_64_length SHA384_64_bytes.
  - hmac_tracks e Asha512_224 H128 (sha2_512_224_ok (e_pf e)) SHA512_224_64_length SHA512_224_64_bytes.
  - hmac_tracks e Asha512_256 H128 (sha2_512_256_ok (e_pf e)) SHA512_256_64_length SHA512_256_64_bytes.
Qed.
Theorem buf_tracks_sip64 e : tracks e Asip64 (buf_inv e Asip64).
Proof.
  apply (tracks_intro e Asip64 _ _ _ Rel64 _ (sip64_refines (e_pf e)) (fits_true _ _ _ ok64_true)).
  - intros x. split; reflexivity.
  - intros c L V _. destruct (sip64_construct (e_pf e) c V) as (s & E1 & R1). exists s. split; [exact E1|split; [exact R1|exact I]].
  - intros [[st c] l] s (_ & _ & R1). constructor; [|constructor]. exact (holds_Rep 8 _ _ _ _ _ _ ltac:(lia) R1).
Qed.
Theorem buf_tracks_sip32 e : tracks e Asip32 (buf_inv e Asip32).
Proof.
  apply (tracks_intro e Asip32 _ _ _ Rel32 _ (sip32_refines (e_pf e)) (fits_true _ _ _ ok32_true)).
  - intros x. split; reflexivity.
  - intros c L V _. destruct (sip32_construct (e_pf e) c V) as (s & E1 & R1). exists s. split; [exact E1|split; [exact R1|exact I]].
  - intros [[st c] l] s (_ & _ & R1). constructor; [|constructor]. exact (holds_Rep 4 _ _ _ _ _ _ ltac:(lia) R1).
Qed.
Theorem buf_tracks e a : zero_filling a = true -> tracks e a (buf_inv e a).
Proof.
  destruct a; try discriminate; intros _.
  - apply buf_tracks_md.
  - apply buf_tracks_hmac.
  - apply buf_tracks_sip64.
  - apply buf_tracks_sip32.
Qed.

(* the other classes keep buffers of the right size, which result() overwrites with zeros *)
Lemma RelB_len {St} B wipe cw (cmp : St -> list N -> St) x s : RelB St B wipe cw cmp x s -> length (b_buf s) = B.
Proof. destruct x as [[st c] l]. intros (_ & _ & _ & _ & _ & tail & _ & H & _). exact H. Qed.
Definition len_inv (e : env) (a : alg) (B : nat) (x : mc_A (machine_of (e_cw e) a)) (s : h_S (pk_h (pack e a))) : Prop :=
  Forall (fun b => length (fst b) = B) (buffers e a s).
Theorem len_tracks_xx32 e : valid_env e -> tracks e Axx32 (len_inv e Axx32 16).
Proof.
  intros [Hcw HJ].
  apply (tracks_intro e Axx32 _ _ _ _ _ (xx32_refines (e_cw e) Hcw (e_pf e)) (fits_true _ _ _ (xx32_ok_true (e_cw e) Hcw))).
  - intros x. split; reflexivity.
  - intros c L V _. destruct (xx32_construct (e_cw e) Hcw (e_pf e) c V) as (s & E1 & R1). exists s. split; [exact E1|split; [exact R1|exact I]].
  - intros x s R1. constructor; [|constructor]. exact (RelB_len _ _ _ _ _ _ R1).
Qed.
Theorem len_tracks_xx64 e : tracks e Axx64 (len_inv e Axx64 32).
Proof.
  assert (Hcw : 2^64 = 2^64) by reflexivity.
  apply (tracks_intro e Axx64 _ _ _ _ _ (xx64_refines (2^64) Hcw (e_pf e)) (fits_true _ _ _ (xx64_ok_true (2^64) Hcw))).
  - intros x. split; reflexivity.
  - intros c L V _. destruct (xx64_construct (2^64) Hcw (e_pf e) c V) as (s & E1 & R1). exists s. split; [exact E1|split; [exact R1|exact I]].
  - intros x s R1. constructor; [|constructor]. exact (RelB_len _ _ _ _ _ _ R1).
Qed.
Theorem len_tracks_mur32 e : valid_env e -> tracks e Amur32 (len_inv e Amur32 4).
Proof.
  intros [Hcw HJ].
  apply (tracks_intro e Amur32 _ _ _ _ _ (mur32_refines (e_cw e) Hcw (e_le e) (e_junk e 4)) (fits_true _ _ _ (mur32_ok_true (e_cw e) Hcw))).
  - intros x. split; reflexivity.
  - intros c L V _. destruct (mur32_construct (e_cw e) Hcw (e_le e) (e_junk e 4) c (HJ _) V) as (s & E1 & R1). exists s. split; [exact E1|split; [exact R1|exact I]].
  - intros x s R1. constructor; [|constructor]. exact (RelB_len _ _ _ _ _ _ R1).
Qed.
Theorem len_tracks_mur128 e : valid_env e -> tracks e Amur128 (len_inv e Amur128 16).
Proof.
  intros [Hcw HJ].
  apply (tracks_intro e Amur128 _ _ _ _ _ (mur128_refines (e_cw e) Hcw (e_le e) (e_junk e 16)) (fits_true _ _ _ (mur128_ok_true (e_cw e) Hcw))).
  - intros x. split; reflexivity.
  - intros c L V _. destruct (mur128_construct (e_cw e) Hcw (e_le e) (e_junk e 16) c (HJ _) V) as (s & E1 & R1). exists s. split; [exact E1|split; [exact R1|exact I]].
  - intros x s R1. constructor; [|constructor]. exact (RelB_len _ _ _ _ _ _ R1).
Qed.
Theorem len_tracks_sp e : valid_env e -> tracks e Aspooky (len_inv e Aspooky 192).
Proof.
  intros [Hcw HJ].
  apply (tracks_intro e Aspooky _ _ _ _ _ (sp_refines (e_cw e) Hcw (e_le e) (e_junk e 192)) (sp_fits (e_cw e) Hcw)).
  - intros x. split; reflexivity.
  - intros c L HC HR. cbn [roomy] in HR.
    destruct (sp_construct (e_cw e) Hcw (e_le e) (e_junk e 192) c (HJ _) HC ltac:(lia)) as (s & E1 & R1).
    exists s. split; [exact E1|]. split; [exact R1|].
    pose proof (sp_start_weight (e_cw e) Hcw c HC) as HW.
    cbn [machine_of mc_start blk_machine]. destruct (sp_start (e_cw e) c) as [[st k] l]. lia.
  - intros x s R1. constructor; [|constructor]. exact (RelB_len _ _ _ _ _ _ R1).
Qed.

Definition cleared (B : nat) (b : list N * nat) : Prop := b = (repeat 0 B, 0%nat).
Lemma memset_all pf d B d' : length d = B -> memset pf d 0 0 B = Ok d' -> d' = repeat 0 B.
Proof.
  intros HL H. rewrite memset_ok in H by lia. injection H as <-. unfold splice. cbn [firstn app].
  rewrite skipn_all2 by (rewrite repeat_length; lia). apply app_nil_r.
Qed.
Lemma bind_inv {A B} (x : res A) (k : A -> res B) y : (v <- x ;; k v) = Ok y -> exists v, x = Ok v /\ k v = Ok y.
Proof. destruct x; try discriminate. eauto. Qed.
Ltac binv H := let v := fresh "v" in let E := fresh "E" in apply bind_inv in H; destruct H as (v & E & H); cbv beta in H.
Lemma ok_bbuf {R St} (x r : R) (st : St) buf m n s' : Ok (x, mkB st buf m n) = Ok (r, s') -> bbuf s' = (buf, m).
Proof. injection 1 as _ <-. reflexivity. Qed.
Lemma xx32_clear cw pf s r s' : length (b_buf s) = 16%nat -> xx32_result cw pf s = Ok (r, s') -> cleared 16 (bbuf s').
Proof.
  intros HL H. unfold xx32_result in H. binv H. clear v E.
  destruct (b_st s) as [[[v1 v2] v3] v4]. cbv zeta in H. binv H. destruct v as [[h1 p1] m1]. binv H. destruct v as [[h2 p2] m2].
  binv H. apply ok_bbuf in H. unfold cleared. rewrite H. clear H. now rewrite (memset_all pf (b_buf s) 16 v).
Qed.
Lemma xx64_clear cw pf s r s' : length (b_buf s) = 32%nat -> xx64_result cw pf s = Ok (r, s') -> cleared 32 (bbuf s').
Proof.
  intros HL H. unfold xx64_result in H. binv H. clear v E.
  destruct (b_st s) as [[[v1 v2] v3] v4]. cbv zeta in H. binv H. destruct v as [[h1 p1] m1]. binv H. destruct v as [[h2 p2] m2].
  binv H. destruct v as [[h3 p3] m3].
  binv H. apply ok_bbuf in H. unfold cleared. rewrite H. clear H. now rewrite (memset_all pf (b_buf s) 32 v).
Qed.
Lemma std_memset_all d B d' : length d = B -> std_memset d 0 0 B = Ok d' -> d' = repeat 0 B.
Proof. change std_memset with (memset (rt true)). apply memset_all. Qed.
Lemma mur32_clear cw s r s' : length (b_buf s) = 4%nat -> mur32_result cw s = Ok (r, s') -> cleared 4 (bbuf s').
Proof.
  intros HL H. unfold mur32_result in H. binv H. clear v E.
  cbv zeta in H. binv H. binv H. apply ok_bbuf in H. unfold cleared. rewrite H. clear H.
  now rewrite (std_memset_all (b_buf s) 4 v0).
Qed.
Lemma splice_length d off w : (off + length w <= length d)%nat -> length (splice d off w) = length d.
Proof. intros H. unfold splice. rewrite !app_length, firstn_length, skipn_length. lia. Qed.
Lemma std_memset_length d off ch n d' : std_memset d off ch n = Ok d' -> length d' = length d.
Proof.
  unfold std_memset. destruct (Nat.leb_spec (off + n) (length d)); [|discriminate]. injection 1 as <-.
  apply splice_length. now rewrite repeat_length.
Qed.
Lemma mur128_clear cw le s r s' : length (b_buf s) = 16%nat -> mur128_result cw le s = Ok (r, s') -> cleared 16 (bbuf s').
Proof.
  intros HL H. unfold mur128_result in H. binv H. clear v E. binv H. destruct (b_st s) as [a1 a2].
  binv H. binv H. binv H. binv H. cbv zeta in H. binv H. apply ok_bbuf in H. unfold cleared. rewrite H. clear H.
  rewrite (std_memset_all v 16 v4); [reflexivity| |exact E4].
  now rewrite (std_memset_length _ _ _ _ _ E).
Qed.
Lemma store_length d k v d' : store d k v = Ok d' -> length d' = length d.
Proof.
  unfold store. destruct (Nat.ltb_spec k (length d)); [|discriminate]. injection 1 as <-. apply splice_length. cbn [length]. lia.
Qed.
Lemma sp_clear cw le s r s' : length (b_buf s) = 192%nat -> sp_result cw le s = Ok (r, s') -> cleared 192 (bbuf s').
Proof.
  intros HL H. unfold sp_result in H. binv H. clear v E. destruct (b_st s) as [a0 a1 a2 a3 a4 a5 a6 a7 a8 a9 a10 a11].
  binv H. destruct v as [st buf]. cbv zeta in H. binv H.
  assert (LB : length buf = 192%nat).
  { destruct (b_n s <? 192).
    - binv E. destruct v0. injection E as <- <-. exact HL.
    - binv E. destruct v0 as [[st1 off] m1]. binv E. binv E. binv E. binv E. injection E as <- <-.
      apply std_memset_length in E2. apply store_length in E3. congruence. }
  destruct st. apply ok_bbuf in H. unfold cleared. rewrite H. clear H. now rewrite (std_memset_all buf 192 v).
Qed.

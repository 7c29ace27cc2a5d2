(* hash_append feeds the hash algorithm exactly the message of SpecAppend.v. *)
From Verif Require Import Base BaseFacts SpecCommon Hasher Types ModelResult ModelAppend SpecAppend ProofMsg ProofMsgEq.
Open Scope N_scope.

Definition order_le (e : endian) : bool := match e with ELittle => true | EBig => false end.

Lemma unsig_lt s z : unsig s z < 256 ^ N.of_nat (ibytes s).
Proof.
  unfold unsig. pose proof (Z.mod_pos_bound z (2 ^ (8 * Z.of_nat (ibytes s)))) as H.
  assert (0 < 2 ^ (8 * Z.of_nat (ibytes s)))%Z by (apply Z.pow_pos_nonneg; lia).
  specialize (H H0). apply N2Z.inj_lt. rewrite Z2N.id by lia. rewrite N2Z.inj_pow, nat_N_Z.
  change (Z.of_N 256) with (2 ^ 8)%Z. rewrite <- Z.pow_mul_r by lia. lia.
Qed.
Lemma enc_unsig le s z : enc le (ibytes s) z = if le then toLE (ibytes s) (unsig s z) else toBE (ibytes s) (unsig s z).
Proof. reflexivity. Qed.
Lemma write_enc pf s e z : write pf s e z = enc (order_le e) (ibytes s) z.
Proof.
  pose proof (unsig_lt s z) as HU. rewrite enc_unsig. unfold write.
  destruct s, e; cbn [order_le ibytes] in *; change toLE with le_bytes; change toBE with be_bytes;
    rewrite ?write16le_ok, ?write16be_ok, ?write32le_ok, ?write32be_ok, ?write64le_ok, ?write64be_ok; try reflexivity.
  - cbn [le_bytes]. rewrite N.mod_small by exact HU. reflexivity.
  - unfold be_bytes. cbn [le_bytes rev app]. rewrite N.mod_small by exact HU. reflexivity.
Qed.
Lemma rev1 k (v : N) : k = 1%nat -> rev (le_bytes k v) = le_bytes k v.
Proof. intros ->. reflexivity. Qed.
Lemma obj_int_enc i e s z : (endian_eqb e (native (im_pf i)) || Nat.eqb (ibytes s) 1)%bool = true ->
  obj_int i s z = enc (order_le e) (ibytes s) z.
Proof.
  intros H. rewrite enc_unsig. unfold obj_int, native in *. change toLE with le_bytes. unfold toBE. change toLE with le_bytes.
  apply orb_prop in H. destruct H as [H|H].
  - destruct (p_le (im_pf i)), e; try discriminate; reflexivity.
  - apply Nat.eqb_eq in H. rewrite rev1 by exact H. destruct (p_le _), (order_le e); reflexivity.
Qed.

Record fits_laws {A R} (au : A -> list N -> A) (ar : A -> R * A) (ok : A -> Prop) (fits : A -> nat -> Prop) : Prop := {
  fl_ok : forall a L, fits a L -> ok a;
  fl_mono : forall a L L', fits a L -> (L' <= L)%nat -> fits a L';
  fl_au : forall a d L, fits a (length d + L)%nat -> fits (au a d) L;
  fl_ar : forall a L, fits a (192 + L)%nat -> fits (snd (ar a)) L }.

Section Corr.
Variable h : hasher.
Variable nul : bool.
Variable A : Type.
Variable au : A -> list N -> A.
Variable ar : A -> h_R h * A.
Variable ok : A -> Prop.
Variable Rel : A -> h_S h -> Prop.
Hypothesis RF : refines h nul A au ar ok Rel.
(* [fits a L]: the algorithm in state [a] has room for L more bytes, each result() counting as 192 *)
Variable fits : A -> nat -> Prop.
Hypothesis FL : fits_laws au ar ok fits.
Variable gir : h_R h -> res N.
Variable g : h_R h -> N.
Hypothesis Hg : forall a, gir (fst (ar a)) = Ok (g (fst (ar a))).
Variable i : impl.
Variable f : flavor.

Notation le := (order_le (fl_order f)).
Notation MSG := (msg le (fl_size f) (im_psz i) (fadd0 i 8 23) (fadd0 i 11 52)).
Notation TMSG := (tup_msg le (fl_size f) (im_psz i) (fadd0 i 8 23) (fadd0 i 11 52)).
Notation HA := (ha h gir i f).
Definition qa (a : A) : list N -> N := fun m => g (fst (ar (au a m))).

Fixpoint ha_each (ts : list ty) (vs : list val) (st : h_S h) : res (h_S h) :=
  match ts, vs with
  | [], [] => Ok st
  | t :: ts, v :: vs => st <- HA t v st ;; ha_each ts vs st
  | _, _ => UB
  end.

(* "st becomes a state representing a followed by m" *)
Definition feeds (r : res (h_S h)) (a : A) (m : list N) : Prop :=
  exists s', r = Ok s' /\ Rel (au a m) s'.

Lemma fits_le a m k L : fits a (k + L)%nat -> (length m <= k)%nat -> fits (au a m) L.
Proof. intros F H. apply (fl_au _ _ _ _ FL). apply (fl_mono _ _ _ _ FL _ _ _ F). lia. Qed.
Lemma fits_mono a L L' : fits a L -> (L' <= L)%nat -> fits a L'.
Proof. apply (fl_mono _ _ _ _ FL). Qed.
Lemma feeds_update a s p n : Rel a s -> valid_arg nul p n -> fits a n -> feeds (h_update h s p n) a (data p n).
Proof.
  intros R V F. apply (rf_update _ _ _ _ _ _ _ RF a s p n R); [exact (fl_ok _ _ _ _ FL _ _ F)|exact V|].
  apply (fl_ok _ _ _ _ FL _ 0%nat). apply (fits_le a _ n); [apply (fits_mono a n _ F); lia|].
  rewrite (proj2 (valid_data _ _ _ V)). apply le_n.
Qed.
Lemma feeds_all a s l n : Rel a s -> bytes l -> n = length l -> fits a n -> feeds (h_update h s (Ptr l) n) a l.
Proof.
  intros R B -> F. pose proof (feeds_update a s (Ptr l) (length l) R (conj (le_n _) B) F) as F1.
  cbn [data] in F1. now rewrite firstn_all in F1.
Qed.
Lemma feeds_ok a s : Rel a s -> feeds (Ok s) a [].
Proof. intros R. exists s. rewrite (rf_nil _ _ _ _ _ _ _ RF). auto. Qed.
Lemma feeds_bind a r m k m2 : feeds r a m -> (forall s, Rel (au a m) s -> feeds (k s) (au a m) m2) ->
  feeds (s <- r ;; k s) a (m ++ m2).
Proof.
  intros (s1 & -> & R1) K. cbn [bind]. destruct (K s1 R1) as (s2 & E2 & R2). exists s2. split; [exact E2|].
  now rewrite <- (rf_app _ _ _ _ _ _ _ RF).
Qed.
Lemma qa_au a m : qeq (shift m (qa a)) (qa (au a m)).
Proof. intros x. unfold shift, qa. now rewrite (rf_app _ _ _ _ _ _ _ RF). Qed.

Lemma ha_int_feeds a s z st : Rel a st -> fits a (ibytes s) -> feeds (ha_int h i f s z st) a (enc le (ibytes s) z).
Proof.
  intros R F. unfold ha_int. destruct (negb _ && _) eqn:E.
  - apply andb_prop in E. destruct E as [_ E]. rewrite (obj_int_enc i (fl_order f) s z E).
    apply feeds_all; [exact R|apply enc_bytes|now rewrite enc_length|exact F].
  - rewrite write_enc. apply feeds_all; [exact R|apply enc_bytes|now rewrite enc_length|exact F].
Qed.
Lemma ha_zero_feeds a st : Rel a st -> fits a 1 -> feeds (ha_int h i f I8 0 st) a [0].
Proof.
  intros R F0. pose proof (ha_int_feeds a I8 0 st R F0) as F. replace [0] with (enc le (ibytes I8) 0); [exact F|].
  destruct (fl_order f); reflexivity.
Qed.
Lemma ha_size_of_feeds a z st : Rel a st -> fits a 8 -> feeds (ha_size_of h i f z st) a (enc le (ibytes (fl_size f)) z).
Proof.
  intros R F0. unfold ha_size_of.
  pose proof (ha_int_feeds a (fl_size f) (z mod 2 ^ (8 * Z.of_nat (ibytes (fl_size f)))) st R (fits_mono a _ _ F0 (ibytes_8 _))) as F.
  replace (enc le (ibytes (fl_size f)) z) with (enc le (ibytes (fl_size f)) (z mod 2 ^ (8 * Z.of_nat (ibytes (fl_size f))))); [exact F|].
  unfold enc. rewrite Z.mod_mod; [reflexivity|]. apply Z.pow_nonzero; lia.
Qed.
Lemma ha_size_feeds a n st : Rel a st -> fits a 8 -> feeds (ha_size h i f n st) a (size_msg le (fl_size f) n).
Proof. apply ha_size_of_feeds. Qed.

(* ha on composite types, with ha_each in place of the local loop *)
Lemma each_ha ts : forall vs st,
  (fix each (ts : list ty) (vs : list val) (st : h_S h) {struct ts} : res (h_S h) :=
    match ts, vs with
    | [], [] => Ok st
    | t :: ts, v :: vs => st <- HA t v st ;; each ts vs st
    | _, _ => UB
    end) ts vs st = ha_each ts vs st.
Proof.
  induction ts as [|t ts IH]; intros [|v vs] st; reflexivity.
Qed.
Lemma not_contig (x : bool) : (x && false)%bool = false. Proof. now destruct x. Qed.
Lemma ha_tuple ts vs st : ts <> [] -> HA (TTuple ts) (VList vs) st = ha_each ts vs st.
Proof.
  intros H. destruct ts as [|t ts]; [easy|]. rewrite <- (each_ha (t :: ts)). cbn [ha contiguously_hashable trivially_comparable andb].
  rewrite not_contig. reflexivity.
Qed.
Lemma ha_tag ts vs st : HA (TTag ts) (VList vs) st = ha_each ts vs st.
Proof.
  rewrite <- (each_ha ts). cbn [ha contiguously_hashable trivially_comparable andb].
  rewrite not_contig. reflexivity.
Qed.
Lemma ha_desc bs ms bv mv st : HA (TDesc bs ms) (VList [VList bv; VList mv]) st =
  (st <- ha_each bs bv st ;; st <- ha_each ms mv st ;;
   if Nat.eqb (length bs + length ms) 0 then ha_int h i f I8 0 st else Ok st).
Proof.
  rewrite <- (each_ha bs). cbn [ha contiguously_hashable trivially_comparable andb]. rewrite not_contig.
  match goal with |- bind ?x _ = _ => destruct x as [s1| | |] end; cbn [bind]; reflexivity.
Qed.

(* has_type on composite types *)
Lemma each_ty psz ts : forall vs,
  (fix all (ts : list ty) (vs : list val) {struct ts} : Prop :=
    match ts, vs with
    | [], [] => True
    | t :: ts, v :: vs => has_type psz t v /\ all ts vs
    | _, _ => False
    end) ts vs <-> Zip (has_type psz) ts vs.
Proof. induction ts as [|t ts IH]; intros [|v vs]; cbn [Zip]; try reflexivity. now rewrite IH. Qed.

(* the object representation of contiguously hashable values *)
Lemma size_of_scalar t : trivially_comparable t = true -> match t with TCArr _ _ => False | _ => True end.
Proof. now destruct t. Qed.
Lemma seq_msg_flat (m : val -> list N) M vs : Forall (fun v => forall q, M v q = m v) vs ->
  forall q, seq_msg M vs q = flat_map m vs.
Proof.
  induction 1 as [|v vs Hv Hvs IH]; intros q; [reflexivity|]. cbn [seq_msg flat_map]. rewrite Hv. f_equal. apply IH.
Qed.
Lemma spec_obj tec ei sz rep t v : (tec && (endian_eqb (fl_order f) (native (im_pf i)) || ei))%bool = true ->
  user_defined t /\ has_type (im_psz i) t v /\ spec_ok (im_psz i) tec ei sz rep t v ->
  (forall q, MSG t v q = rep (p_le (im_pf i)) v) /\ length (rep (p_le (im_pf i)) v) = sz /\ bytes (rep (p_le (im_pf i)) v).
Proof.
  intros HC (_ & _ & HS). apply andb_prop in HC. destruct HC as [HT HE]. destruct (HS HT) as [HM HI].
  assert (E : rep (p_le (im_pf i)) v = rep le v).
  { apply orb_prop in HE. destruct HE as [HE|HE].
    - unfold native in HE. destruct (p_le (im_pf i)), (fl_order f); try discriminate; reflexivity.
    - specialize (HI HE). destruct (p_le (im_pf i)), le; congruence. }
  rewrite E. destruct (HM le) as [HL HQ]. split; [intros q; apply HQ|]. split; [exact HL|].
  rewrite <- (HQ (fl_size f) (fadd0 i 8 23) (fadd0 i 11 52) (fun _ => 0)). apply msg_bytes.
Qed.
Lemma obj_msg t : contiguously_hashable i f t = true -> forall v, has_type (im_psz i) t v ->
  (forall q, MSG t v q = obj i t v) /\ length (obj i t v) = size_of i t /\ bytes (obj i t v).
Proof.
  assert (EB : forall s z, bytes (obj_int i s z) /\ length (obj_int i s z) = ibytes s).
  { intros s z. unfold obj_int. destruct (p_le _); split; rewrite ?rev_length; try apply bytes_rev;
      try apply le_bytes_bytes; apply le_bytes_length. }
  induction t using ty_rect'; cbn [contiguously_hashable trivially_comparable andb]; try discriminate; intros HC v HV;
    cbn [has_type] in HV; destruct v as [z|vs]; try easy.
  - cbn [obj size_of]. split; [|split; apply EB]. intros q. cbn [msg]. symmetry. apply obj_int_enc. exact HC.
  - cbn [obj size_of]. split; [|split; apply (EB I8)]. intros q. cbn [msg]. symmetry.
    change 1%nat with (ibytes I8). apply obj_int_enc. exact HC.
  - cbn [obj size_of]. split; [|split; apply EB]. intros q. cbn [msg]. symmetry. apply obj_int_enc. exact HC.
  - cbn [obj size_of]. split; [|split; apply EB]. intros q. cbn [msg]. symmetry. apply obj_int_enc. exact HC.
  - destruct HV as (_ & HL & HV). specialize (IHt HC). cbn [obj size_of msg]. split; [|split].
    + apply seq_msg_flat. eapply Forall_impl; [|exact HV]. intros v Hv. now apply IHt.
    + subst n. clear -IHt HV. induction HV as [|v vs Hv _ IH]; [reflexivity|]. cbn [flat_map length].
      rewrite app_length, IH. destruct (IHt v Hv) as (_ & -> & _). lia.
    + clear -IHt HV. induction HV as [|v vs Hv _ IH]; [constructor|]. cbn [flat_map].
      apply bytes_app. split; [|exact IH]. now apply IHt.
  - apply (spec_obj c e n r t (VInt z) HC HV).
  - apply (spec_obj c e n r t (VList vs) HC HV).
Qed.

(* the theorem, type by type *)
Definition P (t : ty) : Prop := forall v a s, Rel a s -> has_type (im_psz i) t v -> fits a (blen t v) ->
  feeds (HA t v s) a (MSG t v (qa a)).

Lemma ha_loop_feeds t vs : P t -> Forall (has_type (im_psz i) t) vs -> forall a s, Rel a s ->
  fits a (lsum (map (blen t) vs)) ->
  feeds (ha_loop h (HA t) vs s) a (seq_msg (MSG t) vs (qa a)).
Proof.
  intros HP. induction 1 as [|v vs Hv Hvs IH]; intros a s R F; cbn [ha_loop seq_msg].
  - now apply feeds_ok.
  - cbn [map lsum fold_right] in F. apply feeds_bind.
    + apply HP; [exact R|exact Hv|]. apply (fits_mono a _ _ F). lia.
    + intros s1 R1. rewrite (seq_msg_q _ _ _ _ _ t vs _ _ (qa_au a _)). apply IH; [exact R1|].
      apply (fits_le a _ _ _ F). apply msg_blen.
Qed.
Lemma ha_each_feeds ts : Forall P ts -> forall vs a s, Rel a s -> Zip (has_type (im_psz i)) ts vs ->
  fits a (tup_blen ts vs) ->
  feeds (ha_each ts vs s) a (TMSG ts vs (qa a)).
Proof.
  induction 1 as [|t ts Ht Hts IH]; intros [|v vs] a s R HZ F; cbn [Zip] in HZ; try easy; cbn [ha_each tup_msg].
  - now apply feeds_ok.
  - destruct HZ as [H1 H2]. cbn [tup_blen] in F. apply feeds_bind.
    + apply Ht; [exact R|exact H1|]. apply (fits_mono a _ _ F). lia.
    + intros s1 R1. rewrite (tup_msg_q _ _ _ _ _ ts vs _ _ (qa_au a _)). apply IH; [exact R1|exact H2|].
      apply (fits_le a _ _ _ F). apply msg_blen.
Qed.
Lemma tup_len ts vs q : (length (TMSG ts vs q) <= tup_blen ts vs)%nat.
Proof. apply tup_blen_ok. apply Forall_forall. intros t _. apply msg_blen. Qed.
Lemma seq_len t vs q : (length (seq_msg (MSG t) vs q) <= lsum (map (blen t) vs))%nat.
Proof. apply seq_blen. apply msg_blen. Qed.

Lemma flat_obj_length t vs : contiguously_hashable i f t = true -> Forall (has_type (im_psz i) t) vs ->
  length (flat_map (obj i t) vs) = (length vs * size_of i t)%nat /\ bytes (flat_map (obj i t) vs) /\
  forall q, seq_msg (MSG t) vs q = flat_map (obj i t) vs.
Proof.
  intros HC HV. split; [|split].
  - induction HV as [|v vs Hv _ IH]; [reflexivity|]. cbn [flat_map length]. rewrite app_length, IH.
    destruct (obj_msg t HC v Hv) as (_ & -> & _). lia.
  - induction HV as [|v vs Hv _ IH]; [constructor|]. cbn [flat_map]. apply bytes_app. split; [|exact IH].
    now apply obj_msg.
  - apply seq_msg_flat. eapply Forall_impl; [|exact HV]. intros v Hv. now apply obj_msg.
Qed.
Hypothesis Hnull : im_null i = true -> nul = true.
Lemma data_ptr_feeds a s vs l n : Rel a s -> (vs = [] -> l = []) -> bytes l -> n = length l -> fits a n ->
  feeds (h_update h s (data_ptr i vs l) n) a l.
Proof.
  intros R HE HB -> F. destruct vs as [|v vs]; [|now apply feeds_all]. cbn [data_ptr].
  destruct (im_null i) eqn:EN; [|now apply feeds_all]. rewrite (HE eq_refl) in *.
  apply (feeds_update a s Null 0 R); [|exact F]. split; [now apply Hnull|reflexivity].
Qed.
Lemma flat_nil {X Y} (g0 : X -> list Y) vs : vs = [] -> flat_map g0 vs = []. Proof. now intros ->. Qed.
Lemma contig_range t vs (HP : P t) a s : Forall (has_type (im_psz i) t) vs -> Rel a s ->
  fits a (lsum (map (blen t) vs)) ->
  feeds (ha_ptr_range h i f t (HA t) vs s) a (seq_msg (MSG t) vs (qa a)).
Proof.
  intros HV R F. unfold ha_ptr_range.
  assert (HG : feeds (if contiguously_hashable i f t
      then if negb (p_cx (im_pf i)) then h_update h s (data_ptr i vs (flat_map (obj i t) vs)) (length vs * size_of i t)
           else ha_loop h (HA t) vs s
      else ha_loop h (HA t) vs s) a (seq_msg (MSG t) vs (qa a))).
  { destruct (contiguously_hashable i f t) eqn:EC; [|now apply ha_loop_feeds].
    destruct (negb (p_cx (im_pf i))); [|now apply ha_loop_feeds].
    destruct (flat_obj_length t vs EC HV) as (EL & EB & EM). pose proof (seq_len t vs (qa a)) as SL. rewrite EM in SL |- *.
    apply data_ptr_feeds; [exact R|apply flat_nil|exact EB|now rewrite EL|]. apply (fits_mono a _ _ F). now rewrite EL in SL. }
  destruct t as [s0 sg| | | | | | | | | | | | | | | | | |]; try exact HG.
  destruct s0; try exact HG. destruct sg; try exact HG.
  assert (EC : contiguously_hashable i f (TInt I8 false) = true).
  { cbn [contiguously_hashable trivially_comparable andb]. unfold endian_independent. cbn [size_of ibytes Nat.eqb].
    apply orb_true_r. }
  destruct (flat_obj_length _ vs EC HV) as (EL & EB & EM). pose proof (seq_len (TInt I8 false) vs (qa a)) as SL. rewrite EM in SL |- *.
  rewrite EL in SL. cbn [size_of ibytes] in EL, SL. rewrite Nat.mul_1_r in EL, SL.
  apply data_ptr_feeds; [exact R|apply flat_nil|exact EB|now rewrite EL|]. exact (fits_mono a _ _ F SL).
Qed.

Lemma ha_unord_ok t vs (HP : P t) a s : Rel a s -> Forall (has_type (im_psz i) t) vs ->
  fits a (lsum (map (fun v => 192 + blen t v)%nat vs)) -> forall w m, w < 2^64 ->
  ha_unord h gir (HA t) s vs w m =
    Ok (sum64 (w :: map (fun v => qa a (MSG t v (qa a))) vs), (m + length vs)%nat).
Proof.
  intros R. induction 1 as [|v vs Hv Hvs IH]; intros F w m HW; cbn [ha_unord map].
  - unfold sum64. cbn [fold_right length]. rewrite N.add_0_r, N.mod_small by exact HW. do 2 f_equal. cbn [length]. lia.
  - cbn [map lsum fold_right] in F.
    assert (F1 : fits a (blen t v + 192)%nat) by (apply (fits_mono a _ _ F); lia).
    assert (F2 : fits a (lsum (map (fun v => 192 + blen t v)%nat vs))) by (apply (fits_mono a _ _ F); unfold lsum; lia).
    destruct (HP v a s R Hv) as (s1 & E1 & R1). { apply (fits_mono a _ _ F1). lia. }
    rewrite E1. cbn [bind].
    assert (F3 : fits (au a (MSG t v (qa a))) 192) by (apply (fits_le a _ _ _ F1); apply msg_blen).
    destruct (rf_result _ _ _ _ _ _ _ RF _ s1 R1) as (s2 & E2 & _).
    { exact (fl_ok _ _ _ _ FL _ _ F3). }
    { apply (fl_ok _ _ _ _ FL _ 0%nat). apply (fl_ar _ _ _ _ FL). exact F3. }
    rewrite E2. cbn [bind].
    rewrite Hg. cbn [bind]. rewrite IH; [|exact F2|].
    + f_equal. f_equal.
      * unfold sum64. cbn [fold_right]. unfold add64, w64.
        rewrite N.add_mod_idemp_l by discriminate. rewrite <- N.add_assoc. reflexivity.
      * cbn [length]. lia.
    + unfold add64, w64. apply N.mod_lt. discriminate.
Qed.

Lemma contig_feeds t v a s : contiguously_hashable i f t = true -> has_type (im_psz i) t v -> Rel a s -> fits a (blen t v) ->
  feeds (h_update h s (Ptr (obj i t v)) (size_of i t)) a (MSG t v (qa a)).
Proof.
  intros HC HV R F. destruct (obj_msg t HC v HV) as (EM & EL & EB).
  pose proof (msg_blen le (fl_size f) (im_psz i) (fadd0 i 8 23) (fadd0 i 11 52) t v (qa a)) as SL. rewrite EM in SL |- *.
  apply feeds_all; [exact R|exact EB|now rewrite EL|]. rewrite EL in SL. exact (fits_mono a _ _ F SL).
Qed.

Ltac contig EC := match goal with |- context [(negb ?x && ?y)%bool] =>
     destruct (negb x && y)%bool eqn:EC; [apply andb_prop in EC; destruct EC as [_ EC]|] end.
Ltac nocontig := cbn [ha contiguously_hashable trivially_comparable andb]; rewrite not_contig.
Ltac fm F := eapply fits_mono; [exact F|cbn [blen ibytes]; try apply ibytes_8; lia].
(* one call, given the hash_append of its values *)
Lemma form_feeds {T} (k : call_ T) t a st : P t -> Rel a st -> form_ok k (has_type (im_psz i) t) -> fits a (form_blen k (blen t)) ->
  feeds (form_ha h gir i f k t (HA t) st) a (form_msg le (fl_size f) k (MSG t) (qa a)).
Proof.
  intros HP R HV F. destruct k as [t' v|[|c] t' vs|[|c] t' vs|t' vs|z]; cbn [form_ok form_blen form_ha form_msg] in *.
  - now apply HP.
  - apply contig_range; [exact HP|exact HV|exact R|exact F].
  - apply ha_loop_feeds; [exact HP|exact HV|exact R|exact F].
  - apply feeds_bind.
    + apply contig_range; [exact HP|exact HV|exact R|]. fm F.
    + intros s1 R1. apply ha_size_feeds; [exact R1|]. rewrite Nat.add_comm in F. apply (fits_le a _ _ _ F), seq_len.
  - destruct c; (apply feeds_bind;
      [apply ha_loop_feeds; [exact HP|exact HV|exact R|fm F]|
       intros s1 R1; apply ha_size_feeds; [exact R1|]; rewrite Nat.add_comm in F; apply (fits_le a _ _ _ F), seq_len]).
  - rewrite (ha_unord_ok t vs HP a st R HV) by (reflexivity || fm F). cbn [bind Nat.add].
    apply feeds_bind.
    + apply (ha_int_feeds a I64 _ st R). fm F.
    + intros s1 R1. apply ha_size_feeds; [exact R1|]. apply (fits_le a _ 8 8); [fm F|]. rewrite enc_length. apply le_n.
  - now apply ha_size_of_feeds.
Qed.
Lemma user_feeds ts : Forall P ts -> forall cs a st, Rel a st -> Forall (UOK (im_psz i) ts) cs -> fits a (lsum (map (UBLEN ts) cs)) ->
  feeds (ha_loop h (fun c st => ucase (fun z => ha_size_of h i f z st) (fun t => form_ha h gir i f c t (HA t) st) UB ts c) cs st) a
    (seq_msg (UMSG le (fl_size f) (im_psz i) (fadd0 i 8 23) (fadd0 i 11 52) ts) cs (qa a)).
Proof.
  intros H. induction cs as [|c cs IH]; intros a st R HV F; cbn [ha_loop seq_msg].
  - now apply feeds_ok.
  - cbn [map lsum fold_right] in F. inversion HV as [|? ? V1 V2]; subst. apply feeds_bind.
    + assert (F1 : fits a (UBLEN ts c)) by (apply (fits_mono a _ _ F); lia). clear - H R V1 F1 RF FL Hg Hnull.
      unfold UOK, UBLEN, UMSG in *. ucases H ts c z t HP HI HAl; [|now apply form_feeds|contradiction].
      now apply ha_size_of_feeds.
    + intros s1 R1. rewrite (umsg_q _ _ _ _ _ ts cs _ _ (qa_au a _)). apply IH; [exact R1|exact V2|].
      apply (fits_le a _ _ _ F). apply umsg_blen.
Qed.
Theorem ha_msg t : P t.
Proof.
  induction t using ty_rect'; intros v a st R HV F.
  all: destruct v as [z|vs]; try easy.
  1-4: cbn [ha]; contig EC; [now apply contig_feeds|]; cbn [msg]; apply ha_int_feeds; [exact R|]; fm F.
  - nocontig. apply ha_int_feeds; [exact R|]. fm F.
  - nocontig. apply (ha_int_feeds a I32 _ st R). fm F.
  - nocontig. apply (ha_int_feeds a I64 _ st R). fm F.
  - (* C array *) cbn [ha]. contig EC; [now apply contig_feeds|]. cbn [msg].
    apply contig_range; [assumption|apply HV|exact R|]. fm F.
  - (* vector *) nocontig. cbn [msg blen] in *. apply feeds_bind.
    + apply contig_range; [assumption|apply HV|exact R|]. fm F.
    + intros s1 R1. apply ha_size_feeds; [exact R1|]. rewrite Nat.add_comm in F. apply (fits_le a _ _ _ F), seq_len.
  - (* list *) cbn [blen] in F. nocontig. destruct c; cbn [msg]; (apply feeds_bind;
      [apply ha_loop_feeds; [assumption|exact HV|exact R|fm F]|
       intros s1 R1; apply ha_size_feeds; [exact R1|]; rewrite Nat.add_comm in F; apply (fits_le a _ _ _ F), seq_len]).
  - (* array *) nocontig. cbn [has_type] in HV. destruct HV as [HL HV]. destruct vs as [|v vs]; cbn [length] in HL; subst n; cbn [Nat.eqb].
    + apply (ha_zero_feeds a st R). fm F.
    + apply contig_range; [assumption|exact HV|exact R|]. fm F.
  - nocontig. cbn [has_type] in HV. destruct HV as [HL HV]. destruct vs as [|v vs]; cbn [length] in HL; subst n; cbn [Nat.eqb].
    + apply (ha_zero_feeds a st R). fm F.
    + apply ha_loop_feeds; [assumption|exact HV|exact R|]. fm F.
  - (* unordered *) nocontig. cbn [blen] in F. rewrite (ha_unord_ok t vs IHt a st R HV) by (reflexivity || fm F). cbn [bind Nat.add].
    cbn [msg]. apply feeds_bind.
    + apply (ha_int_feeds a I64 _ st R). fm F.
    + intros s1 R1. apply ha_size_feeds; [exact R1|]. apply (fits_le a _ 8 8); [fm F|]. rewrite enc_length. apply le_n.
  - (* tuple *) cbn [has_type] in HV. rewrite each_ty in HV. destruct ts as [|t ts].
    + nocontig. apply (ha_zero_feeds a st R). fm F.
    + rewrite blen_tuple in F. rewrite ha_tuple, msg_tuple by discriminate. apply ha_each_feeds; [assumption..|]. fm F.
  - (* described *) cbn [has_type] in HV. destruct vs as [|[z|bv] [|[z2|mv] [|? ?]]]; try easy.
    rewrite !each_ty in HV. destruct HV as [HB HM]. rewrite ha_desc. rewrite blen_desc in F.
    assert (HD : (bs = [] /\ ms = []) \/ (bs <> [] \/ ms <> [])).
    { destruct bs; [destruct ms|]; [now left|right; right; discriminate|right; left; discriminate]. }
    destruct HD as [[-> ->]|HD].
    + destruct bv; [|easy]. destruct mv; [|easy]. cbn [ha_each bind length Nat.add Nat.eqb]. apply (ha_zero_feeds a st R). fm F.
    + rewrite msg_desc by exact HD. apply feeds_bind; [apply ha_each_feeds; [assumption..|]; fm F|]. intros s1 R1.
      replace (Nat.eqb (length bs + length ms) 0) with false
        by (destruct bs; [destruct ms; [destruct HD; easy|]|]; cbn [length]; symmetry; apply Nat.eqb_neq; lia).
      rewrite (tup_msg_q _ _ _ _ _ ms mv _ _ (qa_au a _)).
      rewrite <- (app_nil_r (TMSG ms mv (qa (au a (TMSG bs bv (qa a)))))).
      apply feeds_bind; [|intros s2 R2; now apply feeds_ok].
      apply ha_each_feeds; [assumption..|]. apply (fits_le a _ (tup_blen bs bv)); [fm F|apply tup_len].
  - (* tag_invoke *) cbn [has_type] in HV. rewrite each_ty in HV. destruct HV as [_ HV]. rewrite blen_tag in F.
    rewrite ha_tag, msg_tag. apply ha_each_feeds; [assumption..|]. fm F.
  - (* variant *) destruct vs as [|[k|?] [|v [|? ?]]]; try easy. cbn [has_type blen] in HV, F. destruct HV as [HI HV].
    nocontig. pose proof (ibytes_8 s). alt_cases H ts (Z.to_nat k) t HP HN HAl; [|easy]. destruct lead; cbn [msg]; rewrite HAl.
    + apply feeds_bind; [apply ha_int_feeds; [exact R|fm F]|]. intros s1 R1. rewrite HAl.
      rewrite (msg_ext _ _ _ _ _ t v _ _ (qa_au a _)). apply HP; [exact R1|exact HV|].
      apply (fits_le a _ 8); [fm F|now rewrite enc_length].
    + apply feeds_bind; [apply HP; [exact R|exact HV|fm F]|]. intros s1 R1. apply ha_int_feeds; [exact R1|].
      apply (fits_le a _ (blen t v)); [fm F|apply msg_blen].
  - (* any other tag_invoke *) rewrite has_type_user in HV. destruct HV as [_ HV]. rewrite blen_user in F. rewrite msg_user.
    nocontig. apply (user_feeds ts H (g0 (VInt z)) a st R HV). fm F.
  - rewrite has_type_user in HV. destruct HV as [_ HV]. rewrite blen_user in F. rewrite msg_user.
    nocontig. apply (user_feeds ts H (g0 (VList vs)) a st R HV). fm F.
  - cbn [ha]. contig EC; [now apply contig_feeds|]. apply (IHt (VInt z) a st R (proj1 (proj2 HV)) F).
  - cbn [ha]. contig EC; [now apply contig_feeds|]. apply (IHt (VList vs) a st R (proj1 (proj2 HV)) F).
Qed.

Theorem ha_call_msg k a st : Rel a st -> call_ok (im_psz i) k -> fits a (call_blen k) ->
  feeds (ha_call h gir i f k st) a (call_msg le (fl_size f) (im_psz i) (fadd0 i 8 23) (fadd0 i 11 52) k (qa a)).
Proof.
  destruct k as [t v|d t vs|d t vs|t vs|z]; cbn [call_ok call_blen ha_call call_msg]; intros R HV F.
  1-4: apply form_feeds; [apply ha_msg|exact R|exact HV|exact F].
  now apply ha_size_of_feeds.
Qed.
End Corr.

(* ---------- whether data() of an empty range is null only matters if there is one ---------- *)
Definition no_null (i : impl) : impl :=
  {| im_pf := im_pf i; im_psz := im_psz i; im_null := false; im_down := im_down i; im_nan := im_nan i |}.
Section Null.
Variable h : hasher.
Variable gir : h_R h -> res N.
Variable i : impl.
Variable f : flavor.
Notation H1 := (ha h gir i f).
Notation H2 := (ha h gir (no_null i) f).
Lemma loop_same {X : Type} (F G : X -> h_S h -> res (h_S h)) vs : Forall (fun v => forall st, F v st = G v st) vs ->
  forall st, ha_loop h F vs st = ha_loop h G vs st.
Proof. induction 1 as [|v vs E _ IH]; intros st; cbn [ha_loop]; [reflexivity|]. rewrite E. destruct (G v st); cbn [bind]; auto. Qed.
Lemma unord_same (F G : val -> h_S h -> res (h_S h)) vs : Forall (fun v => forall st, F v st = G v st) vs ->
  forall st w m, ha_unord h gir F st vs w m = ha_unord h gir G st vs w m.
Proof.
  induction 1 as [|v vs E _ IH]; intros st w m; cbn [ha_unord]; [reflexivity|]. rewrite E. destruct (G v st) as [s1| | | ]; cbn [bind]; auto.
  destruct (h_result h s1) as [[r s2]| | | ]; cbn [bind]; auto. destruct (gir r); cbn [bind]; auto.
Qed.
Lemma ptr_same t (F G : val -> h_S h -> res (h_S h)) vs st : vs <> [] -> Forall (fun v => forall st, F v st = G v st) vs ->
  ha_ptr_range h i f t F vs st = ha_ptr_range h (no_null i) f t G vs st.
Proof.
  intros HN E. unfold ha_ptr_range. change (contiguously_hashable (no_null i) f t) with (contiguously_hashable i f t).
  change (obj (no_null i)) with (obj i). change (size_of (no_null i)) with (size_of i). change (im_pf (no_null i)) with (im_pf i).
  rewrite (loop_same F G vs E st). destruct vs as [|v vs]; [easy|]. reflexivity.
Qed.
Definition same (t : ty) : Prop := forall v st, has_type (im_psz i) t v -> null_free t v -> H1 t v st = H2 t v st.
Lemma same_all t vs : same t -> Forall (has_type (im_psz i) t) vs -> Forall (null_free t) vs -> Forall (fun v => forall st, H1 t v st = H2 t v st) vs.
Proof. intros HS HT HN. rewrite Forall_forall in *. intros v Hv st. apply HS; auto. Qed.
Lemma each_same ts : Forall same ts -> forall vs st, Zip (has_type (im_psz i)) ts vs ->
  (fix all (ts : list ty) (vs : list val) : Prop :=
    match ts, vs with
    | t :: ts, v :: vs => null_free t v /\ all ts vs
    | _, _ => True
    end) ts vs -> ha_each h gir i f ts vs st = ha_each h gir (no_null i) f ts vs st.
Proof.
  induction 1 as [|t ts HS _ IH]; intros [|v vs] st HZ HN; try easy. cbn [ha_each]. destruct HZ as [Z1 Z2], HN as [N1 N2].
  rewrite (HS v st Z1 N1). destruct (H2 t v st); cbn [bind]; auto.
Qed.
Lemma form_same {T} (k : call_ T) t st : same t -> form_ok k (has_type (im_psz i) t) -> form_null k (null_free t) ->
  form_ha h gir i f k t (H1 t) st = form_ha h gir (no_null i) f k t (H2 t) st.
Proof.
  intros HS HT HN. destruct k as [t' v|[|c] t' vs|[|c] t' vs|t' vs|z]; cbn [form_ok form_null form_ha] in *.
  - now apply HS.
  - apply ptr_same; [apply HN|]. now apply same_all.
  - apply loop_same. now apply same_all.
  - destruct HN as [N1 N2]. rewrite (ptr_same t (H1 t) (H2 t) vs st N1 (same_all t vs HS HT N2)). reflexivity.
  - rewrite (loop_same (H1 t) (H2 t) vs (same_all t vs HS HT HN)). reflexivity.
  - rewrite (unord_same (H1 t) (H2 t) vs (same_all t vs HS HT HN)). reflexivity.
  - reflexivity.
Qed.
Definition UNF (ts : list ty) (c : call_ nat) : Prop :=
  ucase (fun _ => True) (fun t => form_null c (null_free t)) True ts c.
Lemma null_free_user g ts v : null_free (TUser g ts) v <-> Forall (UNF ts) (g v).
Proof. destruct v; reflexivity. Qed.
Lemma user_same ts : Forall same ts -> forall cs, Forall (UOK (im_psz i) ts) cs -> Forall (UNF ts) cs -> forall st,
  ha_loop h (fun c st => ucase (fun z => ha_size_of h i f z st) (fun t => form_ha h gir i f c t (H1 t) st) UB ts c) cs st =
  ha_loop h (fun c st => ucase (fun z => ha_size_of h (no_null i) f z st) (fun t => form_ha h gir (no_null i) f c t (H2 t) st) UB ts c) cs st.
Proof.
  intros H cs HT HN. apply loop_same. rewrite Forall_forall in HT, HN |- *. intros c Hc st. specialize (HT c Hc). specialize (HN c Hc). clear Hc.
  unfold UOK, UNF in *. ucases H ts c z t HP HI HAl; [reflexivity|now apply form_same|contradiction].
Qed.
Theorem ha_null t : same t.
Proof.
  assert (HL : forall (t : ty) (vs : list val) n, n <> 0%nat -> length vs = n -> vs <> []) by (intros ? [|] n; cbn; congruence).
  induction t using ty_rect'; intros v st HT HN; destruct v as [z|vs]; try easy.
  - cbn [has_type null_free] in *. cbn [ha]. destruct HT as (T1 & T2 & T3).
    rewrite (ptr_same t (H1 t) (H2 t) vs st); [reflexivity|now apply (HL t vs n)|now apply same_all].
  - cbn [has_type null_free] in *. cbn [ha]. rewrite (ptr_same t (H1 t) (H2 t) vs st); [reflexivity|apply HN|]. now apply same_all.
  - cbn [has_type null_free] in *. cbn [ha]. rewrite (loop_same (H1 t) (H2 t) vs); [reflexivity|]. now apply same_all.
  - cbn [has_type null_free] in *. cbn [ha]. destruct HT as [T1 T2]. destruct (Nat.eqb_spec n 0) as [->|T3]; [reflexivity|].
    rewrite (ptr_same t (H1 t) (H2 t) vs st); [reflexivity|now apply (HL t vs n)|now apply same_all].
  - cbn [has_type null_free] in *. cbn [ha]. destruct HT as [T1 T2]. rewrite (loop_same (H1 t) (H2 t) vs); [reflexivity|]. now apply same_all.
  - cbn [has_type null_free] in *. cbn [ha]. rewrite (unord_same (H1 t) (H2 t) vs); [reflexivity|]. now apply same_all.
  - cbn [has_type null_free] in *. rewrite each_ty in HT. destruct ts as [|t ts]; [reflexivity|].
    rewrite !ha_tuple by discriminate. now apply each_same.
  - cbn [has_type null_free] in *. destruct vs as [|[z|bv] [|[z2|mv] [|? ?]]]; try easy. rewrite !each_ty in HT.
    rewrite !ha_desc. rewrite (each_same bs H bv st) by tauto. destruct (ha_each h gir (no_null i) f bs bv st); cbn [bind]; auto.
    rewrite (each_same ms H0 mv) by tauto. reflexivity.
  - cbn [has_type null_free] in *. rewrite each_ty in HT. rewrite !ha_tag. now apply each_same.
  - destruct vs as [|[k|?] [|v [|? ?]]]; try easy. cbn [has_type null_free] in *. destruct HT as [_ HT].
    cbn [ha contiguously_hashable trivially_comparable andb]. rewrite !not_contig.
    alt_cases H ts (Z.to_nat k) t HP HI HAl; [|easy]. destruct lead.
    + change (ha_int h (no_null i) f s k st) with (ha_int h i f s k st). destruct (ha_int h i f s k st) as [s1| | |]; cbn [bind]; try reflexivity.
      rewrite !HAl. now apply HP.
    + rewrite (HP v st HT HN). reflexivity.
  - rewrite has_type_user in HT. rewrite null_free_user in HN. cbn [ha contiguously_hashable trivially_comparable andb]. rewrite !not_contig.
    now apply user_same.
  - rewrite has_type_user in HT. rewrite null_free_user in HN. cbn [ha contiguously_hashable trivially_comparable andb]. rewrite !not_contig.
    now apply user_same.
  - cbn [ha]. change (contiguously_hashable (no_null i) f) with (contiguously_hashable i f).
    rewrite (IHt (VInt z) st (proj1 (proj2 HT)) HN). reflexivity.
  - cbn [ha]. change (contiguously_hashable (no_null i) f) with (contiguously_hashable i f).
    rewrite (IHt (VList vs) st (proj1 (proj2 HT)) HN). reflexivity.
Qed.
Theorem call_null k st : call_ok (im_psz i) k -> call_null_free k -> ha_call h gir i f k st = ha_call h gir (no_null i) f k st.
Proof.
  destruct k as [t v|d t vs|d t vs|t vs|z]; cbn [call_ok call_null_free ha_call]; intros HT HN.
  1-4: apply form_same; [apply ha_null|exact HT|exact HN].
  reflexivity.
Qed.
End Null.

(* all together *)
Theorem call_feeds h nul A au ar ok Rel (RF : refines h nul A au ar ok Rel) fits (FL : fits_laws au ar ok fits) gir g
  (Hg : forall a, gir (fst (ar a)) = Ok (g (fst (ar a)))) i f k a st :
  (im_null i = true -> nul = true \/ call_null_free k) -> Rel a st -> call_ok (im_psz i) k -> fits a (call_blen k) ->
  feeds h A au Rel (ha_call h gir i f k st) a
    (call_msg (order_le (fl_order f)) (fl_size f) (im_psz i) (fadd0 i 8 23) (fadd0 i 11 52) k (qa h A au ar g a)).
Proof.
  intros HN R HK F.
  assert (D : (im_null i = true -> nul = true) \/ call_null_free k).
  { destruct (im_null i); [destruct (HN eq_refl); auto|left; discriminate]. }
  destruct D as [D|D].
  - eapply ha_call_msg; eassumption.
  - rewrite call_null by assumption. eapply (ha_call_msg h nul A au ar ok Rel RF fits FL gir g Hg (no_null i)); try assumption. discriminate.
Qed.


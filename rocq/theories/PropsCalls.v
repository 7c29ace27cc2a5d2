(* C74: the calls of update() that hash_append makes.  A user-defined hash algorithm sees them, and with the algorithms of the library
   they are what large objects and ranges cost. *)
From Verif Require Import Base BaseFacts SpecCommon Hasher Types ModelResult ModelAppend SpecAppend
  ProofMsg ProofMsgEq ProofMsgExt ProofAppend Behaves Instances ProofRuns PropsHistory Samples PropsAppend PropsTraits.
Open Scope N_scope.

(* the byte order of the flavor is that of the platform *)
Definition native_order (i : impl) (f : flavor) : Prop := order_le (fl_order f) = p_le (im_pf i).
(* reference/is_contiguously_hashable.adoc: is_contiguously_hashable<T, Flavor::byte_order> *)
Fixpoint storage_hashable (i : impl) (f : flavor) (t : ty) : Prop :=
  match t with
  | TInt s _ | TEnum s _ => native_order i f \/ s = I8
  | TBool => True
  | TPtr => native_order i f \/ im_psz i = I8
  | TCArr _ t => storage_hashable i f t
  | TSpec tec ei _ _ _ => tec = true /\ (native_order i f \/ ei = true)
  | _ => False
  end.
(* sizeof(T) *)
Fixpoint storage_size (i : impl) (t : ty) : nat :=
  match t with
  | TInt s _ | TEnum s _ => ibytes s
  | TBool => 1
  | TPtr => ibytes (im_psz i)
  | TCArr n t => n * storage_size i t
  | TSpec _ _ sz _ _ => sz
  | _ => 0
  end.
Lemma storage_trait i f t : storage_hashable i f t <-> contiguously_hashable i f t = true.
Proof.
  assert (HO : endian_eqb (fl_order f) (native (im_pf i)) = true <-> native_order i f).
  { unfold native_order, native. destruct (fl_order f), (p_le (im_pf i)); cbn; split; congruence. }
  assert (H1 : forall s, (ibytes s =? 1)%nat = true <-> s = I8) by (intros []; cbn; split; congruence).
  induction t using ty_rect'; cbn [storage_hashable contiguously_hashable trivially_comparable endian_independent size_of andb];
    rewrite ?andb_true_iff, ?orb_true_iff, ?HO, ?H1; try tauto; try (split; [easy|discriminate]).
Qed.
Lemma storage_sizeof i f t : storage_hashable i f t -> storage_size i t = size_of i t.
Proof. induction t using ty_rect'; cbn [storage_hashable storage_size size_of]; auto; try easy. Qed.

(* At run time, hash_append of a value of such a type is a single call update( &v, sizeof(v) ), whatever the algorithm *)
Theorem C74_value h gir i f t v st : p_cx (im_pf i) = false -> storage_hashable i f t -> has_type (im_psz i) t v ->
  exists l, length l = storage_size i t /\ (forall q, message i f t v q = l) /\
    ha_call h gir i f (KVal t v) st = h_update h st (Ptr l) (storage_size i t).
Proof.
  intros HX HS HV. pose proof (proj1 (storage_trait i f t) HS) as HC. rewrite (storage_sizeof i f t HS).
  destruct (C44_contiguous i f t v HC HV) as [HM HL]. exists (obj i t v). split; [exact HL|]. split; [exact HM|].
  cbn [ha_call form_ha]. destruct t; cbn [ha]; rewrite HX, HC; reflexivity.
Qed.
(* hash_append_range on pointers to such a type, of any length, is a single call update( first, ( last - first ) * sizeof(T) ) *)
Theorem C74_range h gir i f t vs st : p_cx (im_pf i) = false -> storage_hashable i f t -> Forall (has_type (im_psz i) t) vs ->
  exists l p, length l = (length vs * storage_size i t)%nat /\ (forall q, call_message i f (KRange IPtr t vs) q = l) /\ (p = Ptr l \/ vs = [] /\ p = Null) /\
    ha_call h gir i f (KRange IPtr t vs) st = h_update h st p (length vs * storage_size i t)%nat.
Proof.
  intros HX HS HV. pose proof (proj1 (storage_trait i f t) HS) as HC. rewrite (storage_sizeof i f t HS).
  destruct (flat_obj_length i f t vs HC HV) as (HL & _ & HM). exists (flat_map (obj i t) vs), (data_ptr i vs (flat_map (obj i t) vs)).
  split; [exact HL|]. split; [exact HM|]. split; [destruct vs; cbn [data_ptr]; [destruct (im_null i)|]; auto|].
  cbn [ha_call form_ha]. unfold ha_ptr_range. destruct t; try (rewrite HC, HX; reflexivity).
  destruct s; try (rewrite HC, HX; reflexivity). destruct sg; try (rewrite HC, HX; reflexivity). cbn [size_of ibytes]. now rewrite Nat.mul_1_r.
Qed.
(* bytes: also in constant evaluation *)
Theorem C74_bytes h gir i f vs st : Forall (has_type (im_psz i) (TInt I8 false)) vs ->
  exists l p, length l = length vs /\ (forall q, call_message i f (KRange IPtr (TInt I8 false) vs) q = l) /\ (p = Ptr l \/ vs = [] /\ p = Null) /\
    ha_call h gir i f (KRange IPtr (TInt I8 false) vs) st = h_update h st p (length vs).
Proof.
  intros HV. assert (HC : contiguously_hashable i f (TInt I8 false) = true) by (apply storage_trait; now right).
  destruct (flat_obj_length i f (TInt I8 false) vs HC HV) as (HL & _ & HM). exists (flat_map (obj i (TInt I8 false)) vs), (data_ptr i vs (flat_map (obj i (TInt I8 false)) vs)).
  split; [rewrite HL; cbn; lia|]. split; [exact HM|]. split; [destruct vs; cbn [data_ptr]; [destruct (im_null i)|]; auto|]. reflexivity.
Qed.
(* In both modes and for both byte orders: hash_append of an integer, bool, enumerator, pointer, nullptr or floating point number and
   hash_append_size are a single call of update() with all the bytes of the value *)
Definition scalar_size (i : impl) (t : ty) : option nat :=
  match t with
  | TInt s _ | TEnum s _ => Some (ibytes s)
  | TBool => Some 1%nat
  | TPtr | TNullptr => Some (ibytes (im_psz i))
  | TFlt32 => Some 4%nat
  | TFlt64 => Some 8%nat
  | _ => None
  end.
Lemma int_call h i f s z st : ha_int h i f s z st = h_update h st (Ptr (enc (order_le (fl_order f)) (ibytes s) z)) (ibytes s).
Proof.
  unfold ha_int. destruct (negb _ && _) eqn:E; [|now rewrite write_enc].
  apply andb_prop in E. now rewrite (obj_int_enc i (fl_order f) s z (proj2 E)).
Qed.
Theorem C74_scalar h gir i f t n v st : scalar_size i t = Some n -> has_type (im_psz i) t v ->
  exists l, length l = n /\ (forall q, message i f t v q = l) /\ ha_call h gir i f (KVal t v) st = h_update h st (Ptr l) n.
Proof.
  intros HS HV. destruct (p_cx (im_pf i)) eqn:HX.
  - assert (HI : forall s z, ha_int h i f s z st = h_update h st (Ptr (enc (order_le (fl_order f)) (ibytes s) z)) (ibytes s) /\
      length (enc (order_le (fl_order f)) (ibytes s) z) = ibytes s) by (intros s z; split; [apply int_call|apply enc_length]).
    destruct t; try discriminate; injection HS as <-; destruct v as [z|]; try contradiction; cbn [ha_call form_ha ha]; rewrite HX; cbn [negb andb];
      (match goal with |- exists l, _ /\ (forall q, message i f ?t ?v q = l) /\ _ => exists (message i f t v (fun _ => 0)) end; split; [apply enc_length|split; [intros q; reflexivity|rewrite int_call; reflexivity]]).
  - destruct (contiguously_hashable i f t) eqn:HC.
    + destruct (C74_value h gir i f t v st HX (proj2 (storage_trait i f t) HC) HV) as (l & HL & HM & E).
      assert (HN : storage_size i t = n) by (destruct t; try discriminate; injection HS as <-; reflexivity). rewrite HN in HL, E. eauto.
    + destruct t; try discriminate; injection HS as <-; destruct v as [z|]; try contradiction; cbn [ha_call form_ha ha]; rewrite HC, andb_false_r;
        (match goal with |- exists l, _ /\ (forall q, message i f ?t ?v q = l) /\ _ => exists (message i f t v (fun _ => 0)) end; split; [apply enc_length|split; [intros q; reflexivity|rewrite int_call; reflexivity]]).
Qed.
Theorem C74_size h gir i f z st : exists l, length l = ibytes (fl_size f) /\ (forall q, call_message i f (KSize z) q = l) /\
  ha_call h gir i f (KSize z) st = h_update h st (Ptr l) (ibytes (fl_size f)).
Proof.
  exists (call_message i f (KSize z) (fun _ => 0)). split; [apply enc_length|]. split; [intros q; reflexivity|]. cbn [ha_call]. unfold ha_size_of. rewrite int_call. apply (f_equal (fun l => h_update h st (Ptr l) (ibytes (fl_size f)))).
  unfold enc. rewrite Z.mod_mod; [reflexivity|]. apply Z.pow_nonzero; lia.
Qed.

(* An algorithm that keeps the byte sequences of the calls of update() *)
Definition spy : hasher :=
  {| h_S := list (list N); h_R := list (list N); h_init := []; h_seed := fun _ => Ok []; h_bytes := fun _ _ => Ok [];
     h_update := fun s p n => l <- padd p n ;; Ok (s ++ [data p n]); h_result := fun s => Ok (s, s) |}.
Definition calls_made (gir : list (list N) -> res N) (i : impl) (f : flavor) (k : call) : res (list (list N)) := ha_call spy gir i f k [].
Lemma spy_update p l st : p = Ptr l \/ l = [] /\ p = Null -> h_update spy st p (length l) = Ok (st ++ [l]).
Proof.
  intros [->|[-> ->]]; cbn [spy h_update].
  - unfold padd. rewrite Nat.leb_refl. cbn [bind data]. now rewrite firstn_all.
  - reflexivity.
Qed.
(* A contiguous container of such elements, at run time: two calls, the second with the size; also of bytes, in constant evaluation *)
Theorem C74_container gir i f t vs : p_cx (im_pf i) = false /\ storage_hashable i f t \/ t = TInt I8 false -> has_type (im_psz i) (TVec t) (VList vs) ->
  exists l1 l2, calls_made gir i f (KVal (TVec t) (VList vs)) = Ok [l1; l2] /\
    (forall q, call_message i f (KRange IPtr t vs) q = l1) /\ (forall q, call_message i f (KSize (Z.of_nat (length vs))) q = l2).
Proof.
  intros HT HV. cbn [has_type] in HV.
  assert (HR : exists l p, (forall q, call_message i f (KRange IPtr t vs) q = l) /\ (p = Ptr l \/ vs = [] /\ p = Null) /\ (vs = [] -> l = []) /\
    ha_call spy gir i f (KRange IPtr t vs) [] = h_update spy [] p (length l)).
  { destruct HT as [[HX HS]| ->].
    - destruct (C74_range spy gir i f t vs [] HX HS HV) as (l & p & HL & HM & HP & E). rewrite <- HL in E. exists l, p. split; [exact HM|]. split; [exact HP|]. split; [|exact E].
      intros ->. destruct l; [reflexivity|discriminate].
    - destruct (C74_bytes spy gir i f vs [] HV) as (l & p & HL & HM & HP & E). rewrite <- HL in E. exists l, p. split; [exact HM|]. split; [exact HP|]. split; [|exact E].
      intros ->. destruct l; [reflexivity|discriminate]. }
  destruct HR as (l & p & HM & HP & HE & E). destruct (C74_size spy gir i f (Z.of_nat (length vs)) [l]) as (l2 & HL2 & HM2 & E2).
  exists l, l2. split; [|split; assumption].
  unfold calls_made. assert (EA : ha_call spy gir i f (KVal (TVec t) (VList vs)) [] =
    bind (ha_call spy gir i f (KRange IPtr t vs) []) (fun st => ha_call spy gir i f (KSize (Z.of_nat (length vs))) st)).
  { cbn [ha_call form_ha ha contiguously_hashable trivially_comparable andb]. rewrite andb_false_r. reflexivity. }
  rewrite EA, E, spy_update by (destruct HP as [HP|[HP HN]]; auto). cbn [bind app]. rewrite E2, <- HL2. apply (spy_update (Ptr l2) l2 [l]). now left.
Qed.

(* ---------- concrete cases ---------- *)
(* int[3] and, on a big-endian platform with big_endian_flavor, the class pod of PropsTraits.v *)
Example C74_value_ex :
  calls_made (fun _ => Ok 0) (e_impl env_pc) le_flavor (KVal (TCArr 3 (TInt I32 true)) (VList [VInt 1; VInt (-2); VInt 3])) =
    Ok [[1; 0; 0; 0; 254; 255; 255; 255; 3; 0; 0; 0]] /\
  calls_made (fun _ => Ok 0) (e_impl env_be) be32_flavor (KVal pod (VList [VInt 258; VInt 5])) = Ok [[1; 2; 0; 5]].
Proof.
  split.
  - destruct (C74_value spy (fun _ => Ok 0) (e_impl env_pc) le_flavor (TCArr 3 (TInt I32 true)) (VList [VInt 1; VInt (-2); VInt 3]) []) as (l & HL & HM & E).
    + reflexivity.
    + now left.
    + split; [discriminate|]. split; [reflexivity|]. repeat constructor; unfold in_int; cbn; lia.
    + refine (eq_trans E _). rewrite <- HL. refine (eq_trans (spy_update (Ptr l) l [] (or_introl eq_refl)) _). rewrite <- (HM (fun _ => 0)). reflexivity.
  - destruct (C74_value spy (fun _ => Ok 0) (e_impl env_be) be32_flavor pod (VList [VInt 258; VInt 5]) []) as (l & HL & HM & E).
    + reflexivity.
    + split; [reflexivity|now left].
    + apply pod_val; unfold in_int; cbn; lia.
    + refine (eq_trans E _). rewrite <- HL. refine (eq_trans (spy_update (Ptr l) l [] (or_introl eq_refl)) _). rewrite <- (HM (fun _ => 0)). reflexivity.
Qed.
(* on the other byte order the elements of int[3] are appended one by one *)
Example C74_foreign_ex :
  calls_made (fun _ => Ok 0) (e_impl env_pc) be32_flavor (KVal (TCArr 3 (TInt I32 true)) (VList [VInt 1; VInt (-2); VInt 3])) =
    Ok [[0; 0; 0; 1]; [255; 255; 255; 254]; [0; 0; 0; 3]].
Proof. reflexivity. Qed.
(* std::vector<int> and std::string (here of char: signed) *)
Example C74_container_ex : exists l1 l2,
  calls_made (fun _ => Ok 0) (e_impl env_be) be32_flavor (KVal (TVec (TInt I16 true)) (VList [VInt 1; VInt (-2)])) = Ok [l1; l2] /\ l1 = [0; 1; 255; 254] /\ l2 = [0; 0; 0; 2].
Proof.
  destruct (C74_container (fun _ => Ok 0) (e_impl env_be) be32_flavor (TInt I16 true) [VInt 1; VInt (-2)]) as (l1 & l2 & E & H1 & H2).
  - left. split; [reflexivity|now left].
  - repeat constructor; unfold in_int; cbn; lia.
  - exists l1, l2. split; [exact E|]. rewrite <- (H1 (fun _ => 0)), <- (H2 (fun _ => 0)). split; reflexivity.
Qed.
Example C74_range_ex : exists p, ha_call spy (fun _ => Ok 0) (e_impl env_pc) le_flavor (KRange IPtr TPtr []) [] = h_update spy [] p 0.
Proof.
  destruct (C74_range spy (fun _ => Ok 0) (e_impl env_pc) le_flavor TPtr [] [] eq_refl (or_introl eq_refl) (Forall_nil _)) as (l & p & _ & _ & _ & E).
  exists p. exact E.
Qed.
Example C74_bytes_ex : let i := e_impl (set_cx env_pc true) in exists l p, l = [7; 8; 9] /\
  ha_call spy (fun _ => Ok 0) i be32_flavor (KRange IPtr (TInt I8 false) [VInt 7; VInt 8; VInt 9]) [] = h_update spy [] p 3 /\ p = Ptr l.
Proof.
  intros i. destruct (C74_bytes spy (fun _ => Ok 0) i be32_flavor [VInt 7; VInt 8; VInt 9] []) as (l & p & _ & HM & HP & E).
  - repeat constructor; unfold in_int; cbn; lia.
  - exists l, p. split; [rewrite <- (HM (fun _ => 0)); reflexivity|]. split; [exact E|]. destruct HP as [HP|[HP _]]; [exact HP|discriminate].
Qed.
(* -0.0 with the byte order of another platform *)
Example C74_scalar_ex : exists l, l = repeat 0 8 /\ ha_call spy (fun _ => Ok 0) (e_impl env_pc) be32_flavor (KVal TFlt64 (VInt (2 ^ 63))) [] = h_update spy [] (Ptr l) 8.
Proof.
  destruct (C74_scalar spy (fun _ => Ok 0) (e_impl env_pc) be32_flavor TFlt64 8 (VInt (2 ^ 63)) [] eq_refl) as (l & HL & HM & E).
  - cbn. lia.
  - exists l. split; [rewrite <- (HM (fun _ => 0)); reflexivity|exact E].
Qed.
Example C74_size_ex : exists l, l = [0; 0; 1; 0] /\ ha_call spy (fun _ => Ok 0) (e_impl env_pc) be32_flavor (KSize (2 ^ 32 + 256)) [] = h_update spy [] (Ptr l) 4.
Proof.
  destruct (C74_size spy (fun _ => Ok 0) (e_impl env_pc) be32_flavor (2 ^ 32 + 256) []) as (l & HL & HM & E).
  exists l. split; [rewrite <- (HM (fun _ => 0)); reflexivity|exact E].
Qed.

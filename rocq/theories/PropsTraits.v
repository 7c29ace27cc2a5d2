(* C44: user specialisations of is_trivially_equality_comparable and is_endian_independent, and what
   user-written tag_invoke overloads must respect. *)
From Verif Require Import Base BaseFacts SpecCommon Hasher Types ModelResult ModelAppend SpecAppend
  ProofMsg ProofMsgEq ProofMsgExt ProofAppend Behaves Instances ProofRuns PropsHistory Samples PropsAppend.
Open Scope N_scope.

(* the same type with the primary templates of the traits, i.e. without specialisations, at any depth *)
Fixpoint unspecialised (t : ty) : ty :=
  match t with
  | TSpec _ _ _ _ t => unspecialised t
  | TCArr n t => TCArr n (unspecialised t)
  | TVec t => TVec (unspecialised t)
  | TList c t => TList c (unspecialised t)
  | TArr n t => TArr n (unspecialised t)
  | TArrN n t => TArrN n (unspecialised t)
  | TUnord t => TUnord (unspecialised t)
  | TTuple ts => TTuple (map unspecialised ts)
  | TDesc bs ms => TDesc (map unspecialised bs) (map unspecialised ms)
  | TTag ts => TTag (map unspecialised ts)
  | TVar fst s ts => TVar fst s (map unspecialised ts)
  | TUser g ts => TUser g (map unspecialised ts)
  | t => t
  end.

Notation U := unspecialised.
Lemma alt_map {X} (F : ty -> X) d ts : forall n, alt F d (map U ts) n = alt (fun t => F (U t)) d ts n.
Proof. induction ts as [|t ts IH]; intros [|n]; cbn [map alt]; auto. Qed.
Lemma alt_ext {X} (F G : ty -> X) d ts : Forall (fun t => F t = G t) ts -> forall n, alt F d ts n = alt G d ts n.
Proof. induction 1 as [|t ts E _ IH]; intros [|n]; cbn [alt]; auto. Qed.
Lemma ucase_map {X} (z : Z -> X) F d ts c : ucase z F d (map U ts) c = ucase z (fun t => F (U t)) d ts c.
Proof. destruct c; cbn [ucase]; auto using alt_map. Qed.
Lemma ucase_ext {X} (z : Z -> X) F G d ts c : Forall (fun t => F t = G t) ts -> ucase z F d ts c = ucase z G d ts c.
Proof. intros H. destruct c; cbn [ucase]; auto using alt_ext. Qed.
Lemma Forall_all {X} (P : X -> Prop) l : (forall x, P x) -> Forall P l.
Proof. intros H. apply Forall_forall. auto. Qed.

Section Msg.
Variables (le : bool) (ss psz : isz) (fz32 fz64 : N -> N).
Notation MSG := (msg le ss psz fz32 fz64).
Notation TMSG := (tup_msg le ss psz fz32 fz64).
Lemma seq_u t : (forall v q, MSG (U t) v q = MSG t v q) -> forall vs q, seq_msg (MSG (U t)) vs q = seq_msg (MSG t) vs q.
Proof. intros H. induction vs as [|v vs IH]; intros q; [reflexivity|]. cbn [seq_msg]. rewrite H. f_equal. apply IH. Qed.
Lemma tup_u ts : Forall (fun t => forall v q, MSG (U t) v q = MSG t v q) ts -> forall vs q, TMSG (map U ts) vs q = TMSG ts vs q.
Proof.
  induction 1 as [|t ts H _ IH]; intros [|v vs] q; try reflexivity. cbn [map tup_msg]. rewrite H. f_equal. apply IH.
Qed.
Lemma form_u {T} (k : call_ T) t q : (forall v q, MSG (U t) v q = MSG t v q) -> form_msg le ss k (MSG (U t)) q = form_msg le ss k (MSG t) q.
Proof.
  intros H. destruct k; cbn [form_msg]; rewrite ?(seq_u t H); auto. do 4 f_equal. apply map_ext. intros v. now rewrite H.
Qed.
Lemma user_u ts : Forall (fun t => forall v q, MSG (U t) v q = MSG t v q) ts -> forall cs q,
  seq_msg (UMSG le ss psz fz32 fz64 (map U ts)) cs q = seq_msg (UMSG le ss psz fz32 fz64 ts) cs q.
Proof.
  intros H. induction cs as [|c cs IH]; intros q; [reflexivity|]. cbn [seq_msg].
  assert (E : UMSG le ss psz fz32 fz64 (map U ts) c q = UMSG le ss psz fz32 fz64 ts c q).
  { unfold UMSG. rewrite ucase_map. apply ucase_ext. eapply Forall_impl; [|exact H]. intros t Ht. now apply form_u. }
  rewrite E. f_equal. apply IH.
Qed.
Lemma msg_u t : forall v q, MSG (U t) v q = MSG t v q.
Proof.
  induction t using ty_rect'; intros v q; try reflexivity; try exact (IHt v q); destruct v as [z|vs]; try reflexivity.
  - apply (seq_u t IHt).
  - cbn [unspecialised msg]. f_equal. apply (seq_u t IHt).
  - cbn [unspecialised msg]. f_equal. apply (seq_u t IHt).
  - destruct vs; [reflexivity|]. apply (seq_u t IHt).
  - destruct vs; [reflexivity|]. apply (seq_u t IHt).
  - cbn [unspecialised msg]. do 4 f_equal. apply map_ext. intros v. now rewrite IHt.
  - destruct ts; reflexivity.
  - destruct ts as [|t ts]; [reflexivity|]. cbn [unspecialised]. rewrite !msg_tuple by discriminate. now apply tup_u.
  - destruct bs, ms; reflexivity.
  - cbn [unspecialised].
    assert (HD : (bs = [] /\ ms = []) \/ (bs <> [] \/ ms <> [])).
    { destruct bs; [destruct ms|]; [now left|right; right; discriminate|right; left; discriminate]. }
    destruct HD as [[-> ->]|HD]; [reflexivity|].
    destruct vs as [|[z|bv] [|[z2|mv] [|? ?]]]; try (destruct bs; [destruct ms; [now destruct HD|]|]; reflexivity).
    rewrite !msg_desc; [|exact HD|destruct HD as [HD|HD]; [left|right]; destruct bs, ms; (discriminate || easy)].
    rewrite !tup_u by assumption. reflexivity.
  - cbn [unspecialised]. rewrite !msg_tag. now apply tup_u.
  - destruct vs as [|[k|vs'] [|v [|? ?]]]; try (destruct lead; reflexivity).
    destruct lead; cbn [unspecialised msg]; f_equal; rewrite alt_map; apply alt_ext;
      (eapply Forall_impl; [|exact H]; intros t Ht; apply Ht).
  - cbn [unspecialised]. rewrite !msg_user. now apply user_u.
  - cbn [unspecialised]. rewrite !msg_user. now apply user_u.
Qed.
End Msg.

Lemma zip_u (P Q : ty -> val -> Prop) ts : Forall (fun t => forall v, P t v -> Q (U t) v) ts ->
  forall vs, Zip P ts vs -> Zip Q (map U ts) vs.
Proof. induction 1 as [|t ts H _ IH]; intros [|v vs] HZ; cbn [map Zip] in *; try easy. destruct HZ. auto. Qed.
Lemma zipw_u (P Q : ty -> val -> Prop) ts : Forall (fun t => forall v, P t v -> Q (U t) v) ts ->
  forall vs, ZipW P ts vs -> ZipW Q (map U ts) vs.
Proof. induction 1 as [|t ts H _ IH]; intros [|v vs] HZ; cbn [map ZipW] in *; try easy. destruct HZ. auto. Qed.
Lemma user_ok_u psz ts cs : Forall (fun t => forall v, has_type psz t v -> has_type psz (U t) v) ts ->
  Forall (UOK psz ts) cs -> Forall (UOK psz (map U ts)) cs.
Proof.
  intros H HF. eapply Forall_impl; [|exact HF]. intros c HC. unfold UOK in *. rewrite ucase_map.
  ucases H ts c z t HP HI HA; [exact I| |contradiction].
  destruct c; cbn [form_ok] in *; auto; (eapply Forall_impl; [exact HP|exact HC]).
Qed.
Lemma has_type_u psz t : forall v, has_type psz t v -> has_type psz (U t) v.
Proof.
  assert (HF : forall t, (forall v, has_type psz t v -> has_type psz (U t) v) -> forall vs, Forall (has_type psz t) vs -> Forall (has_type psz (U t)) vs).
  { intros t0 H vs HV. eapply Forall_impl; [|exact HV]. exact H. }
  induction t using ty_rect'; intros v HV; try exact HV; try (apply IHt, HV); destruct v as [z|vs]; try easy.
  - destruct HV as (H1 & H2 & H3). split; [exact H1|]. split; [exact H2|]. now apply HF.
  - exact (HF t IHt vs HV).
  - exact (HF t IHt vs HV).
  - destruct HV as (H2 & H3). split; [exact H2|]. now apply HF.
  - destruct HV as (H2 & H3). split; [exact H2|]. now apply HF.
  - exact (HF t IHt vs HV).
  - cbn [unspecialised]. rewrite has_type_tuple in *. now apply (zip_u (has_type psz)).
  - cbn [unspecialised]. destruct vs as [|[z|bv] [|[z2|mv] [|? ?]]]; try easy. rewrite has_type_desc in *. destruct HV.
    split; now apply (zip_u (has_type psz)).
  - cbn [unspecialised]. rewrite has_type_tag in *. destruct HV as [H1 H2]. split; [now destruct ts|now apply (zip_u (has_type psz))].
  - destruct vs as [|[k|?] [|v [|? ?]]]; try easy. cbn [unspecialised has_type] in *. destruct HV as [H1 H2]. split; [exact H1|].
    rewrite alt_map. alt_cases H ts (Z.to_nat k) t HP HI HA; [now apply HP|easy].
  - cbn [unspecialised]. rewrite has_type_user in *. split; [apply HV|now apply user_ok_u].
  - cbn [unspecialised]. rewrite has_type_user in *. split; [apply HV|now apply user_ok_u].
Qed.
Lemma user_null_u ts cs : Forall (fun t => forall v, null_free t v -> null_free (U t) v) ts ->
  Forall (UNF ts) cs -> Forall (UNF (map U ts)) cs.
Proof.
  intros H HF. eapply Forall_impl; [|exact HF]. intros c HC. unfold UNF in *. rewrite ucase_map.
  ucases H ts c z t HP HI HA; try exact I.
  destruct c as [t' v|[|d] t' vs|[|d] t' vs|t' vs|z]; cbn [form_null] in *; auto; try (destruct HC as [H1 HC]; split; [exact H1|]);
    (eapply Forall_impl; [exact HP|exact HC]).
Qed.
Lemma null_free_u t : forall v, null_free t v -> null_free (U t) v.
Proof.
  assert (HF : forall t, (forall v, null_free t v -> null_free (U t) v) -> forall vs, Forall (null_free t) vs -> Forall (null_free (U t)) vs).
  { intros t0 H vs HV. eapply Forall_impl; [|exact HV]. exact H. }
  induction t using ty_rect'; intros v HV; try exact HV; try (apply IHt, HV); destruct v as [z|vs]; try easy; try exact (HF t IHt vs HV).
  - destruct HV as [H1 H2]. split; [exact H1|]. now apply HF.
  - cbn [unspecialised]. rewrite null_free_tuple in *. now apply (zipw_u null_free).
  - cbn [unspecialised]. destruct vs as [|[z|bv] [|[z2|mv] [|? ?]]]; try easy. rewrite null_free_desc in *. destruct HV.
    split; now apply (zipw_u null_free).
  - change (null_free (TTuple ts) (VList vs)) in HV. change (null_free (TTuple (map U ts)) (VList vs)).
    rewrite null_free_tuple in *. now apply (zipw_u null_free).
  - destruct vs as [|[k|?] [|v [|? ?]]]; try easy. cbn [unspecialised null_free] in *.
    rewrite alt_map. alt_cases H ts (Z.to_nat k) t HP HI HA; [now apply HP|exact I].
  - cbn [unspecialised]. rewrite null_free_user in *. now apply user_null_u.
  - cbn [unspecialised]. rewrite null_free_user in *. now apply user_null_u.
Qed.
Lemma tup_blen_u ts : Forall (fun t => forall v, blen (U t) v = blen t v) ts -> forall vs, tup_blen (map U ts) vs = tup_blen ts vs.
Proof. induction 1 as [|t ts H _ IH]; intros [|v vs]; try reflexivity. cbn [map tup_blen]. now rewrite H, IH. Qed.
Lemma user_blen_u ts c : Forall (fun t => forall v, blen (U t) v = blen t v) ts -> UBLEN (map U ts) c = UBLEN ts c.
Proof.
  intros H. unfold UBLEN. rewrite ucase_map. apply ucase_ext. eapply Forall_impl; [|exact H]. intros t Ht.
  destruct c; cbn [form_blen]; auto; [f_equal|do 2 f_equal|do 2 f_equal]; apply map_ext; intros; now rewrite Ht.
Qed.
Lemma blen_u t : forall v, blen (U t) v = blen t v.
Proof.
  induction t using ty_rect'; intros v; try reflexivity; try exact (IHt v); destruct v as [z|vs]; try reflexivity;
    try (cbn [unspecialised blen]; do 2 f_equal; apply map_ext; intros v; now rewrite ?IHt).
  - cbn [unspecialised]. rewrite !blen_tuple. f_equal. now apply tup_blen_u.
  - cbn [unspecialised]. destruct vs as [|[z|bv] [|[z2|mv] [|? ?]]]; try reflexivity. rewrite !blen_desc, !tup_blen_u by assumption. reflexivity.
  - cbn [unspecialised]. rewrite !blen_tag. f_equal. now apply tup_blen_u.
  - destruct vs as [|[k|?] [|v [|? ?]]]; try reflexivity. cbn [unspecialised blen]. f_equal. rewrite alt_map. apply alt_ext.
    eapply Forall_impl; [|exact H]. intros t Ht. apply Ht.
  - cbn [unspecialised]. rewrite !blen_user. do 2 f_equal. apply map_ext. intros c. now apply user_blen_u.
  - cbn [unspecialised]. rewrite !blen_user. do 2 f_equal. apply map_ext. intros c. now apply user_blen_u.
Qed.

(* Specialisations that meet their documented requirements ([spec_ok], part of [has_type]) have no
   observable effect: hash_append of a value of a type with specialised traits at any depth
   (the type itself, elements of vectors and arrays, members, ...) leads to the same results as
   without the specialisations. *)
Theorem C44_only_optimisation e a f c pre t v post : valid_env e ->
  valid_program e a c (pre ++ [SAppend t v] ++ post) -> room e a c (pre ++ [SAppend t v] ++ post) ->
  exists rs, runs e a f c (pre ++ [SAppend t v] ++ post) = Ok rs /\
             runs e a f c (pre ++ [SAppend (unspecialised t) v] ++ post) = Ok rs.
Proof.
  intros HE HV HR. pose proof (valid_call _ _ _ _ _ _ HV) as [HT HN].
  apply call_same; try assumption.
  - eapply room_replace; [exact HR|]. unfold weight. cbn [map step_weight lsum fold_right call_blen form_blen]. rewrite blen_u. apply le_n.
  - split; [now apply has_type_u|]. intros H. destruct (HN H) as [H1|H1]; [now left|right]. now apply null_free_u.
  - intros q. unfold call_message. cbn [call_msg form_msg]. symmetry. apply msg_u.
Qed.

(* struct X { uint16_t a; int32_t... } without padding: two members appended in order of declaration;
   the bytes of the object are those of its members *)
Definition pod_rep (le : bool) (v : val) : list N :=
  match v with VList [VInt a; VInt b] => enc le 2 a ++ enc le 2 b | _ => [] end.
Definition pod : ty := TSpec true false 4 pod_rep (TTag [TInt I16 false; TInt I16 true]).
Definition rgb_rep (le : bool) (v : val) : list N :=
  match v with VList [VInt r; VInt g; VInt b] => enc le 1 r ++ enc le 1 g ++ enc le 1 b | _ => [] end.
(* the example of reference/is_endian_independent.adoc, here as a described class *)
Definition rgb : ty :=
  TSpec true true 3 (fun le v => match v with VList [_; m] => rgb_rep le m | _ => [] end)
    (TDesc [] [TInt I8 false; TInt I8 false; TInt I8 false]).
Lemma rgb_val psz r g b : in_int I8 false r -> in_int I8 false g -> in_int I8 false b ->
  has_type psz rgb (VList [VList []; VList [VInt r; VInt g; VInt b]]).
Proof.
  intros H1 H2 H3. split; [exact I|]. split; [cbn [has_type]; tauto|]. intros _. split.
  - intros le. split; [cbn; now rewrite !app_length, !enc_length|]. intros. cbn. now rewrite app_nil_r.
  - intros _. unfold rgb_rep, enc. cbn [toLE]. unfold toBE. reflexivity.
Qed.
Lemma pod_val psz a b : in_int I16 false a -> in_int I16 true b -> has_type psz pod (VList [VInt a; VInt b]).
Proof.
  intros H1 H2. split; [exact I|]. split; [cbn [has_type]; split; [discriminate|]; tauto|]. intros _. split; [|discriminate].
  intros le. split; [cbn; now rewrite app_length, !enc_length|]. intros. cbn. now rewrite app_nil_r.
Qed.
Example C44_only_optimisation_ex a : let t := TVec (TTuple [pod; rgb]) in
  let v := VList [VList [VList [VInt 515; VInt (-2)]; VList [VList []; VList [VInt 1; VInt 2; VInt 3]]]] in exists rs,
  runs env_pc a le_flavor (CSeed 7) (sample ++ [SAppend t v] ++ [SResult]) = Ok rs /\
  runs env_pc a le_flavor (CSeed 7) (sample ++ [SAppend (TVec (TTuple [TTag [TInt I16 false; TInt I16 true];
    TDesc [] [TInt I8 false; TInt I8 false; TInt I8 false]])) v] ++ [SResult]) = Ok rs.
Proof.
  intros t v. apply (C44_only_optimisation env_pc a le_flavor (CSeed 7) sample t v [SResult]); [exact env_pc_valid| |room_ex].
  apply after_sample; [reflexivity| |ok].
  constructor; [|constructor]. split; [apply pod_val; unfold in_int; cbn; lia|]. split; [|exact I]. apply rgb_val; unfold in_int; cbn; lia.
Qed.

(* For every type the trait is true of, the storage bytes are the message, as
   reference/is_contiguously_hashable.adoc demands. *)
Theorem C44_contiguous i f t v : contiguously_hashable i f t = true -> has_type (im_psz i) t v ->
  (forall q, message i f t v q = obj i t v) /\ length (obj i t v) = size_of i t.
Proof.
  intros HC HV.
  destruct (obj_msg i f t HC v HV) as (H1 & H2 & _).
  split; [exact H1|exact H2].
Qed.
Example C44_contiguous_ex : let i := e_impl env_be in
  message i be32_flavor (TCArr 2 rgb) (VList [VList [VList []; VList [VInt 1; VInt 2; VInt 3]]; VList [VList []; VList [VInt 4; VInt 5; VInt 6]]]) (fun _ => 0) =
  [1; 2; 3; 4; 5; 6].
Proof.
  intros i. refine (proj1 (C44_contiguous i be32_flavor (TCArr 2 rgb) _ eq_refl _) _).
  split; [discriminate|]. split; [reflexivity|]. constructor; [|constructor; [|constructor]]; apply rgb_val; unfold in_int; cbn; lia.
Qed.

(* ---------- what goes wrong otherwise ---------- *)
(* A class may be trivially equality comparable and endian independent in the sense of the
   documentation of these traits, and yet not contiguously hashable, contrary to "its implementation
   [...] is correct as long as those underlying traits are correct": the order of its members in
   memory and in its tag_invoke may differ.  struct X { uint8_t b; uint8_t a; } with a tag_invoke
   appending a, then b. *)
Definition swapped : ty := TTag [TInt I8 false; TInt I8 false].
Definition swapped_rep (le : bool) (v : val) : list N :=
  match v with VList [VInt a; VInt b] => [Z.to_N b; Z.to_N a] | _ => [] end.
Theorem C44_order_refuted :
  (* x == y is equivalent to memcmp( &x, &y, sizeof(x) ) == 0, and the representation is the same
     on little- and big-endian platforms *)
  (forall le v1 v2, has_type I64 swapped v1 -> has_type I64 swapped v2 ->
     (equal swapped v1 v2 <-> swapped_rep le v1 = swapped_rep le v2) /\ swapped_rep true v1 = swapped_rep false v1) /\
  (* but with both traits specialised accordingly run time and constant evaluation disagree *)
  exists r1 r2, r1 <> r2 /\
    runs env_pc Afnv32 le_flavor CDefault [SAppend (TSpec true true 2 swapped_rep swapped) (VList [VInt 1; VInt 2]); SResult] = Ok r1 /\
    runs (set_cx env_pc true) Afnv32 le_flavor CDefault [SAppend (TSpec true true 2 swapped_rep swapped) (VList [VInt 1; VInt 2]); SResult] = Ok r2.
Proof.
  split.
  - intros le v1 v2 T1 T2. split; [|reflexivity].
    destruct v1 as [z|[|[a1|?] [|[b1|?] [|? ?]]]]; cbn in T1; try tauto.
    destruct v2 as [z|[|[a2|?] [|[b2|?] [|? ?]]]]; cbn in T2; try tauto.
    cbn. unfold in_int in *. cbn in T1, T2. split.
    + intros (-> & -> & _). reflexivity.
    + intros E. injection E as E1 E2. repeat split; lia.
  - do 2 eexists. split; [|split; vm_compute; reflexivity]. discriminate.
Qed.

(* An enumeration with an operator== coarser than that of its values, as in
   reference/is_trivially_equality_comparable.adoc: whatever the traits are specialised to, equal values have
   different messages, since do_hash_append for enumerations appends the underlying value.  (And
   the type cannot have a tag_invoke: C42_ambiguous_refuted.) *)
Definition enum_eq (z1 z2 : Z) : Prop := (z1 mod 256 = z2 mod 256)%Z.
Theorem C44_enum_refuted i f tec ei sz rep q :
  let E := TSpec tec ei sz rep (TEnum I32 false) in
  enum_eq 0x204 0x704 /\ message i f E (VInt 0x204) q <> message i f E (VInt 0x704) q.
Proof.
  intros E. split; [reflexivity|]. unfold message, E. cbn [msg ibytes]. intros H.
  apply (enc_inj _ I32 false) in H; [discriminate|unfold in_int; cbn; lia|unfold in_int; cbn; lia].
Qed.

(* ---------- discriminated unions ---------- *)
(* A tag_invoke that appends the index of the alternative first, and then the alternative, makes
   different values of types that contain it hash the same for every algorithm, since sizes are
   appended after the elements: ( vector{ 0 }, uint8_t{ 7 } ) and ( vector{}, uint16_t{ 7 } ).
   Appending the index last is safe: [decodable], C28_parse. *)
Definition either (fst : bool) : ty := TVar fst I8 [TInt I8 false; TInt I16 false].
Definition ambiguous : ty := TTuple [TVec (TInt I8 false); either true].
Definition amb1 : val := VList [VList [VInt 0]; VList [VInt 0; VInt 7]].
Definition amb2 : val := VList [VList []; VList [VInt 1; VInt 7]].
Local Ltac okv := ok; try (change (Pos.to_nat 1) with 1%nat; ok).
Theorem C28_index_first_refuted :
  (forall psz, has_type psz ambiguous amb1 /\ has_type psz ambiguous amb2) /\
  (forall ss, regular ss ambiguous amb1 /\ regular ss ambiguous amb2) /\ ordered ambiguous /\ ~ equal ambiguous amb1 amb2 /\
  forall i q, message i big_endian_flavor ambiguous amb1 q = message i big_endian_flavor ambiguous amb2 q.
Proof.
  split; [intros psz; split; okv|]. split; [intros [] ; (refine (conj _ _); okv)|]. split; [cbn; tauto|]. refine (conj _ _).
  - cbn. intros (H & _). inversion H.
  - intros i q. reflexivity.
Qed.
Example C28_index_last_ex i f q1 q2 : let t := TTuple [TVec (TInt I8 false); either false] in
  message i f t amb1 q1 <> message i f t amb2 q2.
Proof.
  intros t E. destruct (C28_parse i f t amb1 amb2 [] [] q1 q2) as [_ H]; subst t.
  - cbn. tauto.
  - okv.
  - okv.
  - destruct f as [[] o]; okv.
  - destruct f as [[] o]; okv.
  - exact E.
  - cbn in H. destruct H as (H & _). inversion H.
Qed.
(* The index and the alternative, in the order of the calls *)
Theorem C32_variant e a f c pre fst s ts k v t post : valid_env e -> nth_error ts k = Some t ->
  let u := VList [VInt (Z.of_nat k); v] in
  valid_program e a c (pre ++ [SAppend (TVar fst s ts) u] ++ post) -> room e a c (pre ++ [SAppend (TVar fst s ts) u] ++ post) ->
  exists rs, runs e a f c (pre ++ [SAppend (TVar fst s ts) u] ++ post) = Ok rs /\
    runs e a f c (pre ++ (if fst then [SAppend (TInt s false) (VInt (Z.of_nat k)); SAppend t v]
                          else [SAppend t v; SAppend (TInt s false) (VInt (Z.of_nat k))]) ++ post) = Ok rs.
Proof.
  intros HE HT u HV HR. destruct (valid_call _ _ _ _ _ _ HV) as [HC HN]. subst u.
  assert (HA : forall (X : Type) (F : ty -> X) d, alt F d ts k = F t).
  { clear - HT. revert k HT. induction ts as [|t0 ts IH]; intros [|k] HT X F d; cbn in *; try discriminate; [congruence|].
    now apply IH. }
  cbn [call_ok has_type call_null_free null_free form_ok form_null] in HC, HN. rewrite Nat2Z.id, HA in HC. rewrite Nat2Z.id, HA in HN. destruct HC as [HC1 HC2].
  apply composite; try assumption.
  - assert (S1 : valid_step (nul_of a) (e_impl e) (SAppend (TInt s false) (VInt (Z.of_nat k)))) by (split; [exact HC1|intros _; right; exact I]).
    assert (S2 : valid_step (nul_of a) (e_impl e) (SAppend t v)) by (split; [exact HC2|exact HN]).
    destruct fst; (constructor; [|constructor; [|constructor]]); assumption.
  - destruct fst; repeat constructor; discriminate.
  - cbn [call_blen blen form_blen]. rewrite Nat2Z.id, HA. unfold weight. destruct fst; cbn [map step_weight lsum fold_right call_blen blen form_blen]; lia.
  - intros st. destruct fst; cbn [asteps]; rewrite machine_app; f_equal; unfold call_message; cbn [call_msg msg form_msg];
      rewrite Nat2Z.id, HA; f_equal. apply msg_ext. intros m. unfold aq, shift. now rewrite machine_app.
Qed.
Example C32_variant_ex a : exists rs,
  runs env_pc a be32_flavor (CSeed 7) (sample ++ [SAppend (either true) (VList [VInt 1; VInt 300])] ++ [SResult]) = Ok rs /\
  runs env_pc a be32_flavor (CSeed 7) (sample ++ [SAppend (TInt I8 false) (VInt 1); SAppend (TInt I16 false) (VInt 300)] ++ [SResult]) = Ok rs.
Proof. apply (C32_variant env_pc a be32_flavor (CSeed 7) sample true I8 [TInt I8 false; TInt I16 false] 1%nat (VInt 300) (TInt I16 false) [SResult]); [exact env_pc_valid|reflexivity|ex_side|ex_side]; change (Pos.to_nat 1) with 1%nat; ok. Qed.

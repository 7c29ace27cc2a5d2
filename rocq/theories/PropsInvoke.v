(* C51: classes with any user-written tag_invoke.  C52: recursive types. *)
From Verif Require Import Base BaseFacts SpecCommon Hasher Types ModelResult ModelAppend SpecAppend
  ProofMsg ProofMsgEq ProofMsgExt ProofAppend ProofUnfold Behaves Instances ProofRuns PropsHistory Samples PropsAppend.
Open Scope N_scope.

(* ---------- C51: hash_append of an object is what its tag_invoke does ---------- *)
(* the calls of tag_invoke, with the types of their arguments *)
Definition typed (ts : list ty) (c : call_ nat) : option call :=
  match c with
  | KVal n v => option_map (fun t => KVal t v) (nth_error ts n)
  | KRange k n vs => option_map (fun t => KRange k t vs) (nth_error ts n)
  | KSized k n vs => option_map (fun t => KSized k t vs) (nth_error ts n)
  | KUnord n vs => option_map (fun t => KUnord t vs) (nth_error ts n)
  | KSize z => Some (KSize z)
  end.
Lemma alt_nth ts k t : nth_error ts k = Some t -> forall (X : Type) (F : ty -> X) d, alt F d ts k = F t.
Proof.
  revert k. induction ts as [|t0 ts IH]; intros [|k] HT X F d; cbn in *; try discriminate; [congruence|]. now apply IH.
Qed.
Lemma typed_case ts c k : typed ts c = Some k ->
  (forall psz, UOK psz ts c <-> call_ok psz k) /\ UBLEN ts c = call_blen k /\ (UNF ts c <-> call_null_free k) /\
  forall le ss psz a b q, UMSG le ss psz a b ts c q = call_msg le ss psz a b k q.
Proof.
  intros H. unfold UOK, UBLEN, UNF, UMSG.
  destruct c as [n v|d n vs|d n vs|n vs|z]; cbn [typed ucase] in *;
    try (destruct (nth_error ts n) as [t|] eqn:E; [|discriminate]; cbn in H; pose proof (alt_nth ts n t E) as HA);
    injection H as <-; (split; [intros psz; rewrite ?HA; reflexivity|split; [rewrite ?HA; reflexivity|split; [rewrite ?HA; reflexivity|intros; rewrite ?HA; reflexivity]]]).
Qed.
Lemma typed_state cw a i f ts : forall cs ks s, map (typed ts) cs = map Some ks ->
  asteps (mc_au (machine_of cw a)) (mc_ar (machine_of cw a)) result64 (call_message i f) s (map SCall ks) =
  mc_au (machine_of cw a) s (seq_msg (UMSG (order_le (fl_order f)) (fl_size f) (im_psz i) (fadd0 i 8 23) (fadd0 i 11 52) ts) cs
    (aq (mc_au (machine_of cw a)) (mc_ar (machine_of cw a)) result64 s)).
Proof.
  induction cs as [|c cs IH]; intros [|k ks] s H; try discriminate; cbn [map asteps seq_msg]; [symmetry; apply machine_nil|].
  injection H as H1 H2. destruct (typed_case ts c k H1) as (_ & _ & _ & HM).
  rewrite (IH ks _ H2), machine_app. unfold call_message at 1 2. rewrite !HM. f_equal. f_equal. apply umsg_q. intros m. unfold aq, shift.
  now rewrite machine_app.
Qed.
(* hash_append( h, f, v ) of an object v of a class whose tag_invoke makes the calls g v leads to the
   same results as these calls made in its place, in any program *)
Theorem C51_calls e a f c pre g ts v ks post : valid_env e -> map (typed ts) (g v) = map Some ks ->
  valid_program e a c (pre ++ [SAppend (TUser g ts) v] ++ post) -> room e a c (pre ++ [SAppend (TUser g ts) v] ++ post) ->
  exists rs, runs e a f c (pre ++ [SAppend (TUser g ts) v] ++ post) = Ok rs /\
             runs e a f c (pre ++ map SCall ks ++ post) = Ok rs.
Proof.
  intros HE HK HV HR. destruct (valid_call _ _ _ _ _ _ HV) as [HC HN].
  cbn [call_ok form_ok] in HC. rewrite has_type_user in HC. destruct HC as [_ HC].
  cbn [call_null_free form_null] in HN. rewrite null_free_user in HN.
  apply composite; try assumption.
  - clear - HC HN HK. revert ks HK. induction (g v) as [|c cs IH]; intros [|k ks] HK; try discriminate; cbn [map]; constructor.
    + injection HK as H1 _. destruct (typed_case ts c k H1) as (HO & _ & HF & _). inversion HC; subst. split; [now apply HO|].
      intros E. destruct (HN E) as [H|H]; [now left|right]. inversion H; subst. now apply HF.
    + injection HK as _ H2. inversion HC; subst. apply IH; [assumption| |exact H2]. intros E. destruct (HN E) as [H'|H']; [now left|right].
      now inversion H'.
  - clear. induction ks; constructor; [discriminate|assumption].
  - cbn [call_blen form_blen]. rewrite blen_user. clear - HK. revert ks HK. induction (g v) as [|c cs IH]; intros [|k ks] HK; try discriminate; cbn [map lsum fold_right].
    + unfold weight. cbn. lia.
    + injection HK as H1 H2. destruct (typed_case ts c k H1) as (_ & HB & _). specialize (IH ks H2). rewrite HB, weight_cons. cbn [step_weight]. unfold lsum in IH. lia.
  - intros s. rewrite (typed_state (e_cw e) a (e_impl e) f ts (g v) ks s HK). unfold call_message. cbn [call_msg form_msg]. now rewrite msg_user.
Qed.
(* Objects that tag_invoke treats alike are hashed alike, whatever their representation *)
Theorem C51_same_calls e a f c pre g ts v1 v2 post : valid_env e -> g v1 = g v2 ->
  valid_program e a c (pre ++ [SAppend (TUser g ts) v1] ++ post) -> room e a c (pre ++ [SAppend (TUser g ts) v1] ++ post) ->
  exists rs, runs e a f c (pre ++ [SAppend (TUser g ts) v1] ++ post) = Ok rs /\
             runs e a f c (pre ++ [SAppend (TUser g ts) v2] ++ post) = Ok rs.
Proof.
  intros HE HG HV HR. destruct (valid_call _ _ _ _ _ _ HV) as [HC HN]. apply call_same; try assumption.
  - eapply room_replace; [exact HR|]. unfold weight. cbn [map step_weight lsum fold_right call_blen form_blen]. rewrite !blen_user, HG. lia.
  - cbn [valid_step call_ok form_ok call_null_free form_null] in *. rewrite has_type_user, null_free_user in *. rewrite <- HG. auto.
  - intros q. unfold call_message. cbn [call_msg form_msg]. now rewrite !msg_user, HG.
Qed.

(* A tag_invoke that calls h.update( p, n ) itself, as user code may when the contents of an object
   are bytes anyway: the same as hash_append_range( h, f, p, p + n ) for an unsigned char const* p.
   So the calls above cover it. *)
Definition byte_values (l : list N) : list val := map (fun b => VInt (Z.of_N b)) l.
Lemma enc_byte le b : b < 256 -> enc le 1 (Z.of_N b) = [b].
Proof.
  intros H. pose proof (C26_enc le 1 (Z.of_N b)) as (HL & HB & HV). destruct (enc le 1 (Z.of_N b)) as [|x [|? ?]]; try discriminate.
  assert (E : LE (if le then [x] else rev [x]) = x) by (destruct le; cbn; lia). rewrite E in HV. change (2 ^ (8 * Z.of_nat 1))%Z with 256%Z in HV.
  rewrite Z.mod_small in HV by lia. f_equal. lia.
Qed.
Lemma byte_range_msg i f l q : bytes l -> call_message i f (KRange IPtr (TInt I8 false) (byte_values l)) q = l.
Proof.
  intros H. unfold call_message. cbn [call_msg form_msg]. revert q. induction H as [|b l Hb Hl IH]; intros q; [reflexivity|].
  unfold byte_values. cbn [map seq_msg]. fold (byte_values l). rewrite IH. cbn [msg ibytes]. now rewrite enc_byte.
Qed.
Lemma byte_range_blen l : (length l <= call_blen (KRange IPtr (TInt I8 false) (byte_values l)))%nat.
Proof.
  cbn [call_blen form_blen]. unfold byte_values. induction l as [|b l IH]; [cbn; lia|]. unfold lsum in *. cbn [map fold_right length].
  change (blen (TInt I8 false) (VInt (Z.of_N b))) with 8%nat. lia.
Qed.
Lemma data_bytes nul p n : valid_arg nul p n -> bytes (data p n) /\ length (data p n) = n.
Proof.
  destruct p as [|l]; cbn [valid_arg data]; [intros [_ ->]; split; [constructor|reflexivity]|]. intros [H1 H2]. split.
  - unfold bytes in *. rewrite <- (firstn_skipn n l) in H2. apply Forall_app in H2. exact (proj1 H2).
  - rewrite firstn_length. lia.
Qed.
Theorem C51_update e a f c pre p n post : valid_env e -> valid_arg (nul_of a) p n ->
  valid_program e a c (pre ++ [SCall (KRange IPtr (TInt I8 false) (byte_values (data p n)))] ++ post) ->
  room e a c (pre ++ [SCall (KRange IPtr (TInt I8 false) (byte_values (data p n)))] ++ post) ->
  exists rs, runs e a f c (pre ++ [SCall (KRange IPtr (TInt I8 false) (byte_values (data p n)))] ++ post) = Ok rs /\
             runs e a f c (pre ++ [SUpdate p n] ++ post) = Ok rs.
Proof.
  intros HE HA HV HR. destruct (data_bytes _ _ _ HA) as [HB HL]. apply composite; try assumption.
  - constructor; [exact HA|constructor].
  - constructor; [discriminate|constructor].
  - pose proof (byte_range_blen (data p n)). unfold weight. cbn [map step_weight lsum fold_right]. rewrite HL in H. lia.
  - intros s. cbn [asteps]. now rewrite byte_range_msg.
Qed.
Example C51_update_ex g : exists rs,
  runs env_pc g be32_flavor (CSeed 7) (sample ++ [SCall (KRange IPtr (TInt I8 false) [VInt 1; VInt 255; VInt 0])] ++ [SResult]) = Ok rs /\
  runs env_pc g be32_flavor (CSeed 7) (sample ++ [SUpdate (Ptr [1; 255; 0; 9]) 3] ++ [SResult]) = Ok rs.
Proof.
  apply (C51_update env_pc g be32_flavor (CSeed 7) sample (Ptr [1; 255; 0; 9]) 3 [SResult]);
    [ex_side|split; [cbn; lia|ok]|ex_side|ex_side].
Qed.

(* doc/hash2/hashing_objects.adoc:369-396: class X { std::string a; int b; void const* c; ... }, where
   operator== and tag_invoke consider a and b only *)
Definition string_ : ty := TVec (TInt I8 true).
Definition X_invoke (v : val) : list (call_ nat) :=
  match v with VList [a; b; _] => [KVal 0%nat a; KVal 1%nat b] | _ => [] end.
Definition X : ty := TUser X_invoke [string_; TInt I32 true].
Lemma X_msg i f a b p q : message i f X (VList [a; b; p]) q = message i f (TTag [string_; TInt I32 true]) (VList [a; b]) q.
Proof. reflexivity. Qed.
Lemma X_type psz a b p : has_type psz X (VList [a; b; p]) <-> has_type psz string_ a /\ has_type psz (TInt I32 true) b.
Proof.
  unfold X. rewrite has_type_user. cbn [X_invoke]. split.
  - intros [_ H]. inversion H as [|? ? H1 H2]; subst. inversion H2 as [|? ? H3 H4]; subst. auto.
  - intros [H1 H2]. split; [constructor; exact I|]. constructor; [exact H1|]. constructor; [exact H2|constructor].
Qed.
(* c does not matter *)
Theorem C51_class_X e g f c pre a b p p' post : valid_env e ->
  valid_program e g c (pre ++ [SAppend X (VList [a; b; p])] ++ post) -> room e g c (pre ++ [SAppend X (VList [a; b; p])] ++ post) ->
  exists rs, runs e g f c (pre ++ [SAppend X (VList [a; b; p])] ++ post) = Ok rs /\
             runs e g f c (pre ++ [SAppend X (VList [a; b; p'])] ++ post) = Ok rs.
Proof. intros. now apply C51_same_calls. Qed.
Lemma reg_tag ss ts vs : ZipW (regular ss) ts vs -> regular ss (TTag ts) (VList vs).
Proof. intros H. change (regular ss (TTuple ts) (VList vs)). now apply regular_tuple. Qed.
(* a and b do *)
Lemma ints_eq s sg vs1 vs2 : Forall2 (equal (TInt s sg)) vs1 vs2 -> vs1 = vs2.
Proof. induction 1 as [|[x|?] [y|?] ? ? E _ IH]; cbn in *; try easy. now subst. Qed.
Theorem C51_class_X_distinct i f a b p a' b' p' q q' :
  has_type (im_psz i) X (VList [a; b; p]) -> has_type (im_psz i) X (VList [a'; b'; p']) ->
  regular (fl_size f) string_ a -> regular (fl_size f) string_ a' ->
  message i f X (VList [a; b; p]) q = message i f X (VList [a'; b'; p']) q' -> a = a' /\ b = b'.
Proof.
  rewrite !X_type, !X_msg. intros [T1 T2] [T3 T4] R1 R2 E.
  destruct (C28_parse i f (TTag [string_; TInt I32 true]) (VList [a; b]) (VList [a'; b']) [] [] q q') as [_ HE].
  - cbn. tauto.
  - rewrite has_type_tag. split; [discriminate|]. cbn [Zip]. auto.
  - rewrite has_type_tag. split; [discriminate|]. cbn [Zip]. auto.
  - apply reg_tag. cbn [ZipW]. destruct b; cbn; auto.
  - apply reg_tag. cbn [ZipW]. destruct b'; cbn; auto.
  - exact E.
  - rewrite equal_tag in HE. cbn [Zip2] in HE. destruct HE as (E1 & E2 & _). split.
    + destruct a as [x|x], a' as [y|y]; cbn in E1; try easy. f_equal. now apply (ints_eq I8 true).
    + destruct b as [x|x], b' as [y|y]; cbn in E2; try easy. now subst.
Qed.

(* doc/hash2/hashing_objects.adoc:406-434: the inline string.  class Str { uint8_t size_; char data_[ 32 ]; };
   tag_invoke is hash_append_range( h, f, v.data_, v.data_ + v.size_ ), hash_append_size( h, f, v.size_ ).
   (Its last parameter must be Str const&; the documentation says X const&.) *)
Definition Str_invoke (v : val) : list (call_ nat) :=
  match v with
  | VList [VInt size; VList data] => [KRange IPtr 0%nat (firstn (Z.to_nat size) data); KSize size]
  | _ => []
  end.
Definition Str : ty := TUser Str_invoke [TInt I8 true].
(* the objects: size_ <= 32 *)
Definition Str_ok (size : Z) (data : list val) : Prop :=
  (0 <= size <= 32)%Z /\ length data = 32%nat /\ Forall (has_type I64 (TInt I8 true)) data.
Definition contents (size : Z) (data : list val) : list val := firstn (Z.to_nat size) data.
Lemma Str_type psz size data : Str_ok size data -> has_type psz Str (VList [VInt size; VList data]).
Proof.
  intros (H1 & H2 & H3). unfold Str. rewrite has_type_user. cbn [Str_invoke]. split; [right; left; exact I|].
  constructor; [|constructor; [exact I|constructor]]. unfold UOK. cbn [ucase alt form_ok].
  rewrite <- (firstn_skipn (Z.to_nat size) data) in H3. apply Forall_app in H3. exact (proj1 H3).
Qed.
Lemma contents_length size data : Str_ok size data -> Z.of_nat (length (contents size data)) = size.
Proof. intros (H1 & H2 & _). unfold contents. rewrite firstn_length, H2. lia. Qed.
Lemma Str_msg i f size data q : Str_ok size data ->
  message i f Str (VList [VInt size; VList data]) q = message i f string_ (VList (contents size data)) q.
Proof.
  intros H. unfold message, Str. rewrite msg_user. cbn [Str_invoke seq_msg]. unfold UMSG. cbn [ucase alt form_msg].
  rewrite app_nil_r. unfold string_. cbn [msg]. unfold size_msg. fold (contents size data). rewrite (contents_length _ _ H). reflexivity.
Qed.
(* a Str hashes like a std::string with the same contents; so what the unused part of data_ holds is
   irrelevant *)
Theorem C51_inline_string e g f c pre size data post : valid_env e -> Str_ok size data ->
  valid_program e g c (pre ++ [SAppend Str (VList [VInt size; VList data])] ++ post) ->
  room e g c (pre ++ [SAppend Str (VList [VInt size; VList data])] ++ post) ->
  exists rs, runs e g f c (pre ++ [SAppend Str (VList [VInt size; VList data])] ++ post) = Ok rs /\
             runs e g f c (pre ++ [SAppend string_ (VList (contents size data))] ++ post) = Ok rs.
Proof.
  intros HE HS HV HR. destruct (valid_call _ _ _ _ _ _ HV) as [HC HN]. apply call_same; try assumption.
  - eapply room_replace; [exact HR|]. unfold weight. cbn [map step_weight lsum fold_right call_blen form_blen]. unfold Str. rewrite blen_user.
    cbn [Str_invoke map lsum fold_right]. unfold UBLEN at 1. cbn [ucase alt form_blen]. unfold string_. cbn [blen]. fold (contents size data). lia.
  - cbn [valid_step call_ok form_ok call_null_free form_null] in *. unfold Str in HC, HN. rewrite has_type_user in HC. rewrite null_free_user in HN.
    cbn [Str_invoke] in HC, HN. destruct HC as [_ HC]. split.
    + inversion HC; subst. assumption.
    + intros E. destruct (HN E) as [H|H]; [now left|right]. inversion H; subst. assumption.
  - intros q. apply Str_msg, HS.
Qed.
Theorem C51_inline_string_distinct i f size data size' data' q q' : Str_ok size data -> Str_ok size' data' ->
  message i f Str (VList [VInt size; VList data]) q = message i f Str (VList [VInt size'; VList data']) q' ->
  contents size data = contents size' data'.
Proof.
  intros H H' E. rewrite !Str_msg in E by assumption.
  assert (HR : forall size data, Str_ok size data -> regular (fl_size f) string_ (VList (contents size data))).
  { intros s d HS. split; [|apply Forall_forall; intros [|] _; exact I]. rewrite (contents_length _ _ HS). destruct HS as [HS _].
    destruct (fl_size f); cbn; lia. }
  assert (HT : forall size data, Str_ok size data -> has_type (im_psz i) string_ (VList (contents size data))).
  { intros s d HS. pose proof (Str_type (im_psz i) s d HS) as T. unfold Str in T. rewrite has_type_user in T. destruct T as [_ T].
    cbn [Str_invoke] in T. inversion T; subst. assumption. }
  destruct (C28_parse i f string_ (VList (contents size data)) (VList (contents size' data')) [] [] q q') as [_ HE]; auto.
  - exact I.
  - now apply (ints_eq I8 true).
Qed.
Example C51_X_ex g : exists rs,
  runs env_pc g be32_flavor (CSeed 7) (sample ++ [SAppend X (VList [VList [VInt 104; VInt 105]; VInt (-7); VInt 1000])] ++ [SResult]) = Ok rs /\
  runs env_pc g be32_flavor (CSeed 7) (sample ++ [SAppend X (VList [VList [VInt 104; VInt 105]; VInt (-7); VInt 2000])] ++ [SResult]) = Ok rs.
Proof. apply C51_class_X; ex_side; try (left; exact I); ok. Qed.
Example C51_calls_ex g : exists rs,
  runs env_pc g be32_flavor (CSeed 7) (sample ++ [SAppend X (VList [VList [VInt 104; VInt 105]; VInt (-7); VInt 1000])] ++ [SResult]) = Ok rs /\
  runs env_pc g be32_flavor (CSeed 7) (sample ++ [SAppend string_ (VList [VInt 104; VInt 105]); SAppend (TInt I32 true) (VInt (-7))] ++ [SResult]) = Ok rs.
Proof.
  apply (C51_calls env_pc g be32_flavor (CSeed 7) sample X_invoke [string_; TInt I32 true] _ [KVal string_ (VList [VInt 104; VInt 105]); KVal (TInt I32 true) (VInt (-7))]);
    ex_side; try (left; exact I); ok.
Qed.
Definition hi_data (x : Z) : list val := [VInt 104; VInt 105] ++ repeat (VInt x) 30.
Example C51_inline_ok x : (-128 <= x < 128)%Z -> Str_ok 2 (hi_data x) /\ contents 2 (hi_data x) = [VInt 104; VInt 105].
Proof. intros H. split; [|reflexivity]. unfold Str_ok, hi_data. cbn [repeat app]. repeat split; try lia. repeat (constructor; [unfold has_type, in_int; cbn; lia|]). constructor. Qed.

(* ---------- C52: recursive types ---------- *)
(* which unfolding a value is regarded as a value of does not matter *)
Theorem C52_unfolding e a f c pre t n m v post : valid_env e -> user_defined t -> (n <= m)%nat ->
  valid_program e a c (pre ++ [SAppend (unfolding t n) v] ++ post) -> room e a c (pre ++ [SAppend (unfolding t n) v] ++ post) ->
  exists rs, runs e a f c (pre ++ [SAppend (unfolding t n) v] ++ post) = Ok rs /\
             runs e a f c (pre ++ [SAppend (unfolding t m) v] ++ post) = Ok rs.
Proof.
  intros HE HU HL HV HR. destruct (valid_call _ _ _ _ _ _ HV) as [HC HN]. cbn [call_ok form_ok call_null_free form_null] in HC, HN.
  pose proof (proj2 (unfolding_le t n m HU HL) _ _ HC) as HS. apply call_same; try assumption.
  - eapply room_replace; [exact HR|]. unfold weight. cbn [map step_weight lsum fold_right call_blen form_blen]. rewrite (sv_blen _ _ _ _ HS). lia.
  - split; [apply HS|]. intros H. destruct (HN H) as [H1|H1]; [now left|right]. now apply HS.
  - intros q. apply HS.
Qed.
(* values that are distinct are distinguished, however deep they are *)
Theorem C52_distinct i f t v1 v2 n1 n2 q1 q2 : user_defined t -> decodable t ->
  has_type (im_psz i) (unfolding t n1) v1 -> has_type (im_psz i) (unfolding t n2) v2 ->
  regular (fl_size f) (unfolding t n1) v1 -> regular (fl_size f) (unfolding t n2) v2 ->
  message i f (unfolding t n1) v1 q1 = message i f (unfolding t n2) v2 q2 ->
  forall m, (n1 <= m)%nat -> (n2 <= m)%nat -> equal (unfolding t m) v1 v2.
Proof.
  intros HU HD T1 T2 R1 R2 E m L1 L2.
  pose proof (proj2 (unfolding_le t n1 m HU L1) _ _ T1) as S1. pose proof (proj2 (unfolding_le t n2 m HU L2) _ _ T2) as S2.
  apply (C28_parse i f (unfolding t m) v1 v2 [] [] q1 q2).
  - now apply unfolding_decodable.
  - apply S1.
  - apply S2.
  - now apply S1.
  - now apply S2.
  - cbn [app]. unfold message in *. rewrite <- (sv_msg _ _ _ _ S1), <- (sv_msg _ _ _ _ S2). exact E.
Qed.

(* struct node { int32_t x; std::vector<node> children; }, with a tag_invoke appending x, then children *)
Definition node : ty := TTag [TInt I32 true; TVec hole].
Inductive tree := Node (x : Z) (children : list tree).
Section TreeInd.
Variable P : tree -> Prop.
Hypothesis H : forall x l, Forall P l -> P (Node x l).
Fixpoint tree_ind' (t : tree) : P t :=
  match t with Node x l => H x l ((fix all l := match l return Forall P l with [] => Forall_nil P | t :: l => Forall_cons t (tree_ind' t) (all l) end) l) end.
End TreeInd.
Fixpoint tree_val (t : tree) : val := match t with Node x l => VList [VInt x; VList (map tree_val l)] end.
Fixpoint depth (t : tree) : nat := match t with Node _ l => S (fold_right Nat.max 0%nat (map depth l)) end.
Inductive tree_ok (ss : isz) : tree -> Prop :=
| tree_ok_node x l : in_int I32 true x -> (Z.of_nat (length l) < 2 ^ (8 * Z.of_nat (ibytes ss)))%Z -> Forall (tree_ok ss) l -> tree_ok ss (Node x l).
Lemma unfolding_node n : unfolding node (S n) = TTag [TInt I32 true; TVec (unfolding node n)].
Proof. reflexivity. Qed.
Lemma depth_child x l n : (depth (Node x l) <= S n)%nat -> Forall (fun t => (depth t <= n)%nat) l.
Proof.
  cbn [depth]. intros H. apply le_S_n in H. revert H. induction l as [|t l IH]; intros H; constructor; cbn in H; [lia|apply IH; lia].
Qed.
Lemma tree_typed psz ss : forall n t, tree_ok ss t -> (depth t <= n)%nat ->
  has_type psz (unfolding node n) (tree_val t) /\ regular ss (unfolding node n) (tree_val t).
Proof.
  induction n as [|n IH]; intros [x l] HO HD; [cbn in HD; lia|]. inversion HO as [? ? O1 O2 O3]; subst. apply depth_child in HD.
  rewrite unfolding_node. cbn [tree_val].
  assert (HC : Forall (fun v => has_type psz (unfolding node n) v /\ regular ss (unfolding node n) v) (map tree_val l)).
  { rewrite Forall_map. rewrite Forall_forall in *. intros t Ht. apply IH; auto. }
  apply Forall_and_inv in HC. destruct HC as [C1 C2]. split.
  - rewrite has_type_tag. split; [discriminate|]. cbn [Zip]. split; [exact O1|]. split; [exact C1|exact I].
  - apply reg_tag. cbn [ZipW]. split; [exact I|]. split; [|exact I].
    cbn [regular]. rewrite map_length. auto.
Qed.
Lemma tree_equal : forall n t1 t2, equal (unfolding node n) (tree_val t1) (tree_val t2) -> t1 = t2.
Proof.
  induction n as [|n IH]; intros [x1 l1] [x2 l2] HE; [cbn in HE; contradiction|]. rewrite unfolding_node in HE. cbn [tree_val] in HE.
  rewrite equal_tag in HE. cbn [Zip2] in HE. destruct HE as (E1 & E2 & _). cbn [equal] in E1, E2. subst x2. f_equal.
  revert l2 E2. induction l1 as [|t1 l1 IHl]; intros [|t2 l2] E2; cbn [map] in E2; inversion E2; subst; [reflexivity|]. f_equal; auto.
Qed.
(* trees are told apart by what is fed for them, at whatever depth *)
Theorem C52_tree i f t1 t2 n1 n2 q1 q2 : tree_ok (fl_size f) t1 -> tree_ok (fl_size f) t2 -> (depth t1 <= n1)%nat -> (depth t2 <= n2)%nat ->
  (message i f (unfolding node n1) (tree_val t1) q1 = message i f (unfolding node n2) (tree_val t2) q2 <-> t1 = t2).
Proof.
  intros O1 O2 D1 D2. destruct (tree_typed (im_psz i) (fl_size f) n1 t1 O1 D1) as [T1 R1]. destruct (tree_typed (im_psz i) (fl_size f) n2 t2 O2 D2) as [T2 R2].
  split.
  - intros E. apply (tree_equal (Nat.max n1 n2)). eapply C52_distinct; try eassumption; try lia; [exact I|cbn; tauto].
  - intros <-. pose proof (proj2 (unfolding_le node n1 (Nat.max n1 n2) I (Nat.le_max_l _ _)) _ _ T1) as S1.
    pose proof (proj2 (unfolding_le node n2 (Nat.max n1 n2) I (Nat.le_max_r _ _)) _ _ T2) as S2. unfold message.
    rewrite (sv_msg _ _ _ _ S1), (sv_msg _ _ _ _ S2). apply msg_q_indep. apply decodable_ordered, unfolding_decodable. cbn. tauto.
Qed.
(* a concrete tree, 1( 2, 3( 4 ) ), against 1( 2( 4 ), 3 ), at different unfoldings *)
Definition tree_a : tree := Node 1 [Node 2 []; Node 3 [Node 4 []]].
Definition tree_b : tree := Node 1 [Node 2 [Node 4 []]; Node 3 []].
Lemma trees_ok : tree_ok I64 tree_a /\ tree_ok I64 tree_b.
Proof. split; repeat (constructor; try (unfold in_int; cbn; lia)). Qed.
Example C52_tree_ex i q : message i little_endian_flavor (unfolding node 3) (tree_val tree_a) q <> message i little_endian_flavor (unfolding node 5) (tree_val tree_b) q.
Proof.
  intros E. apply (C52_tree i little_endian_flavor tree_a tree_b 3 5 q q) in E; try apply trees_ok; try (cbn; lia). discriminate.
Qed.
(* a class with an optional of itself, whose tag_invoke appends the int, whether there is a next one, and it *)
Definition chain : ty := TTag [TInt I32 true; TVar false I8 [TTuple []; hole]].
Example C52_unfolding_ex g : exists rs,
  runs env_pc g be32_flavor (CSeed 7)
    (sample ++ [SAppend (unfolding chain 2) (VList [VInt 5; VList [VInt 1; VList [VInt 6; VList [VInt 0; VList []]]]])] ++ [SResult]) = Ok rs /\
  runs env_pc g be32_flavor (CSeed 7)
    (sample ++ [SAppend (unfolding chain 7) (VList [VInt 5; VList [VInt 1; VList [VInt 6; VList [VInt 0; VList []]]]])] ++ [SResult]) = Ok rs.
Proof. apply C52_unfolding; [exact env_pc_valid|exact I|lia| |room_ex]. apply after_sample; [reflexivity|ok|ok]; change (Pos.to_nat 1) with 1%nat; cbv iota; ok. Qed.

(* JSON values: struct json { variant< nullptr_t, bool, int64_t, string, vector<json>, map<string, json> > v; ... },
   with a tag_invoke appending the alternative, then its index *)
Definition json : ty :=
  TTag [TVar false I64 [TNullptr; TBool; TInt I64 true; string_; TVec hole; TList CInput (TTuple [string_; hole])]].
Inductive js := JNull | JBool (b : bool) | JInt (z : Z) | JStr (s : list Z) | JArr (l : list js) | JObj (l : list (list Z * js)).
Definition str_val (s : list Z) : val := VList (map VInt s).
Fixpoint js_val (j : js) : val :=
  VList [match j with
         | JNull => VList [VInt 0; VInt 0]
         | JBool b => VList [VInt 1; VInt (if b then 1 else 0)]
         | JInt z => VList [VInt 2; VInt z]
         | JStr s => VList [VInt 3; str_val s]
         | JArr l => VList [VInt 4; VList (map js_val l)]
         | JObj l => VList [VInt 5; VList (map (fun p => VList [str_val (fst p); js_val (snd p)]) l)]
         end].
Fixpoint js_depth (j : js) : nat :=
  S match j with
    | JArr l => fold_right Nat.max 0%nat (map js_depth l)
    | JObj l => fold_right Nat.max 0%nat (map (fun p => js_depth (snd p)) l)
    | _ => 0%nat
    end.
Definition short (ss : isz) {A} (l : list A) : Prop := (Z.of_nat (length l) < 2 ^ (8 * Z.of_nat (ibytes ss)))%Z.
Definition str_ok (ss : isz) (s : list Z) : Prop := short ss s /\ Forall (in_int I8 true) s.
Inductive js_ok (ss : isz) : js -> Prop :=
| ok_null : js_ok ss JNull
| ok_bool b : js_ok ss (JBool b)
| ok_int z : in_int I64 true z -> js_ok ss (JInt z)
| ok_str s : str_ok ss s -> js_ok ss (JStr s)
| ok_arr l : short ss l -> Forall (js_ok ss) l -> js_ok ss (JArr l)
| ok_obj l : short ss l -> Forall (fun p => str_ok ss (fst p) /\ js_ok ss (snd p)) l -> js_ok ss (JObj l).
Lemma unfolding_json n : unfolding json (S n) =
  TTag [TVar false I64 [TNullptr; TBool; TInt I64 true; string_; TVec (unfolding json n); TList CInput (TTuple [string_; unfolding json n])]].
Proof. reflexivity. Qed.
Lemma max_le {A} (F : A -> nat) l n : (fold_right Nat.max 0%nat (map F l) <= n)%nat -> Forall (fun x => (F x <= n)%nat) l.
Proof. induction l as [|x l IH]; intros H; constructor; cbn in H; [lia|apply IH; lia]. Qed.
Lemma str_typed psz ss s : str_ok ss s -> has_type psz string_ (str_val s) /\ regular ss string_ (str_val s).
Proof.
  intros [H1 H2]. split.
  - cbn [string_ str_val has_type]. rewrite Forall_map. eapply Forall_impl; [|exact H2]. intros z H. exact H.
  - cbn [string_ str_val regular]. split; [now rewrite map_length|]. rewrite Forall_map. apply Forall_forall. intros; exact I.
Qed.
Lemma str_equal s1 s2 : equal string_ (str_val s1) (str_val s2) -> s1 = s2.
Proof.
  cbn [string_ str_val equal]. intros H. apply (ints_eq I8 true) in H. revert s2 H. induction s1 as [|x s1 IH]; intros [|y s2] H; try discriminate; [reflexivity|].
  injection H as -> H. f_equal. now apply IH.
Qed.
Lemma js_typed psz ss : forall n j, js_ok ss j -> (js_depth j <= n)%nat ->
  has_type psz (unfolding json n) (js_val j) /\ regular ss (unfolding json n) (js_val j).
Proof.
  induction n as [|n IH]; intros j HO HD; [destruct j; cbn in HD; lia|]. rewrite unfolding_json.
  assert (HX : forall v, has_type psz (TVar false I64 [TNullptr; TBool; TInt I64 true; string_; TVec (unfolding json n); TList CInput (TTuple [string_; unfolding json n])]) v ->
    regular ss (TVar false I64 [TNullptr; TBool; TInt I64 true; string_; TVec (unfolding json n); TList CInput (TTuple [string_; unfolding json n])]) v ->
    has_type psz (TTag [TVar false I64 [TNullptr; TBool; TInt I64 true; string_; TVec (unfolding json n); TList CInput (TTuple [string_; unfolding json n])]]) (VList [v]) /\
    regular ss (TTag [TVar false I64 [TNullptr; TBool; TInt I64 true; string_; TVec (unfolding json n); TList CInput (TTuple [string_; unfolding json n])]]) (VList [v])).
  { intros v H1 H2. split; [rewrite has_type_tag; split; [discriminate|]; split; [exact H1|exact I]|]. apply reg_tag. split; [exact H2|exact I]. }
  assert (HV : forall k v, in_int I64 false k ->
     alt (fun t => has_type psz t v) False [TNullptr; TBool; TInt I64 true; string_; TVec (unfolding json n); TList CInput (TTuple [string_; unfolding json n])] (Z.to_nat k) /\
     alt (fun t => regular ss t v) True [TNullptr; TBool; TInt I64 true; string_; TVec (unfolding json n); TList CInput (TTuple [string_; unfolding json n])] (Z.to_nat k) ->
     has_type psz (unfolding json (S n)) (VList [VList [VInt k; v]]) /\ regular ss (unfolding json (S n)) (VList [VList [VInt k; v]])).
  { intros k v Hk [H1 H2]. rewrite unfolding_json. apply HX; [split; assumption|assumption]. }
  clear HX. rewrite <- unfolding_json. destruct HO as [|b|z Hz|s Hs|l Hs Hl|l Hs Hl]; cbn [js_val]; (apply HV; [unfold in_int; cbn; lia|]);
    change (Z.to_nat 0) with 0%nat; change (Z.to_nat 1) with 1%nat; change (Z.to_nat 2) with 2%nat; change (Z.to_nat 3) with 3%nat;
    change (Z.to_nat 4) with 4%nat; change (Z.to_nat 5) with 5%nat; cbn [alt].
  - split; [reflexivity|exact I].
  - split; [destruct b; cbn; auto|exact I].
  - split; [exact Hz|exact I].
  - now apply str_typed.
  - cbn [js_depth] in HD. apply le_S_n, max_le in HD.
    assert (HC : Forall (fun v => has_type psz (unfolding json n) v /\ regular ss (unfolding json n) v) (map js_val l)).
    { rewrite Forall_map. rewrite Forall_forall in *. intros t Ht. apply IH; auto. }
    apply Forall_and_inv in HC. destruct HC as [C1 C2]. split; [exact C1|]. cbn [regular]. rewrite map_length. auto.
  - cbn [js_depth] in HD. apply le_S_n, max_le in HD.
    assert (HC : Forall (fun v => has_type psz (TTuple [string_; unfolding json n]) v /\ regular ss (TTuple [string_; unfolding json n]) v)
      (map (fun p => VList [str_val (fst p); js_val (snd p)]) l)).
    { rewrite Forall_map. rewrite Forall_forall in *. intros p Hp. destruct (Hl p Hp) as [Hl1 Hl2]. destruct (IH _ Hl2 (HD p Hp)) as [D1 D2].
      destruct (str_typed psz ss _ Hl1) as [D3 D4]. rewrite has_type_tuple, regular_tuple. cbn [Zip ZipW]. auto. }
    apply Forall_and_inv in HC. destruct HC as [C1 C2]. split; [exact C1|]. cbn [regular]. rewrite map_length. auto.
Qed.
Lemma js_equal : forall n j1 j2, equal (unfolding json n) (js_val j1) (js_val j2) -> j1 = j2.
Proof.
  induction n as [|n IH]; intros j1 j2 HE; [destruct j1, j2; cbn in HE; contradiction|]. rewrite unfolding_json in HE.
  assert (HX : forall v1 v2, js_val j1 = VList [v1] -> js_val j2 = VList [v2] ->
    equal (TVar false I64 [TNullptr; TBool; TInt I64 true; string_; TVec (unfolding json n); TList CInput (TTuple [string_; unfolding json n])]) v1 v2).
  { intros v1 v2 E1 E2. rewrite E1, E2, equal_tag in HE. apply HE. }
  clear HE. destruct j1, j2; specialize (HX _ _ eq_refl eq_refl); cbn [equal] in HX; destruct HX as [HK HX]; try discriminate; clear HK;
    try change (Z.to_nat 0) with 0%nat in HX; try change (Z.to_nat 1) with 1%nat in HX; try change (Z.to_nat 2) with 2%nat in HX;
    try change (Z.to_nat 3) with 3%nat in HX; try change (Z.to_nat 4) with 4%nat in HX; try change (Z.to_nat 5) with 5%nat in HX; cbn [alt] in HX.
  - reflexivity.
  - destruct b, b0; cbn in HX; congruence.
  - cbn in HX. congruence.
  - f_equal. now apply str_equal.
  - cbn [equal] in HX. f_equal. revert l0 HX. induction l as [|t1 l IHl]; intros [|t2 l2] E2; cbn [map] in E2; inversion E2; subst; [reflexivity|]. f_equal; auto.
  - cbn [equal] in HX. f_equal. revert l0 HX. induction l as [|[s1 t1] l IHl]; intros [|[s2 t2] l2] E2; cbn [map] in E2; inversion E2 as [|? ? ? ? H1 H2]; subst; [reflexivity|].
    cbn [fst snd] in H1. destruct H1 as (H3 & H4 & _). f_equal; auto. f_equal; [now apply str_equal|now apply IH].
Qed.
Theorem C52_json i f j1 j2 n1 n2 q1 q2 : js_ok (fl_size f) j1 -> js_ok (fl_size f) j2 -> (js_depth j1 <= n1)%nat -> (js_depth j2 <= n2)%nat ->
  (message i f (unfolding json n1) (js_val j1) q1 = message i f (unfolding json n2) (js_val j2) q2 <-> j1 = j2).
Proof.
  intros O1 O2 D1 D2. destruct (js_typed (im_psz i) (fl_size f) n1 j1 O1 D1) as [T1 R1]. destruct (js_typed (im_psz i) (fl_size f) n2 j2 O2 D2) as [T2 R2].
  assert (HD : decodable json) by (cbn; tauto).
  split.
  - intros E. apply (js_equal (Nat.max n1 n2)). eapply C52_distinct; try eassumption; try lia; exact I.
  - intros <-. pose proof (proj2 (unfolding_le json n1 (Nat.max n1 n2) I (Nat.le_max_l _ _)) _ _ T1) as S1.
    pose proof (proj2 (unfolding_le json n2 (Nat.max n1 n2) I (Nat.le_max_r _ _)) _ _ T2) as S2. unfold message.
    rewrite (sv_msg _ _ _ _ S1), (sv_msg _ _ _ _ S2). apply msg_q_indep. apply decodable_ordered, unfolding_decodable. exact HD.
Qed.
(* {"a":[null,true]} and {"a":[null],"":true} *)
Definition json_a : js := JObj [([97%Z], JArr [JNull; JBool true])].
Definition json_b : js := JObj [([97%Z], JArr [JNull]); ([], JBool true)].
Lemma jsons_ok : js_ok I64 json_a /\ js_ok I64 json_b.
Proof. split; repeat (constructor; try (unfold in_int, short; cbn; lia)). Qed.
Example C52_json_ex i q : message i little_endian_flavor (unfolding json 3) (js_val json_a) q <> message i little_endian_flavor (unfolding json 4) (js_val json_b) q.
Proof. intros E. apply (C52_json i little_endian_flavor json_a json_b 3 4 q q) in E; try apply jsons_ok; try (cbn; lia). discriminate. Qed.

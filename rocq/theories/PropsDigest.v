(* C35, C36: the digest class. *)
From Verif Require Import Base BaseFacts ModelDigest.
Open Scope N_scope.

(* ---- specification ---- *)
(* the lowercase hexadecimal digit of 0 .. 15, as an ASCII code *)
Definition hex_digit (n : N) : N := if n <? 10 then 48 + n else 97 + (n - 10).
(* two digits per byte, the high one first *)
Fixpoint hex (d : list N) : list N :=
  match d with
  | [] => []
  | b :: t => hex_digit (b / 16) :: hex_digit (b mod 16) :: hex t
  end.
(* reading hexadecimal text *)
Definition unhex_digit (c : N) : option N :=
  if (48 <=? c) && (c <=? 57) then Some (c - 48)
  else if (97 <=? c) && (c <=? 102) then Some (c - 97 + 10) else None.
Fixpoint unhex (s : list N) : option (list N) :=
  match s with
  | [] => Some []
  | h :: l :: t =>
      match unhex_digit h, unhex_digit l, unhex t with
      | Some a, Some b, Some r => Some (16 * a + b :: r)
      | _, _, _ => None
      end
  | _ => None
  end.

(* ---- comparison ---- *)
Lemma lex_0 a : forall b, length a = length b -> lex a b = 0%Z <-> a = b.
Proof.
  induction a as [|x a IH]; intros [|y b] L; cbn in L; try lia; [easy|].
  cbn [lex]. destruct (N.ltb_spec x y); [split; [discriminate|intros E; injection E; intros; lia]|].
  destruct (N.ltb_spec y x); [split; [discriminate|intros E; injection E; intros; lia]|].
  assert (x = y) as -> by lia. rewrite IH by lia. split; [now intros ->|now intros [= ->]].
Qed.
Lemma cmp_loop_app k : forall l1 l2 i, length l1 = (i + k)%nat -> length l2 = (i + k)%nat ->
  exists z, cmp_loop (Ptr l1) (Ptr l2) i k = Ok z /\ (z = 0%Z <-> skipn i l1 = skipn i l2).
Proof.
  induction k; intros l1 l2 i L1 L2; cbn [cmp_loop].
  - exists 0%Z. split; [reflexivity|]. rewrite !skipn_all2 by lia. easy.
  - destruct (nth_error l1 i) as [x|] eqn:E1; [|apply nth_error_None in E1; lia].
    destruct (nth_error l2 i) as [y|] eqn:E2; [|apply nth_error_None in E2; lia].
    rewrite (deref_ok _ _ _ E1), (deref_ok _ _ _ E2). cbn [bind].
    assert (S1 : skipn i l1 = x :: skipn (S i) l1).
    { clear -E1. revert l1 E1. induction i; intros [|a l] E; cbn in E; try discriminate.
      - now injection E as ->. - cbn [skipn]. now apply IHi. }
    assert (S2 : skipn i l2 = y :: skipn (S i) l2).
    { clear -E2. revert l2 E2. induction i; intros [|a l] E; cbn in E; try discriminate.
      - now injection E as ->. - cbn [skipn]. now apply IHi. }
    rewrite S1, S2. destruct (N.eqb_spec x y) as [->|N]; cbn [negb].
    + destruct (IHk l1 l2 (S i)) as (z & E & Z); [lia|lia|]. exists z. split; [exact E|].
      rewrite Z. split; [intros H; exact (f_equal (cons y) H)|intros H; exact (f_equal (@tl N) H)].
    + eexists; split; [reflexivity|]. split; [lia|]. now intros [= ? _].
Qed.

(* operator== is defined for all pairs of digests of one size, and is equality of their bytes,
   at run time and during constant evaluation. *)
Theorem C35_equality pf a b : length a = length b ->
  exists r, digest_eq pf a b = Ok r /\ digest_neq pf a b = Ok (negb r) /\ (r = true <-> a = b).
Proof.
  intros L. assert (H : exists z, memcmp pf (Ptr a) (Ptr b) (length a) = Ok z /\ (z = 0%Z <-> a = b)).
  { unfold memcmp. destruct (p_cx pf); cbn [negb].
    - destruct (cmp_loop_app (length a) a b 0) as (z & E & Z); [lia|lia|]. now exists z.
    - unfold std_memcmp, memread. rewrite <- L, !Nat.leb_refl. cbn [bind].
      rewrite firstn_all. rewrite L, firstn_all. eexists; split; [reflexivity|]. now apply lex_0. }
  destruct H as (z & E & Z). unfold digest_neq, digest_eq, digest_data. rewrite E. cbn [bind].
  eexists; split; [reflexivity|]. split; [reflexivity|]. rewrite Z.eqb_eq. exact Z.
Qed.
Example C35_ex : forall cx, let pf := {| p_le := true; p_cx := cx |} in
  digest_eq pf [1;2;3] [1;2;4] = Ok false /\ digest_eq pf [1;2;3] [1;2;3] = Ok true.
Proof. intros []; now vm_compute. Qed.

(* A digest built from an array holds exactly its bytes; a default one is all zero. *)
Theorem C35_constructed pf v : digest_ctor pf (length v) (Ptr v) = Ok v.
Proof.
  unfold digest_ctor. rewrite memcpy_ok by (rewrite ?zeros_length; lia).
  rewrite firstn_all, splice_0_all by (now rewrite zeros_length). reflexivity.
Qed.
(* Element access: the assertion of operator[] holds exactly for the indices below N, and the
   element is that of the array; front and back are the first and last. *)
Theorem C35_elements d i : 
  digest_get d i = match nth_error d i with Some b => Ok b | None => AssertFail end /\
  (forall b t, d = b :: t -> digest_front d = Ok b) /\
  (forall b t, d = t ++ [b] -> digest_back d = Ok b).
Proof.
  split; [|split].
  - unfold digest_get. destruct (nth_error d i) as [b|] eqn:E.
    + assert (i < length d)%nat by (apply nth_error_Some; congruence).
      destruct (Nat.ltb_spec i (length d)); [|lia]. cbn [assert_ bind]. now apply deref_ok.
    + apply nth_error_None in E. destruct (Nat.ltb_spec i (length d)); [lia|]. reflexivity.
  - now intros b t ->.
  - intros b t ->. unfold digest_back. apply deref_ok.
    rewrite app_length. cbn [length]. replace (length t + 1 - 1)%nat with (length t) by lia.
    rewrite nth_error_app2 by lia. now rewrite Nat.sub_diag.
Qed.

(* A default digest is all zero, and has N elements. *)
Theorem C35_default n : length (digest_default n) = n /\ forall i, (i < n)%nat -> digest_get (digest_default n) i = Ok 0.
Proof.
  unfold digest_default. split; [apply zeros_length|]. intros i Hi. rewrite (proj1 (C35_elements _ i)).
  rewrite (nth_error_nth' _ 0) by (now rewrite zeros_length). unfold zeros. now rewrite nth_repeat.
Qed.
(* Iterating from begin() to end() visits the elements in order, once; size() is their number, and so is max_size(). *)
Lemma visit_suffix l : visit_loop (length l) (Ptr l) (Ptr []) = Ok l.
Proof. induction l as [|b l IH]; [reflexivity|]. cbn -[visit_loop Nat.leb]. cbn [visit_loop same_place length Nat.eqb deref nth_error bind padd Nat.leb skipn]. now rewrite IH. Qed.
Theorem C35_iteration d : digest_visit d = Ok d /\ digest_size d = length d /\ digest_max_size d = length d /\
  digest_end d = padd (digest_data d) (digest_size d) /\ digest_begin d = digest_data d.
Proof.
  split; [|repeat split]. unfold digest_visit, digest_end. rewrite padd_ok by apply le_n. cbn [bind]. rewrite skipn_all. apply visit_suffix.
Qed.
Example C35_iteration_ex : digest_visit [7; 8; 9] = Ok [7; 8; 9].
Proof. apply C35_iteration. Qed.
(* Assigning to an element changes this one only; for an index that is not below N the assertion fails. *)
Lemma nth_splice d i (v : N) j : (i < length d)%nat -> nth_error (splice d i [v]) j = if Nat.eqb j i then Some v else nth_error d j.
Proof.
  intros H. unfold splice. cbn [length]. destruct (Nat.eqb_spec j i) as [->|HN].
  - rewrite nth_error_app2 by (rewrite firstn_length; lia). rewrite firstn_length, Nat.min_l, Nat.sub_diag by lia. reflexivity.
  - destruct (Nat.lt_ge_cases j i) as [L|L].
    + rewrite nth_error_app1 by (rewrite firstn_length; lia). rewrite <- (firstn_skipn i d) at 2. rewrite nth_error_app1 by (rewrite firstn_length; lia). reflexivity.
    + rewrite app_assoc, nth_error_app2 by (rewrite app_length, firstn_length; cbn [length]; lia).
      rewrite app_length, firstn_length, Nat.min_l by lia. cbn [length]. rewrite <- (firstn_skipn (i + 1) d) at 2.
      rewrite nth_error_app2 by (rewrite firstn_length; lia). rewrite firstn_length, Nat.min_l by lia. reflexivity.
Qed.
Lemma splice1_length d i (v : N) : (i < length d)%nat -> length (splice d i [v]) = length d.
Proof. intros H. unfold splice. rewrite !app_length, firstn_length, skipn_length. cbn [length]. lia. Qed.
Definition assigned (d : list N) (i : nat) (v : N) (d' : list N) : Prop :=
  length d' = length d /\ forall j, nth_error d' j = if Nat.eqb j i then Some v else nth_error d j.
Theorem C35_assignment d i v :
  ((i < length d)%nat -> exists d', digest_set d i v = Ok d' /\ assigned d i v d') /\
  ((length d <= i)%nat -> digest_set d i v = AssertFail) /\
  (d <> [] -> (exists d', digest_set_front d v = Ok d' /\ assigned d 0 v d') /\
              (exists d', digest_set_back d v = Ok d' /\ assigned d (length d - 1) v d')).
Proof.
  assert (HS : forall k, (k < length d)%nat -> exists d', store d k v = Ok d' /\ assigned d k v d').
  { intros k Hk. unfold store. rewrite (proj2 (Nat.ltb_lt _ _) Hk). eexists. split; [reflexivity|].
    split; [now apply splice1_length|]. intros j. now apply nth_splice. }
  split; [|split].
  - intros H. unfold digest_set. rewrite (proj2 (Nat.ltb_lt _ _) H). cbn [assert_ bind]. now apply HS.
  - intros H. unfold digest_set. rewrite (proj2 (Nat.ltb_ge _ _) H). reflexivity.
  - intros H. assert (0 < length d)%nat by (destruct d; [easy|cbn; lia]). split; apply HS; lia.
Qed.
Example C35_assignment_ex : digest_set [1; 2; 3] 1 9 = Ok [1; 9; 3] /\ digest_set [1; 2; 3] 3 9 = AssertFail /\ digest_set_back [1; 2; 3] 9 = Ok [1; 2; 9].
Proof. repeat split. Qed.

(* ---- text ---- *)
Lemma digits_hex n : n < 16 -> deref (Ptr digits) (N.to_nat n) = Ok (hex_digit n).
Proof.
  intros H. assert (E : exists k, n = N.of_nat k /\ (k < 16)%nat) by (exists (N.to_nat n); lia).
  destruct E as (k & -> & K). do 16 (destruct k; [reflexivity|]). lia.
Qed.
Lemma hex_length d : length (hex d) = (2 * length d)%nat.
Proof. induction d; cbn [hex length]; lia. Qed.
Lemma hex_app a b : hex (a ++ b) = hex a ++ hex b.
Proof. induction a; cbn [hex app]; congruence. Qed.
Lemma store_end l1 l2 l3 (v : N) i : i = length l1 -> length l2 = 1%nat ->
  store (l1 ++ l2 ++ l3) i v = Ok (l1 ++ v :: l3).
Proof.
  intros -> L. unfold store. rewrite !app_length.
  destruct (Nat.ltb_spec (length l1) (length l1 + (length l2 + length l3))); [|lia].
  unfold splice. rewrite firstn_app_exact by reflexivity.
  f_equal. f_equal. cbn [app length]. f_equal.
  rewrite app_assoc. apply skipn_app_exact. rewrite app_length. lia.
Qed.
Lemma hex_loop_ok k : forall done v w t i, bytes v -> v = done ++ t -> i = length done -> k = length t ->
  (2 * length t <= length w)%nat ->
  hex_loop v (hex done ++ w) i k = Ok (hex v ++ skipn (2 * length t) w).
Proof.
  induction k; intros done v w t i B E I K L; cbn [hex_loop].
  - destruct t; [|discriminate]. rewrite app_nil_r in E. subst. now rewrite skipn_O.
  - destruct t as [|b t]; [discriminate|]. cbn [length] in *.
    assert (G : digest_get v i = Ok b).
    { unfold digest_get. subst v i. rewrite app_length. cbn [length].
      destruct (Nat.ltb_spec (length done) (length done + S (length t))); [|lia].
      cbn [assert_ bind]. apply deref_ok. rewrite nth_error_app2, Nat.sub_diag by lia. reflexivity. }
    assert (Hb : b < 256).
    { rewrite E in B. apply bytes_app in B. destruct B as [_ B]. now apply bytes_cons_inv in B. }
    rewrite G. cbn [bind]. unfold shr. rewrite N.shiftr_div_pow2. change (2^4) with 16.
    rewrite digits_hex by (apply N.div_lt_upper_bound; lia). cbn [bind].
    destruct w as [|w0 [|w1 w]]; cbn [length] in L; try lia.
    replace (i * 2 + 0)%nat with (length (hex done)) by (rewrite hex_length; lia).
    rewrite (store_end (hex done) [w0] (w1 :: w)) by reflexivity. cbn [bind].
    change 15 with (N.ones 4). rewrite N.land_ones. change (2^4) with 16.
    rewrite digits_hex by (now apply N.mod_lt). cbn [bind].
    replace (hex done ++ hex_digit (b / 16) :: w1 :: w)
      with ((hex done ++ [hex_digit (b / 16)]) ++ [w1] ++ w) by now rewrite <- app_assoc.
    rewrite (store_end _ [w1] w) by (try reflexivity; rewrite app_length, hex_length; cbn [length]; lia).
    cbn [bind].
    replace ((hex done ++ [hex_digit (b / 16)]) ++ hex_digit (b mod 16) :: w) with (hex (done ++ [b]) ++ w)
      by (rewrite hex_app; cbn [hex]; rewrite <- !app_assoc; reflexivity).
    rewrite (IHk (done ++ [b]) v w t); [| exact B | now rewrite <- app_assoc | rewrite app_length; cbn [length]; lia | lia | lia ].
    replace (2 * S (length t))%nat with (S (S (2 * length t))) by lia. reflexivity.
Qed.

(* to_chars( v, first, last ): with less than 2N characters of room nothing is written and the
   result is null; otherwise exactly the 2N hexadecimal digits are written from first on, every
   other character stays as it was, and the result points just behind the digits. *)
Theorem C36_to_chars v w room : bytes v -> (room <= length w)%nat ->
  to_chars v w room =
    if Nat.ltb room (2 * length v) then Ok (None, w)
    else Ok (Some (2 * length v)%nat, hex v ++ skipn (2 * length v) w).
Proof.
  intros B R. unfold to_chars. destruct (Nat.ltb_spec room (2 * length v)); [reflexivity|].
  assert (L := hex_loop_ok (length v) [] v w v 0 B eq_refl eq_refl eq_refl ltac:(lia)).
  cbn [hex app] in L. rewrite L. cbn [bind]. do 3 f_equal. lia.
Qed.
(* the array version: a NUL follows; the rest of the array is untouched *)
Theorem C36_array v w : bytes v -> (2 * length v + 1 <= length w)%nat ->
  to_chars_array v w = Ok (hex v ++ 0 :: skipn (2 * length v + 1) w).
Proof.
  intros B L. unfold to_chars_array. rewrite C36_to_chars by (try exact B; lia).
  destruct (Nat.ltb_spec (length w) (2 * length v)); [lia|]. cbn [bind].
  replace (skipn (2 * length v) w) with (firstn 1 (skipn (2 * length v) w) ++ skipn (2 * length v + 1) w)
    by (rewrite <- (firstn_skipn 1 (skipn (2 * length v) w)) at 2; f_equal; apply eq_sym, skipn_skipn').
  apply store_end; [now rewrite hex_length|].
  rewrite firstn_length_le; [reflexivity|]. rewrite skipn_length. lia.
Qed.
(* to_string and operator<< produce the digits, whatever the uninitialised array contained *)
Theorem C36_to_string v junk : bytes v -> length junk = (2 * length v + 1)%nat ->
  to_string v junk = Ok (hex v).
Proof.
  intros B L. unfold to_string. rewrite C36_array by (try exact B; lia). cbn [bind memread].
  rewrite app_length, hex_length. cbn [length].
  match goal with |- context [Nat.leb ?a ?b] => destruct (Nat.leb_spec a b); [|lia] end.
  now rewrite firstn_app_exact by (now rewrite hex_length).
Qed.
Lemma c_string_app a t : Forall (fun c => c <> 0) a -> c_string (a ++ 0 :: t) = Ok a.
Proof.
  induction 1 as [|c a Hc _ IH]; [reflexivity|]. cbn [app c_string].
  destruct (N.eqb_spec c 0); [contradiction|]. now rewrite IH.
Qed.
Lemma hex_nonzero v : Forall (fun c => c <> 0) (hex v).
Proof.
  assert (D : forall n, hex_digit n <> 0) by (intros; unfold hex_digit; destruct (n <? 10); lia).
  induction v; cbn [hex]; repeat constructor; auto.
Qed.
Theorem C36_stream os v junk : bytes v -> length junk = (2 * length v + 1)%nat ->
  stream_out os v junk = Ok (os ++ hex v).
Proof.
  intros B L. unfold stream_out. rewrite C36_array by (try exact B; lia). cbn [bind].
  rewrite c_string_app by apply hex_nonzero. reflexivity.
Qed.
(* The text determines the digest. *)
Lemma unhex_hex_digit n : n < 16 -> unhex_digit (hex_digit n) = Some n.
Proof.
  intros H. assert (E : exists k, n = N.of_nat k /\ (k < 16)%nat) by (exists (N.to_nat n); lia).
  destruct E as (k & -> & K). do 16 (destruct k; [reflexivity|]). lia.
Qed.
Theorem C36_decodes v : bytes v -> unhex (hex v) = Some v.
Proof.
  induction v as [|b v IH]; intros B; [reflexivity|]. apply bytes_cons_inv in B. destruct B as [Hb B].
  cbn [hex unhex]. rewrite !unhex_hex_digit, (IH B).
  - f_equal. f_equal. rewrite <- N.div_mod by discriminate. reflexivity.
  - now apply N.mod_lt.
  - apply N.div_lt_upper_bound; lia.
Qed.
Theorem C36_injective v v' j j' : bytes v -> bytes v' ->
  length j = (2 * length v + 1)%nat -> length j' = (2 * length v' + 1)%nat ->
  to_string v j = to_string v' j' -> v = v'.
Proof.
  intros B B' L L' E. rewrite !C36_to_string in E by assumption. injection E as E.
  assert (Some v = Some v') as [= ->]; [|reflexivity].
  rewrite <- !C36_decodes by assumption. now rewrite E.
Qed.
(* lowercase: every character is 0-9 or a-f *)
Theorem C36_lowercase v : bytes v -> Forall (fun c => 48 <= c <= 57 \/ 97 <= c <= 102) (hex v).
Proof.
  assert (D : forall n, n < 16 -> 48 <= hex_digit n <= 57 \/ 97 <= hex_digit n <= 102).
  { intros n H. unfold hex_digit. destruct (N.ltb_spec n 10); lia. }
  induction v as [|b v IH]; intros B; [constructor|]. apply bytes_cons_inv in B. destruct B as [Hb B].
  cbn [hex]. apply Forall_cons; [|apply Forall_cons; [|exact (IH B)]].
  - apply D, N.div_lt_upper_bound; lia.
  - apply D. now apply N.mod_lt.
Qed.
Example C36_ex : to_string [0xde; 0xad; 0x00; 0x0f] (repeat 1 9) =
    Ok [100; 101; 97; 100; 48; 48; 48; 102] (* "dead000f" *) /\
  to_chars [0xde; 0xad] [7;7;7] 3 = Ok (None, [7;7;7]).
Proof. now vm_compute. Qed.

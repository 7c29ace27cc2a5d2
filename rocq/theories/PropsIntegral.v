(* C33, C34: get_integral_result. *)
From Verif Require Import Base BaseFacts SpecCommon Bits Types ModelResult.
Open Scope N_scope.

(* The values of the integral type of [ibytes t] bytes, signed or unsigned. *)
Definition in_type (t : isz) (sg : bool) (z : Z) : Prop :=
  let b := (8 * Z.of_nat (ibytes t))%Z in
  if sg then (- 2 ^ (b - 1) <= z < 2 ^ (b - 1))%Z else (0 <= z < 2 ^ b)%Z.
(* [x] is a value of the unsigned type of [ibytes r] bytes *)
Definition is_word (r : isz) (x : N) : Prop := x < 2 ^ (8 * N.of_nat (ibytes r)).

(* [P] has exactly [n] elements: a bijection with {0 .. n-1}. *)
Definition exactly (n : N) (P : N -> Prop) : Prop :=
  exists f : N -> N,
    (forall k, k < n -> P (f k)) /\
    (forall j k, j < n -> k < n -> f j = f k -> j = k) /\
    (forall x, P x -> exists k, k < n /\ f k = x).

Lemma to_int_in t sg u : u < 2 ^ ibits t -> in_type t sg (to_int t sg u).
Proof.
  unfold in_type, to_int, ibits. intros H.
  destruct t, sg; cbn [ibytes] in *; cbn [andb];
    try (match goal with |- context [?a <=? u] => destruct (N.leb_spec a u) as [L|L] end);
    cbn in *; lia.
Qed.
Lemma to_int_inj t sg u v : u < 2 ^ ibits t -> v < 2 ^ ibits t -> to_int t sg u = to_int t sg v -> u = v.
Proof.
  unfold to_int, ibits. intros H K.
  destruct t, sg; cbn [ibytes] in *; cbn [andb];
    repeat (match goal with |- context [?a <=? ?b] => destruct (N.leb_spec a b) end);
    cbn in *; lia.
Qed.
Lemma to_int_surj t sg z : in_type t sg z -> exists u, u < 2 ^ ibits t /\ to_int t sg u = z.
Proof.
  intros H. exists (if (z <? 0)%Z then Z.to_N (z + 2 ^ Z.of_N (ibits t)) else Z.to_N z).
  unfold in_type, to_int, ibits in *.
  destruct (Z.ltb_spec z 0) as [L|L];
  destruct t, sg; cbn [ibytes] in *; cbn [andb];
    try (match goal with |- context [?a <=? ?b] => destruct (N.leb_spec a b) as [G|G] end);
    cbn in H; try lia; try (change (2 ^ Z.of_N _)%Z with 256%Z in * ); split; cbn in *; lia.
Qed.

(* ---- widening ---- *)
Lemma gir_up t r x : (ibytes r <= ibytes t)%nat -> is_word r x ->
  gir_int t r x = Ok ((x * multiplier t r) mod 2 ^ ibits t).
Proof.
  unfold gir_int, is_word, ibits. intros H X.
  destruct (Nat.ltb_spec (ibytes t) (ibytes r)); [lia|].
  destruct t, r; cbn [ibytes] in *; try lia; cbn in X; cbn [promoted_mul wider Nat.leb ibytes bind multiplier];
  try (match goal with |- context [?a <? ?b] => destruct (N.ltb_spec a b) as [L|L]; [| cbn in L; lia] end);
  cbn [bind]; try reflexivity;
  f_equal; apply N.mod_mod; discriminate.
Qed.
(* every multiplier is odd; its inverse modulo the wider width *)
Definition minverse (t r : isz) : N :=
  match r, t with
  | I8, I8 | I16, I16 | I32, I32 | I64, I64 => 1
  | I16, I8 => 0x4101
  | I32, I8 => 0x1020407f
  | I64, I8 => 0x810204081020407f
  | I32, I16 => 0x40010001
  | I64, I16 => 0x1b00240030003fff
  | I64, I32 => 0x4000000100000001
  | I8, I16 => 0x407f
  | I8, I32 => 0x5b24303f
  | I8, I64 => 0xf113840497889c1f
  | I16, I32 => 0x40007fff
  | I16, I64 => 0x1000200040007fff
  | I32, I64 => 0x400000007fffffff
  end.
Lemma minverse_up t r : (ibytes r <= ibytes t)%nat ->
  (multiplier t r * minverse t r) mod 2 ^ ibits t = 1 mod 2 ^ ibits t.
Proof. destruct t, r; cbn [ibytes]; intros; try lia; vm_compute; reflexivity. Qed.
Lemma minverse_down t r : (ibytes t < ibytes r)%nat ->
  (multiplier t r * minverse t r) mod 2 ^ ibits r = 1 mod 2 ^ ibits r.
Proof. destruct t, r; cbn [ibytes]; intros; try lia; vm_compute; reflexivity. Qed.
Lemma word_le t r x : (ibytes r <= ibytes t)%nat -> is_word r x -> x < 2 ^ ibits t.
Proof.
  unfold is_word, ibits. intros H X. eapply N.lt_le_trans; [exact X|].
  apply N.pow_le_mono_r; lia.
Qed.

(* Same width: the value itself, converted to T (modulo 2^bits, as static_cast does). *)
Theorem C33_identity t sg x : is_word t x ->
  exists z, get_integral_result t sg t x = Ok z /\ in_type t sg z /\
    (z mod 2 ^ (8 * Z.of_nat (ibytes t)) = Z.of_N x)%Z.
Proof.
  intros X. exists (to_int t sg x). unfold get_integral_result.
  assert (L : x < 2 ^ ibits t) by (apply (word_le t t); [lia|exact X]).
  rewrite gir_up by (try lia; exact X).
  replace (multiplier t t) with 1 by (destruct t; reflexivity).
  rewrite N.mul_1_r, N.mod_small by exact L. cbn [bind].
  split; [reflexivity|]. split; [now apply to_int_in|].
  unfold to_int, ibits in *. destruct t, sg; cbn [ibytes andb] in *;
    try (match goal with |- context [?a <=? ?b] => destruct (N.leb_spec a b) as [G|G] end);
    cbn in L; try cbn in G;
    repeat match goal with |- context [(2 ^ ?k)%Z] =>
      let b' := eval compute in (2 ^ k)%Z in change (2 ^ k)%Z with b' end;
    first [ apply Z.mod_small; lia
          | symmetry; apply (Z.mod_unique _ _ (-1)%Z); [left; lia | lia] ].
Qed.
Example C33_identity_ex : is_word I32 0xFFFFFFFF /\
  get_integral_result I32 true I32 0xFFFFFFFF = Ok (-1)%Z /\
  get_integral_result I32 false I32 0xFFFFFFFF = Ok 4294967295%Z.
Proof. now vm_compute. Qed.

(* Equal or larger width: defined for every result value, and injective. *)
Theorem C33_injective t sg r x y : (ibytes r <= ibytes t)%nat -> is_word r x -> is_word r y ->
  (exists z, get_integral_result t sg r x = Ok z /\ in_type t sg z) /\
  (get_integral_result t sg r x = get_integral_result t sg r y -> x = y).
Proof.
  intros H X Y. unfold get_integral_result. rewrite !gir_up by assumption. cbn [bind].
  assert (L : forall v, (v * multiplier t r) mod 2 ^ ibits t < 2 ^ ibits t)
    by (intros; apply N.mod_lt; now apply N.pow_nonzero).
  split; [eexists; split; [reflexivity|]; now apply to_int_in|].
  intros E. injection E as E. apply to_int_inj in E; [|apply L|apply L].
  eapply mul_inj; [exact (minverse_up t r H)|now apply (word_le t r)|now apply (word_le t r)|exact E].
Qed.
Example C33_injective_ex : get_integral_result I64 false I32 1 = Ok 0x7FFFFFFF7FFFFFFF%Z /\
  get_integral_result I16 true I8 255 = Ok (-127)%Z.
Proof. now vm_compute. Qed.

(* ---- narrowing ---- *)
Lemma gir_down t r x : (ibytes t < ibytes r)%nat -> r <> I16 -> is_word r x ->
  gir_int t r x = Ok (((x * multiplier t r) mod 2 ^ ibits r) / 2 ^ (ibits r - ibits t)).
Proof.
  unfold gir_int. intros H R X. destruct (Nat.ltb_spec (ibytes t) (ibytes r)); [|lia].
  assert (E : promoted_mul r r x (multiplier t r) = Ok ((x * multiplier t r) mod 2 ^ ibits r)).
  { destruct r; [destruct t; cbn [ibytes] in *; lia | congruence | reflexivity | reflexivity]. }
  rewrite E. cbn [bind]. unfold shr. rewrite N.shiftr_div_pow2.
  rewrite (N.mod_small (_ / _)); [reflexivity|].
  apply N.div_lt_upper_bound; [now apply N.pow_nonzero|].
  rewrite <- N.pow_add_r.
  replace (ibits r - ibits t + ibits t) with (ibits r) by (unfold ibits; lia).
  apply N.mod_lt. now apply N.pow_nonzero.
Qed.

Lemma digit_lt (p q y k : N) : k < p -> y < q -> y * p + k < p * q.
Proof. intros. nia. Qed.
Lemma balanced w u m m' y : u <= w -> (m * m') mod 2^w = 1 mod 2^w -> y < 2^u ->
  exactly (2 ^ (w - u)) (fun x => x < 2^w /\ ((x * m) mod 2^w) / 2^(w-u) = y).
Proof.
  intros Hu Hm Hy.
  assert (P : 2^w <> 0) by now apply N.pow_nonzero.
  assert (Q : 2^(w-u) <> 0) by now apply N.pow_nonzero.
  assert (W : 2^w = 2^(w-u) * 2^u) by (rewrite <- N.pow_add_r; f_equal; lia).
  assert (inv : forall a b x, (a * b) mod 2^w = 1 mod 2^w -> x < 2^w -> ((x * a) mod 2^w * b) mod 2^w = x).
  { intros a b x Hab Hx. rewrite N.mul_mod_idemp_l by exact P. rewrite <- N.mul_assoc.
    rewrite <- N.mul_mod_idemp_r by exact P. rewrite Hab. rewrite N.mul_mod_idemp_r by exact P.
    now rewrite N.mul_1_r, N.mod_small. }
  assert (Hm' : (m' * m) mod 2^w = 1 mod 2^w) by now rewrite N.mul_comm.
  assert (B : forall k, k < 2^(w-u) -> y * 2^(w-u) + k < 2^w).
  { intros k Hk. rewrite W. now apply digit_lt. }
  exists (fun k => ((y * 2^(w-u) + k) * m') mod 2^w). split; [|split].
  - intros k Hk. split; [now apply N.mod_lt|].
    rewrite (inv m' m) by (auto). rewrite N.add_comm, N.div_add by exact Q.
    now rewrite N.div_small.
  - intros j k Hj Hk E. assert (y * 2^(w-u) + j = y * 2^(w-u) + k); [|eapply N.add_cancel_l; eassumption].
    rewrite <- (inv m' m (y * 2^(w-u) + j)), <- (inv m' m (y * 2^(w-u) + k)) by auto. now rewrite E.
  - intros x [Hx E]. exists (((x * m) mod 2^w) mod 2^(w-u)). split; [now apply N.mod_lt|].
    replace (y * 2^(w-u) + _) with ((x * m) mod 2^w).
    + now apply inv.
    + rewrite (N.div_mod ((x * m) mod 2^w) (2^(w-u)) Q) at 1. rewrite E. now rewrite N.mul_comm.
Qed.
Lemma exactly_ext n P Q : (forall x, P x <-> Q x) -> exactly n P -> exactly n Q.
Proof.
  intros H (f & A & B & C). exists f. split; [|split; [exact B|]].
  - intros k Hk. now apply H, A.
  - intros x Hx. now apply C, H.
Qed.

(* Smaller width (except 16 -> 8 bits, below): defined for every result value, and each of the
   values of T has exactly 2^(difference of the widths) preimages. *)
Theorem C33_balanced t sg r z : (ibytes t < ibytes r)%nat -> r <> I16 -> in_type t sg z ->
  (forall x, is_word r x -> exists y, get_integral_result t sg r x = Ok y /\ in_type t sg y) /\
  exactly (2 ^ (8 * N.of_nat (ibytes r - ibytes t)))
    (fun x => is_word r x /\ get_integral_result t sg r x = Ok z).
Proof.
  intros H R Z.
  assert (P : forall x, 0 < 2^x) by (intros; apply N.neq_0_lt_0; now apply N.pow_nonzero).
  assert (D : 8 * N.of_nat (ibytes r - ibytes t) = ibits r - ibits t) by (unfold ibits; lia).
  assert (L : forall x, is_word r x -> ((x * multiplier t r) mod 2 ^ ibits r) / 2 ^ (ibits r - ibits t) < 2 ^ ibits t).
  { intros x _. apply N.div_lt_upper_bound; [now apply N.pow_nonzero|].
    rewrite <- N.pow_add_r.
    replace (ibits r - ibits t + ibits t) with (ibits r) by (unfold ibits; lia).
    apply N.mod_lt. now apply N.pow_nonzero. }
  split.
  - intros x X. unfold get_integral_result. rewrite gir_down by assumption. cbn [bind].
    eexists; split; [reflexivity|]. apply to_int_in. now apply L.
  - destruct (to_int_surj t sg z Z) as (y & Y & <-).
    rewrite D. eapply exactly_ext; [|apply (balanced (ibits r) (ibits t) (multiplier t r) (minverse t r) y); [unfold ibits; lia|exact (minverse_down t r H)|exact Y]].
    intros x. unfold get_integral_result. split.
    + intros [X E]. split; [exact X|]. rewrite gir_down by assumption. cbn [bind]. now rewrite E.
    + intros [X E]. split; [exact X|]. rewrite gir_down in E by assumption. cbn [bind] in E.
      injection E as E. apply to_int_inj in E; auto.
Qed.
Example C33_balanced_ex : in_type I32 true (-1) /\
  get_integral_result I32 true I64 (0xFFFFFFFF00000000 * 1) = Ok (-1)%Z.
Proof. split; [cbn; lia | vm_compute; reflexivity]. Qed.

(* 16 -> 8 bits: both factors of r * m are promoted to int, and the product overflows int for
   all r above 43918; up to there the result is the high byte of r * 0xBF01 mod 2^16. *)
Theorem C33_16_to_8_refuted sg x : is_word I16 x ->
  (43918 < x -> get_integral_result I8 sg I16 x = UB) /\
  (x <= 43918 -> get_integral_result I8 sg I16 x = Ok (to_int I8 sg ((x * 0xBF01) mod 2^16 / 2^8))).
Proof.
  unfold is_word, get_integral_result, gir_int. cbn [ibytes Nat.ltb Nat.leb promoted_mul wider multiplier]. intros X.
  split; intros H.
  - destruct (N.ltb_spec (x * 0xBF01) (2^31)) as [L|L]; [cbn in L; lia|reflexivity].
  - destruct (N.ltb_spec (x * 0xBF01) (2^31)) as [L|L]; [|cbn in L; lia].
    cbn [bind]. f_equal. f_equal. unfold shr, ibits. cbn [ibytes].
    rewrite N.shiftr_div_pow2. change (8 * N.of_nat 2 - 8 * N.of_nat 1) with 8. change (8 * N.of_nat 1) with 8.
    change (2^16) with (2^8 * 2^8). rewrite N.mod_mul_r by discriminate.
    rewrite (N.mul_comm (2^8) (_ mod _)), N.div_add by discriminate.
    rewrite (N.div_small (_ mod _)) by (now apply N.mod_lt). reflexivity.
Qed.

(* If the overflow wraps around (as it does in practice), 16 -> 8 is balanced as well. *)
Theorem C33_16_to_8_wrapping y : y < 2^8 ->
  exactly (2^8) (fun x => is_word I16 x /\ gir_int_wrapv I8 I16 x = y).
Proof.
  intros Y. change (2^8) with (2 ^ (16 - 8)) at 1.
  eapply exactly_ext; [|apply (balanced 16 8 0xBF01 0x4101 y); [lia|reflexivity|exact Y]].
  intros x. unfold is_word. cbn [ibytes]. change (2 ^ (8 * N.of_nat 2)) with (2^16).
  assert (E : gir_int_wrapv I8 I16 x = (x * 0xBF01) mod 2^16 / 2^(16-8)); [|now rewrite E].
  unfold gir_int_wrapv, ibits. cbn [ibytes multiplier].
  change (8 * N.of_nat 2 - 8 * N.of_nat 1) with 8. change (8 * N.of_nat 1) with 8. change (16 - 8) with 8.
  set (v := x * 0xBF01). clearbody v.
  assert (S : forall z, z mod 2^16 / 2^8 = (z / 2^8) mod 2^8).
  { intros z. change (2^16) with (2^8 * 2^8). rewrite N.mod_mul_r by discriminate.
    rewrite (N.mul_comm (2^8) (_ mod _)), N.div_add by discriminate.
    now rewrite (N.div_small (_ mod _)) by (now apply N.mod_lt). }
  rewrite S. rewrite Z.shiftr_div_pow2 by (cbn; lia).
  assert (V : (v / 2^8) mod 2^8 = ((v mod 2^32) / 2^8) mod 2^8).
  { rewrite <- !S. f_equal. change (2^32) with (2^16 * 2^16). rewrite N.mod_mul_r by discriminate.
    rewrite N.mul_comm, N.mod_add by discriminate. now rewrite N.mod_mod by discriminate. }
  rewrite V. set (p := v mod 2^32). assert (Hp : p < 2^32) by now apply N.mod_lt. clearbody p.
  rewrite <- (N2Z.id ((p / 2^8) mod 2^8)). f_equal. rewrite N2Z.inj_mod, N2Z.inj_div.
  change (Z.of_N (2^8)) with (2^8)%Z. change (2 ^ Z.of_N 8)%Z with (2^8)%Z.
  destruct (N.leb_spec (2^31) p); [|reflexivity].
  replace (Z.of_N p - 2^32)%Z with (Z.of_N p + (-2^24) * 2^8)%Z by lia.
  rewrite Z.div_add by discriminate.
  replace (Z.of_N p / 2^8 + -2^24)%Z with (Z.of_N p / 2^8 + (-2^16) * 2^8)%Z by lia.
  now rewrite Z.mod_add by discriminate.
Qed.

(* ---- digests ---- *)
(* A digest of at least 8 bytes (shorter ones are rejected by a static_assert): the value is that
   of its first sizeof(T) bytes read as a little-endian number, on every platform. *)
Theorem C34_digest pf t sg d : (8 <= length d)%nat -> bytes d ->
  get_digest_result pf t sg d = Ok (to_int t sg (LE (firstn (ibytes t) d))).
Proof.
  intros L B. unfold get_digest_result, gir_digest. rewrite read64le_ok by assumption. cbn [bind].
  do 2 f_equal. change LE with le_val.
  assert (S : (ibytes t <= 8)%nat) by (destruct t; cbn; lia).
  replace (firstn 8 d) with (firstn (ibytes t) d ++ firstn (8 - ibytes t) (skipn (ibytes t) d)).
  - rewrite le_val_app, firstn_length_le by lia.
    replace (2 ^ ibits t) with (256 ^ N.of_nat (ibytes t)) by (destruct t; reflexivity).
    rewrite N.mul_comm, N.mod_add by (now apply N.pow_nonzero).
    apply N.mod_small.
    assert (G := le_val_bound (firstn (ibytes t) d) (bytes_firstn _ _ B)).
    now rewrite firstn_length_le in G by lia.
  - rewrite <- firstn_add. f_equal. lia.
Qed.
(* It is a value of T, and two digests give the same value exactly if those bytes agree. *)
Theorem C34_first_bytes pf t sg d d' : (8 <= length d)%nat -> bytes d -> (8 <= length d')%nat -> bytes d' ->
  (exists z, get_digest_result pf t sg d = Ok z /\ in_type t sg z) /\
  (get_digest_result pf t sg d = get_digest_result pf t sg d' <-> firstn (ibytes t) d = firstn (ibytes t) d').
Proof.
  intros L B L' B'. rewrite !C34_digest by assumption.
  assert (S : (ibytes t <= 8)%nat) by (destruct t; cbn; lia).
  assert (G : forall d, (8 <= length d)%nat -> bytes d -> LE (firstn (ibytes t) d) < 2 ^ ibits t).
  { intros v Lv Bv. assert (G := le_val_bound (firstn (ibytes t) v) (bytes_firstn _ _ Bv)).
    rewrite firstn_length_le in G by lia.
    replace (2 ^ ibits t) with (256 ^ N.of_nat (ibytes t)) by (destruct t; reflexivity). exact G. }
  split; [eexists; split; [reflexivity|]; apply to_int_in; auto|].
  split; [|now intros ->].
  intros E. injection E as E. apply to_int_inj in E; auto.
  change LE with le_val in E. apply le_val_inj in E; auto using bytes_firstn.
  rewrite !firstn_length_le by lia. reflexivity.
Qed.
Example C34_ex : get_digest_result {| p_le := false; p_cx := false |} I16 true
  [0xFE; 0xFF; 3; 4; 5; 6; 7; 8; 9] = Ok (-2)%Z.
Proof. reflexivity. Qed.

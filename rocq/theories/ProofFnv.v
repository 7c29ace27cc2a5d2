(* fnv1a_32 and fnv1a_64. *)
From Verif Require Import Base BaseFacts SpecCommon Gen Hasher GenMD Words ModelFnv SpecFnv.
Open Scope N_scope.

Definition fnv32_class (pf : plat) : hasher :=
  {| h_S := N; h_R := N; h_init := fnv32_init; h_seed := fnv32_seed pf; h_bytes := fnv32_bytes;
     h_update := fnv32_update; h_result := fnv32_result |}.
Definition fnv64_class (pf : plat) : hasher :=
  {| h_S := N; h_R := N; h_init := fnv64_init; h_seed := fnv64_seed pf; h_bytes := fnv64_bytes;
     h_update := fnv64_update; h_result := fnv64_result |}.

(* what the constructors hash *)
Definition fnv_start (c : ctor) : list N :=
  match c with
  | CDefault => []
  | CSeed n => if n =? 0 then [] else le_bytes 8 n
  | CBytes p n => data p n
  end.
(* result() counts as the byte 0xFF *)
Definition fnv_pad (l : list N) : list N := l ++ [0xFF].

Lemma fnv_loop_ok F k : forall l i h, (i + k <= length l)%nat ->
  fnv_loop (fnv_w F) (fnv_prime F) (Ptr l) i k h = Ok (FNV1a_from F h (firstn k (skipn i l))).
Proof.
  induction k as [|k IH]; intros l i h H; [reflexivity|].
  cbn [fnv_loop]. destruct (nth_error l i) as [b|] eqn:E.
  - rewrite (deref_ok _ _ _ E). cbn [bind]. rewrite IH by lia.
    f_equal. replace (skipn i l) with (b :: skipn (S i) l); [reflexivity|].
    revert l E H. clear. induction i as [|i IH]; intros [|x l] E H; cbn in E; try discriminate.
    + injection E as ->. reflexivity.
    + cbn [skipn]. apply IH; [exact E|cbn in H; lia].
  - apply nth_error_None in E. lia.
Qed.

Lemma fnv_update_ok F h p n nul : valid_arg nul p n ->
  fnv_update (fnv_w F) (fnv_prime F) h p n = Ok (FNV1a_from F h (data p n)).
Proof.
  intros H. unfold fnv_update. destruct p as [|l]; cbn [valid_arg data] in *.
  - destruct H as [_ ->]. reflexivity.
  - rewrite fnv_loop_ok by lia. reflexivity.
Qed.

Section Fnv.
Variable F : FNV.
Variable pf : plat.
Definition fnv_class : hasher :=
  {| h_S := N; h_R := N; h_init := fnv_basis F;
     h_seed := fnv_seed (fnv_w F) (fnv_prime F) (fnv_basis F) pf;
     h_bytes := fnv_bytes (fnv_w F) (fnv_prime F) (fnv_basis F);
     h_update := fnv_update (fnv_w F) (fnv_prime F); h_result := fnv_result (fnv_w F) (fnv_prime F) |}.

Lemma fnv_app l d : FNV1a_from F (FNV1a F l) d = FNV1a F (l ++ d).
Proof. unfold FNV1a, FNV1a_from. now rewrite fold_left_app. Qed.

Lemma fnv_construct c : valid_ctor c -> construct fnv_class c = Ok (FNV1a F (fnv_start c)).
Proof.
  intros H. destruct c as [|n|p n]; cbn [construct fnv_class h_init h_seed h_bytes fnv_start].
  - reflexivity.
  - unfold fnv_seed. destruct (N.eqb_spec n 0); cbn [negb]; [reflexivity|].
    rewrite write64le_ok. rewrite (fnv_update_ok F _ _ _ true).
    + cbn [data]. rewrite firstn_all2 by (rewrite le_bytes_length; lia). reflexivity.
    + split; [rewrite le_bytes_length; lia|apply le_bytes_bytes].
  - unfold fnv_bytes. destruct (Nat.eqb_spec n 0) as [->|Hn]; cbn [negb].
    + destruct p; reflexivity.
    + now rewrite (fnv_update_ok F _ _ _ true).
Qed.

Lemma fnv_run ops : forall l acc, Forall (valid_op true) ops ->
  run fnv_class (FNV1a F (l ++ acc)) ops
  = Ok (vresults fnv_pad (FNV1a F) l (segments acc ops),
        FNV1a F (vfinal fnv_pad l (segments acc ops))).
Proof.
  induction ops as [|[p n|] t IH]; intros l acc HV.
  - reflexivity.
  - inversion HV as [|? ? V1 V2]; subst. cbn [run segments fnv_class h_update].
    rewrite (fnv_update_ok F _ _ _ true V1). cbn [bind]. rewrite fnv_app, <- app_assoc. now apply IH.
  - inversion HV as [|? ? V1 V2]; subst. cbn [run segments fnv_class h_result].
    unfold fnv_result at 1. cbv zeta. cbn [bind].
    change ((N.lxor (FNV1a F (l ++ acc)) 255 * fnv_prime F) mod 2 ^ fnv_w F)
      with (FNV1a_from F (FNV1a F (l ++ acc)) [255]).
    rewrite fnv_app. rewrite <- (app_nil_r ((l ++ acc) ++ [255])).
    fold fnv_class. rewrite IH by exact V2. cbn [bind].
    pose proof (segments_nonempty [] t) as Hne. destruct (segments [] t) as [|d ds]; [easy|]. reflexivity.
Qed.

Theorem fnv_exec c ops : valid_ctor c -> Forall (valid_op true) ops ->
  exec fnv_class c ops
  = Ok (vresults fnv_pad (FNV1a F) (fnv_start c) (segments [] ops),
        FNV1a F (vfinal fnv_pad (fnv_start c) (segments [] ops))).
Proof.
  intros HC HO. unfold exec. rewrite fnv_construct by exact HC. cbn [bind].
  rewrite <- (app_nil_r (fnv_start c)) at 1. now apply fnv_run.
Qed.
End Fnv.

Theorem fnv32_exec pf c ops : valid_ctor c -> Forall (valid_op true) ops ->
  exec (fnv32_class pf) c ops
  = Ok (vresults fnv_pad (FNV1a FNV32) (fnv_start c) (segments [] ops),
        FNV1a FNV32 (vfinal fnv_pad (fnv_start c) (segments [] ops))).
Proof. exact (fnv_exec FNV32 pf c ops). Qed.
Theorem fnv64_exec pf c ops : valid_ctor c -> Forall (valid_op true) ops ->
  exec (fnv64_class pf) c ops
  = Ok (vresults fnv_pad (FNV1a FNV64) (fnv_start c) (segments [] ops),
        FNV1a FNV64 (vfinal fnv_pad (fnv_start c) (segments [] ops))).
Proof. exact (fnv_exec FNV64 pf c ops). Qed.

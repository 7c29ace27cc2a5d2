(* Concrete environments and programs, used by the examples that stand beside the theorems of
   Props*.v: they meet the hypotheses of those theorems. *)
From Verif Require Import Base SpecCommon Hasher Types ModelResult ModelAppend SpecAppend Behaves Instances.
Open Scope N_scope.

(* a little-endian 64-bit machine at run time, whose empty vectors have a null data() *)
Definition env_pc : env :=
  {| e_impl := {| im_pf := {| p_le := true; p_cx := false |}; im_psz := I64; im_null := true; im_down := false; im_nan := fun b => b |};
     e_cw := 2^64; e_junk := fun k => repeat 0xCD k |}.
(* a big-endian machine with a 32-bit size_t (and, to compare them, 64-bit pointers) *)
Definition env_be : env :=
  {| e_impl := {| im_pf := {| p_le := false; p_cx := false |}; im_psz := I64; im_null := false; im_down := false; im_nan := fun b => N.lor b 1 |};
     e_cw := 2^32; e_junk := fun k => repeat 0x5A k |}.
Lemma env_pc_valid : valid_env env_pc.
Proof. split; [right; reflexivity|]. intros k. apply repeat_length. Qed.
Lemma env_be_valid : valid_env env_be.
Proof. split; [left; reflexivity|]. intros k. apply repeat_length. Qed.
Definition le_flavor : flavor := little_endian_flavor.
Definition be32_flavor : flavor := {| fl_size := I32; fl_order := EBig |}.

(* two updates, a result, hash_append of a tuple( int, bool, vector<uint16_t> ), an unordered range
   and the double -0.0, a result *)
Definition sample_tuple : ustep :=
  SAppend (TTuple [TInt I32 true; TBool; TVec (TInt I16 false)])
    (VList [VInt (-5); VInt 1; VList [VInt 1; VInt 65535]]).
Definition sample : list ustep :=
  [SUpdate (Ptr [97; 98; 99]) 2; SUpdate (Ptr [99]) 1; SResult; sample_tuple;
   SCall (KUnord (TInt I8 true) [VInt 3; VInt (-3)]); SAppend TFlt64 (VInt (2^63)); SResult].

Ltac ok_step :=
  match goal with
  | |- True => exact I
  | |- _ /\ _ => split
  | |- Forall _ _ => constructor
  | |- bytes _ => constructor
  | |- in_int _ _ _ => unfold in_int; cbn; lia
  | |- (_ <= _)%nat => cbn; lia
  | |- (_ < _)%nat => cbn; lia
  | |- (_ <= _)%Z => lia
  | |- (_ < _)%Z => lia
  | |- _ < _ => reflexivity
  | |- _ <> _ => discriminate
  | |- _ = _ => reflexivity
  | |- _ \/ _ => lia
  | _ => progress cbn
  end.
Ltac ok := repeat ok_step.
(* any step list whose values are of their types and whose vectors are not empty is valid for every
   algorithm in every environment with 64-bit pointers *)
Definition steps_ok (xs : list ustep) : Prop :=
  Forall (fun x => match x with
                   | SUpdate p n => valid_arg false p n
                   | SResult => True
                   | SCall k => call_ok I64 k /\ call_null_free k
                   end) xs.
Lemma steps_valid e a c xs : im_psz (e_impl e) = I64 -> valid_ctor c -> steps_ok xs -> valid_program e a c xs.
Proof.
  intros HP HC HX. split; [exact HC|]. eapply Forall_impl; [|exact HX]. intros [p n| |k]; cbn.
  - destruct p as [|l]; [intros [H _]; discriminate|trivial].
  - trivial.
  - rewrite HP. intros [H1 H2]. split; [exact H1|]. intros _. now right.
Qed.
Lemma sample_ok : steps_ok sample.
Proof. unfold steps_ok, sample, sample_tuple. ok. Qed.

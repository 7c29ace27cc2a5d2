(* Model of include/boost/hash2/hmac.hpp, for an algorithm H given by its default-constructed
   object [init], update() and result(); result_type is a digest, i.e. a list of bytes.  [B] is
   H::block_size. *)
From Verif Require Import Base.
Open Scope N_scope.

(* hmac.hpp:47-48 *)
Record hmac_st (S : Type) := mkH { hm_outer : S; hm_inner : S }.
Arguments mkH {S} _ _.
Arguments hm_outer {S} _.
Arguments hm_inner {S} _.

Section HMAC.
Variable pf : plat.
Variable S : Type.
Variable init : S.
Variable upd : S -> ptr -> nat -> res S.
Variable resf : S -> res (list N * S).
Variable B : nat.

(* hmac.hpp:54-74: the key block *)
Definition hmac_key (p : ptr) (n : nat) : res (list N) :=
  let key := zeros B in
  if Nat.eqb n 0 then Ok key
  else if Nat.leb n B then memcpy pf key 0 p n
  else
    h <- upd init p n ;;
    '(r, _) <- resf h ;;
    memcpy pf key 0 (Ptr r) (if Nat.ltb B (length r) then B else length r).

(* hmac.hpp:52-89 *)
Definition hmac_init (p : ptr) (n : nat) : res (hmac_st S) :=
  key <- hmac_key p n ;;
  let key := map (fun b => N.lxor b 0x36 mod 256) key in
  inner <- upd init (Ptr key) B ;;
  let key := map (fun b => N.lxor (N.lxor b 0x36) 0x5C mod 256) key in
  outer <- upd init (Ptr key) B ;;
  Ok (mkH outer inner).

(* hmac.hpp:98-111 *)
Definition hmac_seed (seed : N) : res (hmac_st S) :=
  if seed =? 0 then hmac_init Null 0
  else let tmp := write64le pf seed in hmac_init (Ptr tmp) 8.

(* hmac.hpp:118-126 *)
Definition hmac_update (s : hmac_st S) (p : ptr) (n : nat) : res (hmac_st S) :=
  inner <- upd (hm_inner s) p n ;; Ok (mkH (hm_outer s) inner).

(* hmac.hpp:128-135 *)
Definition hmac_result (s : hmac_st S) : res (list N * hmac_st S) :=
  '(r, inner) <- resf (hm_inner s) ;;
  outer <- upd (hm_outer s) (Ptr r) (length r) ;;
  '(r, outer) <- resf outer ;;
  Ok (r, mkH outer inner).
End HMAC.

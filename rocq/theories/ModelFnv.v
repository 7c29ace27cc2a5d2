(* Model of include/boost/hash2/fnv1a.hpp.  The template detail::fnv1a<T> is modelled with the
   width of T, fnv1a_const<T>::prime and fnv1a_const<T>::basis as parameters. *)
From Verif Require Import Base.
Open Scope N_scope.

(* fnv1a.hpp:74-78, loop for( i = 0; i < n; ++i ) from index i, k iterations left *)
Fixpoint fnv_loop (w prime : N) (p : ptr) (i k : nat) (h : N) : res N :=
  match k with
  | O => Ok h
  | S k' => b <- deref p i ;;
            let h := N.lxor h b in
            let h := (h * prime) mod 2^w in
            fnv_loop w prime p (S i) k' h
  end.

(* fnv1a.hpp:70-81 (the void const* overload, 83-87, forwards to it) *)
Definition fnv_update (w prime : N) (st : N) (p : ptr) (n : nat) : res N :=
  fnv_loop w prime p 0 n st.

(* fnv1a.hpp:89-100 *)
Definition fnv_result (w prime : N) (st : N) : res (N * N) :=
  let r := st in
  let st := (N.lxor st 0xFF * prime) mod 2^w in
  Ok (r, st).

(* fnv1a.hpp:52-60 *)
Definition fnv_seed (w prime basis : N) (pf : plat) (seed : N) : res N :=
  if negb (seed =? 0) then
    let tmp := write64le pf seed in
    fnv_update w prime basis (Ptr tmp) 8
  else Ok basis.

(* fnv1a.hpp:62-68 *)
Definition fnv_bytes (w prime basis : N) (p : ptr) (n : nat) : res N :=
  if negb (Nat.eqb n 0) then fnv_update w prime basis p n else Ok basis.

(* fnv1a.hpp:30 *)
Definition fnv32_basis : N := 0x811C9DC5.
(* fnv1a.hpp:31 *)
Definition fnv32_prime : N := 0x01000193.
(* fnv1a.hpp:36 *)
Definition fnv64_basis : N := 0xCBF29CE484222325.
(* fnv1a.hpp:37 *)
Definition fnv64_prime : N := 0x00000100000001B3.

(* fnv1a.hpp:105-118: fnv1a_32 *)
Definition fnv32_init : N := fnv32_basis.
(* fnv1a.hpp:111-113 *)
Definition fnv32_seed := fnv_seed 32 fnv32_prime fnv32_basis.
(* fnv1a.hpp:115-117 *)
Definition fnv32_bytes := fnv_bytes 32 fnv32_prime fnv32_basis.
(* fnv1a.hpp:105 (inherited: 70-81) *)
Definition fnv32_update := fnv_update 32 fnv32_prime.
(* fnv1a.hpp:105 (inherited: 89-100) *)
Definition fnv32_result := fnv_result 32 fnv32_prime.
(* fnv1a.hpp:120-133: fnv1a_64 *)
Definition fnv64_init : N := fnv64_basis.
(* fnv1a.hpp:126-128 *)
Definition fnv64_seed := fnv_seed 64 fnv64_prime fnv64_basis.
(* fnv1a.hpp:130-132 *)
Definition fnv64_bytes := fnv_bytes 64 fnv64_prime fnv64_basis.
(* fnv1a.hpp:120 (inherited: 70-81) *)
Definition fnv64_update := fnv_update 64 fnv64_prime.
(* fnv1a.hpp:120 (inherited: 89-100) *)
Definition fnv64_result := fnv_result 64 fnv64_prime.

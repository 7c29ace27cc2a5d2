(* Models of further programs of /repo: the functions hashed at compile time of
   example/compile_time.cpp and example/compile_time_2.cpp, and the hash function objects of
   benchmark/unordered.cpp. *)
From Verif Require Import Base SpecCommon Hasher Types ModelResult ModelAppend Behaves Instances ModelExamples.
Open Scope N_scope.

(* ------------------------------------------------------------------ compile time *)
(* example/compile_time.cpp:42-47: md5( a ), a being an array of unsigned char *)
Definition example_md5 (e : env) (a : list N) : res result :=
  let H := pk_h (pack e (Amd Amd5)) in
  hash <- h_update H (h_init H) (Ptr a) (length a) ;;
  '(r, _) <- h_result H hash ;;
  Ok (pk_out (pack e (Amd Amd5)) r).
(* example/compile_time_2.cpp:50-58: hmac_sha2_256( s ), s being an array of char (signed or not,
   [sg]); the array [secret] of compile_time_2.cpp:43-48 is a parameter *)
Definition example_hmac (e : env) (sg : bool) (secret : list N) (s : list Z) : res result :=
  let H := pk_h (pack e (Ahmac Asha256)) in
  hmac <- h_bytes H (Ptr secret) (length secret) ;;
  hmac <- ha_call H (pk_gir (pack e (Ahmac Asha256))) (e_impl e) (default_flavor (e_pf e))
            (KRange IPtr (TInt I8 sg) (map VInt (firstn (length s - 1) s))) hmac ;;
  '(r, _) <- h_result H hmac ;;
  Ok (pk_out (pack e (Ahmac Asha256)) r).

(* ------------------------------------------------------------------ benchmark/unordered.cpp *)
(* unordered.cpp:31-39, 43: compute_hash_value_impl; boost::container_hash::is_contiguous_range (a
   dependency) is taken to be true for the types with data() and size(): vectors, strings, arrays *)
Definition benchmark_call (t : ty) (v : val) : call :=
  match t, v with
  | TVec t, VList vs | TArr _ t, VList vs => KRange IPtr t vs
  | _, _ => KVal t v
  end.
Section Object.
Variables (e : env) (a : alg) (t : ty).
Notation H := (pk_h (pack e a)).
(* unordered.cpp:41-45: compute_hash_value *)
Definition compute_hash_value (h : h_S H) (v : val) : res N :=
  h <- ha_call H (pk_gir (pack e a)) (e_impl e) (default_flavor (e_pf e)) (benchmark_call t v) h ;;
  '(r, _) <- h_result H h ;;
  gir_size e (pk_out (pack e a) r).
(* unordered.cpp:49-60: hash_without_seed; one call *)
Definition benchmark_without_seed (v : val) : res N := compute_hash_value (h_init H) v.
(* unordered.cpp:62-81: hash_with_uint64_seed; one call *)
Definition benchmark_uint64_seed (seed_ : N) (v : val) : res N := h <- h_seed H seed_ ;; compute_hash_value h v.
(* unordered.cpp:83-102: hash_with_byte_seed; the calls on one object, each of which copies h_ *)
Fixpoint benchmark_calls (h_ : h_S H) (vs : list val) : res (list N) :=
  match vs with
  | [] => Ok []
  | v :: t => z <- compute_hash_value h_ v ;; zs <- benchmark_calls h_ t ;; Ok (z :: zs)
  end.
(* unordered.cpp:93-95 *)
Definition benchmark_byte_seed (seed : ptr) (n : nat) (vs : list val) : res (list N) := h_ <- h_bytes H seed n ;; benchmark_calls h_ vs.
End Object.

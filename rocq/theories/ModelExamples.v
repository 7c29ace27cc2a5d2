(* Models of the programs in /repo/example: hash function objects for unordered containers, the
   user-defined algorithm xxhash_128, and the command line tools md5sum and hash2sum. *)
From Verif Require Import Base SpecCommon Hasher Types ModelResult ModelAppend ModelDigest Behaves Instances.
From Verif Require Import ProofXxh.
Open Scope N_scope.

(* ------------------------------------------------------------------ hash function objects *)
(* std::size_t *)
(* std::size_t, the return type in example/hash_with_any_seed.cpp:31 etc. *)
Definition size_t (e : env) : isz := if e_cw e =? 2^32 then I32 else I64.
(* get_integral_result<std::size_t>( r ), by result type (get_integral_result.hpp:134-180);
   std::size_t is unsigned *)
Definition gir_size (e : env) (r : result) : res N :=
  match r with RInt s x => gir_int (size_t e) s x | RDigest d => gir_digest (e_pf e) (size_t e) d end.

Section Object.
Variables (e : env) (a : alg) (t : ty).
Notation H := (pk_h (pack e a)).
(* the body shared by the operator() of all examples: hash_append( h, {}, v ) and
   get_integral_result<std::size_t>( h.result() ); {} is a default_flavor *)
(* example/hash_with_any_seed.cpp:33-35, hash_with_byte_seed.cpp:25-27, hash_with_uint64_seed.cpp:25-27, hash_without_seed.cpp:17-19, hash_32_64.cpp:43-45 *)
Definition object_value (h : h_S H) (v : val) : res N :=
  h <- ha_call H (pk_gir (pack e a)) (e_impl e) (default_flavor (e_pf e)) (KVal t v) h ;;
  '(r, _) <- h_result H h ;;
  gir_size e (pk_out (pack e a) r).
(* hash_with_any_seed.cpp:31-36, hash_with_byte_seed.cpp:23-28, hash_32_64.cpp:41-46: operator()
   copies the member h_; the values of a sequence of calls on one object *)
Fixpoint object_calls (h_ : h_S H) (vs : list val) : res (list N) :=
  match vs with
  | [] => Ok []
  | v :: t => z <- object_value h_ v ;; zs <- object_calls h_ t ;; Ok (z :: zs)
  end.
(* hash_with_any_seed.cpp:15-29: hash(), hash( seed ), hash( p, n ) initialise h_ *)
Definition hash_with_any_seed (c : ctor) (vs : list val) : res (list N) := h_ <- construct H c ;; object_calls h_ vs.
(* hash_with_byte_seed.cpp:15-21 *)
Definition hash_with_byte_seed (p : ptr) (n : nat) (vs : list val) : res (list N) := h_ <- h_bytes H p n ;; object_calls h_ vs.
(* hash_with_uint64_seed.cpp:15-28: the member is seed_; every call constructs H h( seed_ ) *)
Fixpoint hash_with_uint64_seed (seed_ : N) (vs : list val) : res (list N) :=
  match vs with
  | [] => Ok []
  | v :: t => h <- h_seed H seed_ ;; z <- object_value h v ;; zs <- hash_with_uint64_seed seed_ t ;; Ok (z :: zs)
  end.
(* hash_without_seed.cpp:15-20: every call default-constructs H h *)
Fixpoint hash_without_seed (vs : list val) : res (list N) :=
  match vs with
  | [] => Ok []
  | v :: t => z <- object_value (h_init H) v ;; zs <- hash_without_seed t ;; Ok (z :: zs)
  end.
End Object.

(* sizeof( H::result_type ) *)
(* used by example/hash_32_64.cpp:19-21 *)
Definition result_size (a : alg) : nat :=
  match a with
  | Amd m | Ahmac m => size_of_md m
  | Asip64 | Axx64 | Afnv64 => 8
  | Asip32 | Axx32 | Afnv32 | Amur32 => 4
  | Amur128 | Aspooky => 16
  end.
(* hash_32_64.cpp:19-21: hash_type *)
Definition hash_type (e : env) (a1 a2 : alg) : alg :=
  if Nat.eqb (result_size a1) (ibytes (size_t e)) then a1 else a2.
(* hash_32_64.cpp:25-46 *)
Definition hash_32_64 (e : env) (a1 a2 : alg) (t : ty) (c : ctor) (vs : list val) : res (list N) :=
  hash_with_any_seed e (hash_type e a1 a2) t c vs.

(* ------------------------------------------------------------------ xxhash_128 *)
(* xxh128_from_xxh64.cpp:18-29: result() of a class derived from [h]; boost::endian::store_little_u64
   (a dependency of the example) is taken to store the 8 bytes of its argument, lowest first *)
Definition store_little_u64 (r : list N) (off : nat) (x : N) : list N := splice r off (toLE 8 x).
(* xxh128_from_xxh64.cpp:18-29 *)
Definition twice_result {S} (result : S -> res (N * S)) (s : S) : res (list N * S) :=
  '(r1, s) <- result s ;;
  '(r2, s) <- result s ;;
  let r := zeros 16 in
  let r := store_little_u64 r 0 r1 in
  let r := store_little_u64 r 8 r2 in
  Ok (r, s).
(* xxh128_from_xxh64.cpp:9-30: constructors and update() are those of xxhash_64 *)
Definition xxhash_128 (pf : plat) : hasher :=
  let h := xx64_class (2^64) pf in
  {| h_S := h_S h; h_R := list N; h_init := h_init h; h_seed := h_seed h; h_bytes := h_bytes h;
     h_update := h_update h; h_result := twice_result (h_result h) |}.

(* ------------------------------------------------------------------ md5sum and hash2sum *)
(* hash2sum.cpp:21, 26; md5sum.cpp:17, 22: N = 4096 *)
Definition buffer_size : nat := N.to_nat 4096.
(* one call of std::fread( buffer, 1, 4096, f ): the bytes read ([] at the end of the file), or an
   error indication *)
(* example/hash2sum.cpp:26, md5sum.cpp:22 *)
Inductive fread := FData (l : list N) | FError.
(* A file: opening fails, or reads that give data until the end of the file is reached *)
(* example/hash2sum.cpp:46-56, md5sum.cpp:44-51 *)
Definition file : Type := option (list fread).

(* hash2sum.cpp:24-37, md5sum.cpp:20-33: the loop; None after a read error.  [reads]: what the calls
   of fread return; after them, the end of the file.  The buffer keeps older bytes after the n bytes
   read. *)
Fixpoint sum_loop (h : hasher) (s : h_S h) (buffer : list N) (reads : list fread) : res (option (h_S h)) :=
  match reads with
  | [] => Ok (Some s)
  | FError :: _ => Ok None
  | FData l :: t =>
      let buffer := splice buffer 0 l in
      let n := length l in
      if Nat.eqb n 0 then Ok (Some s)
      else s <- h_update h s (Ptr buffer) n ;; sum_loop h s buffer t
  end.
(* hash2sum.cpp:17-42 (md5sum.cpp:13-38 for md5_128): what is written to the standard output for the
   name [fn]; the buffer is not initialised *)
Definition sum_file (e : env) (m : md_alg) (fn : list N) (reads : list fread) : res (list N) :=
  let h := pk_h (pack e (Amd m)) in
  s <- sum_loop h (h_init h) (e_junk e buffer_size) reads ;;
  match s with
  | None => Ok []
  | Some s =>
      '(r, _) <- h_result h s ;;
      let d := match pk_out (pack e (Amd m)) r with RDigest d => d | RInt _ _ => [] end in
      digest <- to_string d (e_junk e (2 * length d + 1)) ;;
      Ok (digest ++ [32; 42] ++ fn ++ [10])
  end.
(* hash2sum.cpp:44-57, 109-112, md5sum.cpp:40-56: the standard output for the file names of the command line *)
Fixpoint sum_files (e : env) (m : md_alg) (args : list (list N * file)) : res (list N) :=
  match args with
  | [] => Ok []
  | (fn, None) :: t => sum_files e m t
  | (fn, Some reads) :: t => o <- sum_file e m fn reads ;; os <- sum_files e m t ;; Ok (o ++ os)
  end.
(* example/md5sum.cpp:40-56 *)
Definition md5sum (e : env) (args : list (list N * file)) : res (list N) := sum_files e Amd5 args.

(* hash2sum.cpp:62-90: the list of types and the list of names *)
Definition hashes : list md_alg :=
  [Amd5; Asha1; Asha256; Asha224; Asha512; Asha384; Asha512_256; Asha512_224; Armd160; Armd128].
From Coq Require Import String Ascii.
(* no counterpart in /repo: character codes of a string literal (ASCII) *)
Definition codes (s : string) : list N := map (fun c => N_of_ascii c) (list_ascii_of_string s).
(* example/hash2sum.cpp:77-90 *)
Definition names : list (list N) :=
  map codes ["md5_128"; "sha1_160"; "sha2_256"; "sha2_224"; "sha2_512"; "sha2_384"; "sha2_512_256";
             "sha2_512_224"; "ripemd_160"; "ripemd_128"]%string.
(* operator== of example/hash2sum.cpp:105 *)
Fixpoint leqb (a b : list N) : bool :=
  match a, b with
  | [], [] => true
  | x :: a, y :: b => (x =? y) && leqb a b
  | _, _ => false
  end.
(* hash2sum.cpp:103-117: mp_for_each over the indices: every type whose name is the first argument
   hashes all files (standard output and whether a name was found) *)
Fixpoint for_each (e : env) (hash : list N) (args : list (list N * file)) (hs : list md_alg) (ns : list (list N))
    : res (list N * bool) :=
  match hs, ns with
  | m :: hs, n :: ns =>
      if leqb hash n then
        o <- sum_files e m args ;;
        '(os, _) <- for_each e hash args hs ns ;; Ok (o ++ os, true)
      else for_each e hash args hs ns
  | _, _ => Ok ([], false)
  end.
(* hash2sum.cpp:92-130: the standard output and the exit code; [argv]: the arguments after the
   program name *)
Definition hash2sum (e : env) (argv : option (list N * list (list N * file))) : res (list N * N) :=
  match argv with
  | None => Ok ([], 2)
  | Some (hash, args) =>
      '(os, found) <- for_each e hash args hashes names ;;
      Ok (os, if found then 0 else 1)
  end.

(* SpookyHash V2 (B. Jenkins, SpookyV2.h / SpookyV2.cpp), public domain.  The reference code
   spells its mixing functions out line by line; the lines are regular and are written here as
   one line indexed by i, variables being numbered modulo 12 (resp. 4). *)
From Coq Require Import List Arith NArith.
From Verif Require Import SpecCommon.
Import ListNotations.
Open Scope N_scope.

Definition sc_const : N := 0xdeadbeefdeadbeef.
Definition sc_blockSize : nat := 96.    (* 8 * sc_numVars *)
Definition sc_bufSize : nat := 192.     (* 2 * sc_blockSize *)

(* variable i of k, and assignment to it *)
Definition var (k i : nat) (h : list N) : N := nth (i mod k) h 0.
Fixpoint set_nth (i : nat) (v : N) (h : list N) : list N :=
  match h, i with
  | [], _ => []
  | _ :: t, O => v :: t
  | x :: t, S i' => x :: set_nth i' v t
  end.
Definition assign (k i : nat) (v : N) (h : list N) : list N := set_nth (i mod k) v h.

(* 64-bit words of a byte string *)
Definition word64 (l : list N) (i : nat) : N := LE (firstn 8 (skipn (8 * i) l)).

(* Mix: line i is  s_i += data[i]; s_{i+2} ^= s_{i+10}; s_{i+11} ^= s_i; s_i = Rot64(s_i,r_i); s_{i+11} += s_{i+1} *)
Definition Mix_rot : list N := [11; 32; 43; 31; 17; 28; 39; 57; 55; 54; 22; 46].
Definition Mix_line (data : list N) (s : list N) (i : nat) : list N :=
  let s := assign 12 i (ADD 64 (var 12 i s) (word64 data i)) s in
  let s := assign 12 (i + 2) (N.lxor (var 12 (i + 2) s) (var 12 (i + 10) s)) s in
  let s := assign 12 (i + 11) (N.lxor (var 12 (i + 11) s) (var 12 i s)) s in
  let s := assign 12 i (ROTL 64 (nth i Mix_rot 0) (var 12 i s)) s in
  assign 12 (i + 11) (ADD 64 (var 12 (i + 11) s) (var 12 (i + 1) s)) s.
Definition Spooky_Mix (s : list N) (data : list N) : list N := fold_left (Mix_line data) (seq 0 12) s.

(* EndPartial: line i is  h_{i+11} += h_{i+1}; h_{i+2} ^= h_{i+11}; h_{i+1} = Rot64(h_{i+1},r_i) *)
Definition End_rot : list N := [44; 15; 34; 21; 38; 33; 10; 13; 38; 53; 42; 54].
Definition EndPartial_line (h : list N) (i : nat) : list N :=
  let h := assign 12 (i + 11) (ADD 64 (var 12 (i + 11) h) (var 12 (i + 1) h)) h in
  let h := assign 12 (i + 2) (N.lxor (var 12 (i + 2) h) (var 12 (i + 11) h)) h in
  assign 12 (i + 1) (ROTL 64 (nth i End_rot 0) (var 12 (i + 1) h)) h.
Definition Spooky_EndPartial (h : list N) : list N := fold_left EndPartial_line (seq 0 12) h.
(* End: h_i += data[i], then EndPartial three times *)
Definition Spooky_End (h : list N) (data : list N) : list N :=
  let h := fold_left (fun h i => assign 12 i (ADD 64 (var 12 i h) (word64 data i)) h) (seq 0 12) h in
  Spooky_EndPartial (Spooky_EndPartial (Spooky_EndPartial h)).

(* ShortMix: line i is  h_{i+2} = Rot64(h_{i+2},r_i); h_{i+2} += h_{i+3}; h_i ^= h_{i+2} *)
Definition ShortMix_rot : list N := [50; 52; 30; 41; 54; 48; 38; 37; 62; 34; 5; 36].
Definition ShortMix_line (h : list N) (i : nat) : list N :=
  let h := assign 4 (i + 2) (ROTL 64 (nth i ShortMix_rot 0) (var 4 (i + 2) h)) h in
  let h := assign 4 (i + 2) (ADD 64 (var 4 (i + 2) h) (var 4 (i + 3) h)) h in
  assign 4 i (N.lxor (var 4 i h) (var 4 (i + 2) h)) h.
Definition Spooky_ShortMix (h : list N) : list N := fold_left ShortMix_line (seq 0 12) h.
(* ShortEnd: line i is  h_{i+3} ^= h_{i+2}; h_{i+2} = Rot64(h_{i+2},r_i); h_{i+3} += h_{i+2} *)
Definition ShortEnd_rot : list N := [15; 52; 26; 51; 28; 9; 47; 54; 32; 25; 63].
Definition ShortEnd_line (h : list N) (i : nat) : list N :=
  let h := assign 4 (i + 3) (N.lxor (var 4 (i + 3) h) (var 4 (i + 2) h)) h in
  let h := assign 4 (i + 2) (ROTL 64 (nth i ShortEnd_rot 0) (var 4 (i + 2) h)) h in
  assign 4 (i + 3) (ADD 64 (var 4 (i + 3) h) (var 4 (i + 2) h)) h.
Definition Spooky_ShortEnd (h : list N) : list N := fold_left ShortEnd_line (seq 0 11) h.

(* SpookyHash::Short; the variables a, b, c, d are numbered 0, 1, 2, 3 *)
Definition Short_cd (h : list N) (x y : N) : list N :=      (* c += x; d += y *)
  assign 4 3 (ADD 64 (var 4 3 h) y) (assign 4 2 (ADD 64 (var 4 2 h) x) h).
Definition Short_32 (h : list N) (blk : list N) : list N :=
  let h := Spooky_ShortMix (Short_cd h (word64 blk 0) (word64 blk 1)) in
  assign 4 1 (ADD 64 (var 4 1 h) (word64 blk 3)) (assign 4 0 (ADD 64 (var 4 0 h) (word64 blk 2)) h).
Definition Spooky_Short (hash1 hash2 : N) (l : list N) : N * N :=
  let h := fold_left Short_32 (chunks 32 l) [hash1; hash2; sc_const; sc_const] in
  let r := rest 32 l in
  let '(h, r) := if Nat.leb 16 (length r)
                 then (Spooky_ShortMix (Short_cd h (word64 r 0) (word64 r 1)), skipn 16 r)
                 else (h, r) in
  (* the last 0..15 bytes, and the length *)
  let h := assign 4 3 (ADD 64 (var 4 3 h) ((N.of_nat (length l) * 2^56) mod 2^64)) h in
  let h := match r with
           | [] => Short_cd h sc_const sc_const
           | _ => Short_cd h (LE (firstn 8 r)) (LE (skipn 8 r))
           end in
  let h := Spooky_ShortEnd h in
  (var 4 0 h, var 4 1 h).

(* the long form: initial variables, whole blocks, then the padded last block *)
Definition Spooky_init (seed1 seed2 : N) : list N :=
  [seed1; seed2; sc_const; seed1; seed2; sc_const; seed1; seed2; sc_const; seed1; seed2; sc_const].
(* the remainder, zeros, and the length of the remainder in the last byte *)
Definition Spooky_last (r : list N) : list N :=
  r ++ repeat 0 (95 - length r) ++ [N.of_nat (length r)].
Definition Spooky_Long (seed1 seed2 : N) (l : list N) : N * N :=
  let h := fold_left Spooky_Mix (chunks sc_blockSize l) (Spooky_init seed1 seed2) in
  let h := Spooky_End h (Spooky_last (rest sc_blockSize l)) in
  (var 12 0 h, var 12 1 h).

(* SpookyHash::Hash128; the result is hash1, hash2 as 16 little-endian bytes *)
Definition SpookyV2_128 (seed1 seed2 : N) (l : list N) : list N :=
  let '(h1, h2) := if Nat.ltb (length l) sc_bufSize then Spooky_Short seed1 seed2 l
                   else Spooky_Long seed1 seed2 l in
  toLE 8 h1 ++ toLE 8 h2.

(* values of the reference implementation's self test: bytes 128, 129, ... and seeds 0, 0 *)
Definition spooky_msg (n : nat) : list N := map (fun i => N.of_nat (i + 128) mod 256) (seq 0 n).
Definition spooky32 (n : nat) : N := LE (firstn 4 (SpookyV2_128 0 0 (spooky_msg n))).
Example spooky_selftest :
  map spooky32 [0; 1; 7; 8; 15; 16; 29; 32; 47; 63; 191; 192; 250; 288; 383; 511]%nat
  = [0x6bf50919; 0x70de1d26; 0xf9f1a233; 0xee193982; 0x83ec01f9; 0xf274736c; 0x170c658b; 0xe5cfc8b6; 0x75728d0a; 0x09c1afb4; 0xe13d9e19; 0x77e012bd; 0x91ebbc56; 0x47880140; 0x4827f45c; 0xcc1c8250].
Proof. vm_compute. reflexivity. Qed.

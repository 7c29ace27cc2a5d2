(* SipHash-2-4 (Aumasson, Bernstein: "SipHash: a fast short-input PRF", 2012) and
   HalfSipHash-2-4 with 32-bit output (reference code halfsiphash.c of the same authors). *)
From Coq Require Import List Arith NArith.
From Verif Require Import SpecCommon.
Import ListNotations.
Open Scope N_scope.

Definition Sip_state := (N * N * N * N)%type.
Record Sip_family := {
  sw : N;  swb : nat;                          (* word width in bits, bytes *)
  ra : N; rb : N; rc : N; rd : N; rh : N;      (* rotation amounts *)
  sinit : Sip_state;
  sout : Sip_state -> N }.

(* section 2.4, figure 2.1 *)
Definition F64 : Sip_family :=
  {| sw := 64; swb := 8; ra := 13; rb := 16; rc := 17; rd := 21; rh := 32;
     sinit := (0x736f6d6570736575, 0x646f72616e646f6d, 0x6c7967656e657261, 0x7465646279746573);
     sout := fun '(v0, v1, v2, v3) => N.lxor (N.lxor (N.lxor v0 v1) v2) v3 |}.
Definition F32 : Sip_family :=
  {| sw := 32; swb := 4; ra := 5; rb := 8; rc := 13; rd := 7; rh := 16;
     sinit := (0, 0, 0x6c796765, 0x74656462);
     sout := fun '(v0, v1, v2, v3) => N.lxor v1 v3 |}.

Section Sip.
Variable F : Sip_family.

(* SipRound, in the order of the paper (two independent lanes per half round) *)
Definition SipRound (v : Sip_state) : Sip_state :=
  let '(v0, v1, v2, v3) := v in
  let v0 := ADD (sw F) v0 v1 in            let v2 := ADD (sw F) v2 v3 in
  let v1 := ROTL (sw F) (ra F) v1 in       let v3 := ROTL (sw F) (rb F) v3 in
  let v1 := N.lxor v1 v0 in                let v3 := N.lxor v3 v2 in
  let v0 := ROTL (sw F) (rh F) v0 in
  let v2 := ADD (sw F) v2 v1 in            let v0 := ADD (sw F) v0 v3 in
  let v1 := ROTL (sw F) (rc F) v1 in       let v3 := ROTL (sw F) (rd F) v3 in
  let v1 := N.lxor v1 v2 in                let v3 := N.lxor v3 v0 in
  let v2 := ROTL (sw F) (rh F) v2 in
  (v0, v1, v2, v3).

(* step 1: initialization *)
Definition SipInit (k0 k1 : N) : Sip_state :=
  let '(v0, v1, v2, v3) := sinit F in
  (N.lxor v0 k0, N.lxor v1 k1, N.lxor v2 k0, N.lxor v3 k1).

(* step 2: compression of one word, c = 2 *)
Definition SipWord (v : Sip_state) (word : list N) : Sip_state :=
  let m := LE word in
  let '(v0, v1, v2, v3) := v in
  let '(v0, v1, v2, v3) := SipRound (SipRound (v0, v1, v2, N.lxor v3 m)) in
  (N.lxor v0 m, v1, v2, v3).

(* the last word: remaining bytes, zeros, and the length modulo 256 *)
Definition SipLast (len : N) (tail : list N) : list N :=
  tail ++ repeat 0 (swb F - 1 - length tail) ++ [len mod 256].

(* step 3: finalization, d = 4 *)
Definition SipFinal (v : Sip_state) : Sip_state :=
  let '(v0, v1, v2, v3) := v in
  SipRound (SipRound (SipRound (SipRound (v0, v1, N.lxor v2 0xff, v3)))).

(* [SipFrom v c l]: the state after finalization, starting at v, when c bytes (a multiple of
   the word size) count as already processed *)
Definition SipFrom (v : Sip_state) (c : N) (l : list N) : Sip_state :=
  SipFinal (SipWord (fold_left SipWord (chunks (swb F) l) v)
                    (SipLast (c + N.of_nat (length l)) (rest (swb F) l))).

Definition Sip (k0 k1 : N) (l : list N) : N := sout F (SipFrom (SipInit k0 k1) 0 l).
End Sip.

(* the keyed functions: k is 16 (8) bytes, two little-endian words *)
Definition SipHash24 (k l : list N) : N := Sip F64 (LE (firstn 8 k)) (LE (skipn 8 k)) l.
Definition HalfSipHash24 (k l : list N) : N := Sip F32 (LE (firstn 4 k)) (LE (skipn 4 k)) l.

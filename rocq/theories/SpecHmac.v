(* HMAC, RFC 2104 section 2, with byte length [B] of blocks and hash function [H]. *)
From Coq Require Import List Arith NArith.
Import ListNotations.
Open Scope N_scope.

Section HMAC.
Variable B : nat.
Variable H : list N -> list N.

(* keys longer than B bytes are first hashed; zeros are appended to create a B byte string *)
Definition HMAC_key (K : list N) : list N :=
  let K := if Nat.leb (length K) B then K else H K in
  K ++ repeat 0 (B - length K).
(* ipad = the byte 0x36 repeated B times, opad = the byte 0x5C repeated B times *)
Definition HMAC_ikey (K : list N) : list N := map (N.lxor 0x36) (HMAC_key K).
Definition HMAC_okey (K : list N) : list N := map (N.lxor 0x5C) (HMAC_key K).
(* H(K XOR opad, H(K XOR ipad, text)) *)
Definition HMAC (K text : list N) : list N := H (HMAC_okey K ++ H (HMAC_ikey K ++ text)).
End HMAC.

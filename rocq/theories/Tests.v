(* The expected values of the library's own test suite (/repo/test), evaluated in the model.  These
   are tests of the model's faithfulness, not properties: each runs the model's classes and
   hash_append on a test input and compares with the literal in the test, on little- and big-endian
   machines, at run time and in constant evaluation. *)
From Verif Require Import Base SpecCommon Hasher Types ModelResult ModelAppend SpecAppend Behaves Instances Samples PropsHistory.
Open Scope N_scope.

Definition machines : list env := [set_cx env_pc false; set_cx env_pc true; set_cx env_be false; set_cx env_be true].
Definition res_eqb (x : res (list result)) (r : N) : bool :=
  match x with Ok [RInt _ y] => y =? r | _ => false end.
(* algorithm a, flavor f, the calls, the expected result *)
Definition check (a : alg) (f : flavor) (xs : list ustep) (r : N) : bool :=
  forallb (fun e => res_eqb (runs e a f CDefault (xs ++ [SResult])) r) machines.
Definition check1 (a : alg) (f : flavor) (xs : list ustep) (r : N) : bool := res_eqb (runs env_pc a f CDefault (xs ++ [SResult])) r.
Definition le := little_endian_flavor.
Definition be := big_endian_flavor.
Definition ap (t : ty) (v : val) : list ustep := [SAppend t v].
Definition u8 := TInt I8 false. Definition c8 := TInt I8 true.
Definition c16 := TInt I16 false. Definition c32 := TInt I32 false. Definition int := TInt I32 true.
Definition ints (l : list Z) : val := VList (map VInt l).
Definition double_ (i : Z) : Z := match i with 1 => 0x3FF0000000000000 | 2 => 0x4000000000000000 | 3 => 0x4008000000000000 | 4 => 0x4010000000000000 | _ => 0 end%Z.
Definition v4 : list Z := [1; 2; 3; 4]%Z.
Definition d4 : list Z := map double_ v4.

(* append_container.cpp *)
Example t001 : check Afnv32 le (ap (TVec u8) (ints v4)) 2468847257 = true. Proof. vm_compute. reflexivity. Qed.
(* append_container.cpp *)
Example t002 : check Afnv32 be (ap (TVec u8) (ints v4)) 78451921 = true. Proof. vm_compute. reflexivity. Qed.
(* append_container.cpp *)
Example t003 : check Afnv32 le (ap (TList CInput u8) (ints v4)) 2468847257 = true. Proof. vm_compute. reflexivity. Qed.
(* append_container.cpp *)
Example t004 : check Afnv32 be (ap (TList CInput u8) (ints v4)) 78451921 = true. Proof. vm_compute. reflexivity. Qed.
(* append_container.cpp *)
Example t005 : check Afnv32 le (ap (TList CRandom u8) (ints v4)) 2468847257 = true. Proof. vm_compute. reflexivity. Qed.
(* append_container.cpp *)
Example t006 : check Afnv32 be (ap (TList CRandom u8) (ints v4)) 78451921 = true. Proof. vm_compute. reflexivity. Qed.
(* append_container.cpp *)
Example t007 : check Afnv32 le ([SCall (KSized (IIter CInput) u8 (map VInt v4))]) 2468847257 = true. Proof. vm_compute. reflexivity. Qed.
(* append_container.cpp *)
Example t008 : check Afnv32 be ([SCall (KSized IPtr u8 (map VInt v4))]) 78451921 = true. Proof. vm_compute. reflexivity. Qed.
(* append_container.cpp *)
Example t009 : check Afnv32 le (ap (TVec int) (ints v4)) 2374676325 = true. Proof. vm_compute. reflexivity. Qed.
(* append_container.cpp *)
Example t010 : check Afnv32 be (ap (TVec int) (ints v4)) 2877134693 = true. Proof. vm_compute. reflexivity. Qed.
(* append_container.cpp *)
Example t011 : check Afnv32 le (ap (TList CInput int) (ints v4)) 2374676325 = true. Proof. vm_compute. reflexivity. Qed.
(* append_container.cpp *)
Example t012 : check Afnv32 be (ap (TList CInput int) (ints v4)) 2877134693 = true. Proof. vm_compute. reflexivity. Qed.
(* append_container.cpp *)
Example t013 : check Afnv32 le (ap (TList CRandom int) (ints v4)) 2374676325 = true. Proof. vm_compute. reflexivity. Qed.
(* append_container.cpp *)
Example t014 : check Afnv32 be (ap (TList CRandom int) (ints v4)) 2877134693 = true. Proof. vm_compute. reflexivity. Qed.
(* append_container.cpp *)
Example t015 : check Afnv32 le ([SCall (KSized (IIter CInput) int (map VInt v4))]) 2374676325 = true. Proof. vm_compute. reflexivity. Qed.
(* append_container.cpp *)
Example t016 : check Afnv32 be ([SCall (KSized IPtr int (map VInt v4))]) 2877134693 = true. Proof. vm_compute. reflexivity. Qed.
(* append_container.cpp *)
Example t017 : check Afnv32 le (ap (TVec TFlt64) (ints d4)) 461647460 = true. Proof. vm_compute. reflexivity. Qed.
(* append_container.cpp *)
Example t018 : check Afnv32 be (ap (TVec TFlt64) (ints d4)) 1394753398 = true. Proof. vm_compute. reflexivity. Qed.
(* append_container.cpp *)
Example t019 : check Afnv32 le (ap (TList CInput TFlt64) (ints d4)) 461647460 = true. Proof. vm_compute. reflexivity. Qed.
(* append_container.cpp *)
Example t020 : check Afnv32 be (ap (TList CInput TFlt64) (ints d4)) 1394753398 = true. Proof. vm_compute. reflexivity. Qed.
(* append_container.cpp *)
Example t021 : check Afnv32 le (ap (TList CRandom TFlt64) (ints d4)) 461647460 = true. Proof. vm_compute. reflexivity. Qed.
(* append_container.cpp *)
Example t022 : check Afnv32 be (ap (TList CRandom TFlt64) (ints d4)) 1394753398 = true. Proof. vm_compute. reflexivity. Qed.
(* append_container.cpp *)
Example t023 : check Afnv32 le ([SCall (KSized (IIter CInput) TFlt64 (map VInt d4))]) 461647460 = true. Proof. vm_compute. reflexivity. Qed.
(* append_container.cpp *)
Example t024 : check Afnv32 be ([SCall (KSized IPtr TFlt64 (map VInt d4))]) 1394753398 = true. Proof. vm_compute. reflexivity. Qed.
(* append_string.cpp *)
Example t025 : check Afnv32 le (ap (TVec c8) (ints v4)) 2468847257 = true. Proof. vm_compute. reflexivity. Qed.
(* append_string.cpp, append_string_view.cpp *)
Example t026 : check Afnv32 be (ap (TVec c8) (ints v4)) 78451921 = true. Proof. vm_compute. reflexivity. Qed.
(* append_string.cpp *)
Example t027 : check Afnv32 le (ap (TVec c16) (ints v4)) 634283301 = true. Proof. vm_compute. reflexivity. Qed.
(* append_string.cpp, append_string_view.cpp *)
Example t028 : check Afnv32 be (ap (TVec c16) (ints v4)) 1469224165 = true. Proof. vm_compute. reflexivity. Qed.
(* append_string.cpp *)
Example t029 : check Afnv32 le (ap (TVec c32) (ints v4)) 2374676325 = true. Proof. vm_compute. reflexivity. Qed.
(* append_string.cpp, append_string_view.cpp *)
Example t030 : check Afnv32 be (ap (TVec c32) (ints v4)) 2877134693 = true. Proof. vm_compute. reflexivity. Qed.
(* append_byte_sized.cpp *)
Example t031 : check Afnv32 le (ap (TCArr 95 (TBool)) (VList (repeat (VInt 0) 95))) 409807047 = true. Proof. vm_compute. reflexivity. Qed.
(* append_byte_sized.cpp *)
Example t032 : check Afnv32 le (ap (TCArr 95 (c8)) (VList (repeat (VInt 0) 95))) 409807047 = true. Proof. vm_compute. reflexivity. Qed.
(* append_byte_sized.cpp *)
Example t033 : check Afnv32 le (ap (TCArr 95 (u8)) (VList (repeat (VInt 0) 95))) 409807047 = true. Proof. vm_compute. reflexivity. Qed.
(* append_byte_sized.cpp *)
Example t034 : check Afnv32 le (ap (TCArr 95 (TEnum I8 false)) (VList (repeat (VInt 0) 95))) 409807047 = true. Proof. vm_compute. reflexivity. Qed.
(* append_character.cpp *)
Example t035 : check Afnv32 le (ap (TCArr 95 c16) (VList (repeat (VInt 0) 95))) 4291711997 = true. Proof. vm_compute. reflexivity. Qed.
(* append_character.cpp *)
Example t036 : check Afnv32 be (ap (TCArr 95 c32) (VList (repeat (VInt 0) 95))) 3226601845 = true. Proof. vm_compute. reflexivity. Qed.
(* append_bool.cpp *)
Example t037 : check Afnv32 le (ap TBool (VInt 0)) 84696351 = true. Proof. vm_compute. reflexivity. Qed.
(* append_bool.cpp *)
Example t038 : check Afnv32 le (ap TBool (VInt 1)) 67918732 = true. Proof. vm_compute. reflexivity. Qed.
(* append_bool.cpp *)
Example t039 : check Afnv32 le ([SCall (KRange IPtr TBool (repeat (VInt 0) 7))]) 1177189415 = true. Proof. vm_compute. reflexivity. Qed.
(* append_bool.cpp (vector<bool>) *)
Example t040 : check Afnv32 le ([SCall (KRange (IIter CRandom) TBool (repeat (VInt 0) 7))]) 1177189415 = true. Proof. vm_compute. reflexivity. Qed.
(* append_array.cpp *)
Example t041 : check Afnv32 le (map (fun z => SAppend u8 (VInt z)) v4) 1463068797 = true. Proof. vm_compute. reflexivity. Qed.
(* append_array.cpp *)
Example t042 : check Afnv32 le (ap (TCArr 4 u8) (ints v4)) 1463068797 = true. Proof. vm_compute. reflexivity. Qed.
(* append_array.cpp *)
Example t043 : check Afnv32 le (ap (TCArr 2 (TCArr 2 u8)) (VList [ints (firstn 2 v4); ints (skipn 2 v4)])) 1463068797 = true. Proof. vm_compute. reflexivity. Qed.
(* append_array.cpp, append_digest.cpp *)
Example t044 : check Afnv32 le (ap (TArr 4 u8) (ints v4)) 1463068797 = true. Proof. vm_compute. reflexivity. Qed.
(* append_array.cpp *)
Example t045 : check Afnv32 be (map (fun z => SAppend u8 (VInt z)) v4) 1463068797 = true. Proof. vm_compute. reflexivity. Qed.
(* append_array.cpp *)
Example t046 : check Afnv32 be (ap (TCArr 4 u8) (ints v4)) 1463068797 = true. Proof. vm_compute. reflexivity. Qed.
(* append_array.cpp *)
Example t047 : check Afnv32 be (ap (TCArr 2 (TCArr 2 u8)) (VList [ints (firstn 2 v4); ints (skipn 2 v4)])) 1463068797 = true. Proof. vm_compute. reflexivity. Qed.
(* append_array.cpp, append_digest.cpp *)
Example t048 : check Afnv32 be (ap (TArr 4 u8) (ints v4)) 1463068797 = true. Proof. vm_compute. reflexivity. Qed.
(* append_array.cpp *)
Example t049 : check Afnv32 le (map (fun z => SAppend int (VInt z)) v4) 1041505217 = true. Proof. vm_compute. reflexivity. Qed.
(* append_array.cpp *)
Example t050 : check Afnv32 le (ap (TCArr 4 int) (ints v4)) 1041505217 = true. Proof. vm_compute. reflexivity. Qed.
(* append_array.cpp *)
Example t051 : check Afnv32 le (ap (TCArr 2 (TCArr 2 int)) (VList [ints (firstn 2 v4); ints (skipn 2 v4)])) 1041505217 = true. Proof. vm_compute. reflexivity. Qed.
(* append_array.cpp, append_digest.cpp *)
Example t052 : check Afnv32 le (ap (TArr 4 int) (ints v4)) 1041505217 = true. Proof. vm_compute. reflexivity. Qed.
(* append_array.cpp *)
Example t053 : check Afnv32 be (map (fun z => SAppend int (VInt z)) v4) 3216558841 = true. Proof. vm_compute. reflexivity. Qed.
(* append_array.cpp *)
Example t054 : check Afnv32 be (ap (TCArr 4 int) (ints v4)) 3216558841 = true. Proof. vm_compute. reflexivity. Qed.
(* append_array.cpp *)
Example t055 : check Afnv32 be (ap (TCArr 2 (TCArr 2 int)) (VList [ints (firstn 2 v4); ints (skipn 2 v4)])) 3216558841 = true. Proof. vm_compute. reflexivity. Qed.
(* append_array.cpp, append_digest.cpp *)
Example t056 : check Afnv32 be (ap (TArr 4 int) (ints v4)) 3216558841 = true. Proof. vm_compute. reflexivity. Qed.
(* append_array.cpp *)
Example t057 : check Afnv32 le (map (fun z => SAppend TFlt64 (VInt z)) d4) 4043691488 = true. Proof. vm_compute. reflexivity. Qed.
(* append_array.cpp *)
Example t058 : check Afnv32 le (ap (TCArr 4 TFlt64) (ints d4)) 4043691488 = true. Proof. vm_compute. reflexivity. Qed.
(* append_array.cpp *)
Example t059 : check Afnv32 le (ap (TCArr 2 (TCArr 2 TFlt64)) (VList [ints (firstn 2 d4); ints (skipn 2 d4)])) 4043691488 = true. Proof. vm_compute. reflexivity. Qed.
(* append_array.cpp, append_digest.cpp *)
Example t060 : check Afnv32 le (ap (TArr 4 TFlt64) (ints d4)) 4043691488 = true. Proof. vm_compute. reflexivity. Qed.
(* append_array.cpp *)
Example t061 : check Afnv32 be (map (fun z => SAppend TFlt64 (VInt z)) d4) 3684964226 = true. Proof. vm_compute. reflexivity. Qed.
(* append_array.cpp *)
Example t062 : check Afnv32 be (ap (TCArr 4 TFlt64) (ints d4)) 3684964226 = true. Proof. vm_compute. reflexivity. Qed.
(* append_array.cpp *)
Example t063 : check Afnv32 be (ap (TCArr 2 (TCArr 2 TFlt64)) (VList [ints (firstn 2 d4); ints (skipn 2 d4)])) 3684964226 = true. Proof. vm_compute. reflexivity. Qed.
(* append_array.cpp, append_digest.cpp *)
Example t064 : check Afnv32 be (ap (TArr 4 TFlt64) (ints d4)) 3684964226 = true. Proof. vm_compute. reflexivity. Qed.
(* append_tuple_like.cpp *)
Example t065 : check Afnv32 le (ap (TTuple [u8; u8]) (ints [1; 2]%Z)) 3983810698 = true. Proof. vm_compute. reflexivity. Qed.
(* append_tuple_like.cpp *)
Example t066 : check Afnv32 le (ap (TArr 2 u8) (ints [1; 2]%Z)) 3983810698 = true. Proof. vm_compute. reflexivity. Qed.
(* append_tuple_like.cpp *)
Example t067 : check Afnv32 be (ap (TTuple [u8; u8]) (ints [1; 2]%Z)) 3983810698 = true. Proof. vm_compute. reflexivity. Qed.
(* append_tuple_like.cpp *)
Example t068 : check Afnv32 be (ap (TArr 2 u8) (ints [1; 2]%Z)) 3983810698 = true. Proof. vm_compute. reflexivity. Qed.
(* append_tuple_like.cpp *)
Example t069 : check Afnv32 le (ap (TTuple [int; int]) (ints [1; 2]%Z)) 3738734694 = true. Proof. vm_compute. reflexivity. Qed.
(* append_tuple_like.cpp *)
Example t070 : check Afnv32 le (ap (TArr 2 int) (ints [1; 2]%Z)) 3738734694 = true. Proof. vm_compute. reflexivity. Qed.
(* append_tuple_like.cpp *)
Example t071 : check Afnv32 be (ap (TTuple [int; int]) (ints [1; 2]%Z)) 1396319868 = true. Proof. vm_compute. reflexivity. Qed.
(* append_tuple_like.cpp *)
Example t072 : check Afnv32 be (ap (TArr 2 int) (ints [1; 2]%Z)) 1396319868 = true. Proof. vm_compute. reflexivity. Qed.
(* append_tuple_like.cpp *)
Example t073 : check Afnv32 le (ap (TTuple [TFlt64; TFlt64]) (ints (firstn 2 d4))) 1170904120 = true. Proof. vm_compute. reflexivity. Qed.
(* append_tuple_like.cpp *)
Example t074 : check Afnv32 le (ap (TArr 2 TFlt64) (ints (firstn 2 d4))) 1170904120 = true. Proof. vm_compute. reflexivity. Qed.
(* append_tuple_like.cpp *)
Example t075 : check Afnv32 be (ap (TTuple [TFlt64; TFlt64]) (ints (firstn 2 d4))) 786481930 = true. Proof. vm_compute. reflexivity. Qed.
(* append_tuple_like.cpp *)
Example t076 : check Afnv32 be (ap (TArr 2 TFlt64) (ints (firstn 2 d4))) 786481930 = true. Proof. vm_compute. reflexivity. Qed.
(* append_described.cpp *)
Example t077 : check Afnv32 le (ap (TDesc [] [int; int]) (VList [VList []; ints [1; 2]%Z])) 3738734694 = true. Proof. vm_compute. reflexivity. Qed.
(* append_described.cpp *)
Example t078 : check Afnv32 be (ap (TDesc [] [int; int]) (VList [VList []; ints [1; 2]%Z])) 1396319868 = true. Proof. vm_compute. reflexivity. Qed.
(* append_described.cpp *)
Example t079 : check Afnv32 be (ap (TDesc [] [int; int]) (VList [VList []; ints [0; 0]%Z])) 2615243109 = true. Proof. vm_compute. reflexivity. Qed.
(* append_described_2.cpp *)
Example t080 : check Afnv32 le (ap (TDesc [TDesc [] [int; int]; TDesc [] [int; int]] [int; int]) (VList [VList [VList [VList []; ints [1; 2]%Z]; VList [VList []; ints [3; 4]%Z]]; ints [5; 6]%Z])) 2412827170 = true. Proof. vm_compute. reflexivity. Qed.
(* append_described_2.cpp *)
Example t081 : check Afnv32 be (ap (TDesc [TDesc [] [int; int]; TDesc [] [int; int]] [int; int]) (VList [VList [VList [VList []; ints [1; 2]%Z]; VList [VList []; ints [3; 4]%Z]]; ints [5; 6]%Z])) 1970495216 = true. Proof. vm_compute. reflexivity. Qed.
(* append_described_4.cpp *)
Example t082 : check Afnv32 le (ap (TDesc [] [TVec c8; TVec c8]) (VList [VList []; VList [ints [115; 49]%Z; ints [115; 50]%Z]])) 2447527756 = true. Proof. vm_compute. reflexivity. Qed.
(* append_tag_invoke_2.cpp *)
Example t083 : check Afnv32 le (ap (TTag [TVec c8; TVec c8]) (VList [ints [115; 49]%Z; ints [115; 50]%Z])) 2447527756 = true. Proof. vm_compute. reflexivity. Qed.
(* append_described_4.cpp *)
Example t084 : check Afnv32 be (ap (TDesc [] [TVec c8; TVec c8]) (VList [VList []; VList [ints [115; 49]%Z; ints [115; 50]%Z]])) 2986383648 = true. Proof. vm_compute. reflexivity. Qed.
(* append_tag_invoke_2.cpp *)
Example t085 : check Afnv32 be (ap (TTag [TVec c8; TVec c8]) (VList [ints [115; 49]%Z; ints [115; 50]%Z])) 2986383648 = true. Proof. vm_compute. reflexivity. Qed.
(* append_described_5.cpp *)
Example t086 : check Afnv32 le (ap (TTuple [c8; TFlt64]) (VList [VInt 65; VInt 0x40091EB851EB851F])) 2789734447 = true. Proof. vm_compute. reflexivity. Qed.
(* append_described_5.cpp *)
Example t087 : check Afnv32 le (ap (TDesc [] [c8; TFlt64]) (VList [VList []; VList [VInt 65; VInt 0x40091EB851EB851F]])) 2789734447 = true. Proof. vm_compute. reflexivity. Qed.
(* append_described_5.cpp *)
Example t088 : check Afnv32 be (ap (TTuple [c8; TFlt64]) (VList [VInt 65; VInt 0x40091EB851EB851F])) 1423350833 = true. Proof. vm_compute. reflexivity. Qed.
(* append_described_5.cpp *)
Example t089 : check Afnv32 be (ap (TDesc [] [c8; TFlt64]) (VList [VList []; VList [VInt 65; VInt 0x40091EB851EB851F]])) 1423350833 = true. Proof. vm_compute. reflexivity. Qed.
(* append_described_5.cpp *)
Example t090 : check Afnv32 le (ap (TTuple [int; TFlt32]) (ints [0; 0]%Z)) 2615243109 = true. Proof. vm_compute. reflexivity. Qed.
(* append_zero_sized.cpp *)
Example t091 : check Afnv32 le ([SCall (KRange IPtr (TArr 0 int) (repeat (VList []) 1))]) 84696351 = true. Proof. vm_compute. reflexivity. Qed.
(* append_zero_sized.cpp *)
Example t092 : check Afnv32 be ([SCall (KRange IPtr (TDesc [] []) (repeat (VList [VList []; VList []]) 1))]) 84696351 = true. Proof. vm_compute. reflexivity. Qed.
(* append_zero_sized.cpp *)
Example t093 : check Afnv32 le ([SCall (KRange IPtr (TArr 0 int) (repeat (VList []) 2))]) 292984781 = true. Proof. vm_compute. reflexivity. Qed.
(* append_zero_sized.cpp *)
Example t094 : check Afnv32 be ([SCall (KRange IPtr (TDesc [] []) (repeat (VList [VList []; VList []]) 2))]) 292984781 = true. Proof. vm_compute. reflexivity. Qed.
(* append_zero_sized.cpp *)
Example t095 : check Afnv32 le ([SCall (KRange IPtr (TArr 0 int) (repeat (VList []) 3))]) 1253111735 = true. Proof. vm_compute. reflexivity. Qed.
(* append_zero_sized.cpp *)
Example t096 : check Afnv32 be ([SCall (KRange IPtr (TDesc [] []) (repeat (VList [VList []; VList []]) 3))]) 1253111735 = true. Proof. vm_compute. reflexivity. Qed.
Definition set64 : list val := map (fun i => VInt (Z.of_nat i)) (seq 0 64).
Definition map64 : list val := map (fun i => ints [Z.of_nat i; 3 * Z.of_nat i + 1]%Z) (seq 0 64).
Definition perm64 {X} (d : X) (l : list X) : list X := map (fun i => nth ((i * 17) mod 64) l d) (seq 0 64).
(* append_set.cpp *)
Example t097 : check1 Afnv32 le (ap (TList CInput int) (VList set64)) 3576652581 = true. Proof. vm_compute. reflexivity. Qed.
(* append_set.cpp *)
Example t098 : check1 Afnv64 le (ap (TList CInput int) (VList set64)) 17046016161958689285 = true. Proof. vm_compute. reflexivity. Qed.
(* append_set.cpp *)
Example t099 : check1 Afnv32 le (ap (TUnord int) (VList set64)) 776982489 = true. Proof. vm_compute. reflexivity. Qed.
(* append_set.cpp *)
Example t100 : check1 Afnv64 le (ap (TUnord int) (VList set64)) 3232503781718511241 = true. Proof. vm_compute. reflexivity. Qed.
(* append_set.cpp *)
Example t101 : check1 Afnv32 le (ap (TUnord int) (VList (rev set64))) 776982489 = true. Proof. vm_compute. reflexivity. Qed.
(* append_set.cpp *)
Example t102 : check1 Afnv64 le (ap (TUnord int) (VList (rev set64))) 3232503781718511241 = true. Proof. vm_compute. reflexivity. Qed.
(* append_set.cpp *)
Example t103 : check1 Afnv32 le (ap (TUnord int) (VList (perm64 (VInt 0) set64))) 776982489 = true. Proof. vm_compute. reflexivity. Qed.
(* append_set.cpp *)
Example t104 : check1 Afnv64 le (ap (TUnord int) (VList (perm64 (VInt 0) set64))) 3232503781718511241 = true. Proof. vm_compute. reflexivity. Qed.
(* append_map.cpp *)
Example t105 : check1 Afnv32 le (ap (TList CInput (TTuple [int; int])) (VList map64)) 1082144933 = true. Proof. vm_compute. reflexivity. Qed.
(* append_map.cpp *)
Example t106 : check1 Afnv64 le (ap (TList CInput (TTuple [int; int])) (VList map64)) 12051529320333828229 = true. Proof. vm_compute. reflexivity. Qed.
(* append_map.cpp *)
Example t107 : check1 Afnv32 le (ap (TUnord (TTuple [int; int])) (VList map64)) 2445282413 = true. Proof. vm_compute. reflexivity. Qed.
(* append_map.cpp *)
Example t108 : check1 Afnv64 le (ap (TUnord (TTuple [int; int])) (VList map64)) 2617313294186790738 = true. Proof. vm_compute. reflexivity. Qed.
(* append_map.cpp *)
Example t109 : check1 Afnv32 le (ap (TUnord (TTuple [int; int])) (VList (rev map64))) 2445282413 = true. Proof. vm_compute. reflexivity. Qed.
(* append_map.cpp *)
Example t110 : check1 Afnv64 le (ap (TUnord (TTuple [int; int])) (VList (rev map64))) 2617313294186790738 = true. Proof. vm_compute. reflexivity. Qed.
(* append_map.cpp *)
Example t111 : check1 Afnv32 le (ap (TUnord (TTuple [int; int])) (VList (perm64 (VInt 0) map64))) 2445282413 = true. Proof. vm_compute. reflexivity. Qed.
(* append_map.cpp *)
Example t112 : check1 Afnv64 le (ap (TUnord (TTuple [int; int])) (VList (perm64 (VInt 0) map64))) 2617313294186790738 = true. Proof. vm_compute. reflexivity. Qed.
(* hash_append_range.cpp *)
Example t113 : check Afnv32 le ([SCall (KRange IPtr u8 (map VInt v4))]) 1463068797 = true. Proof. vm_compute. reflexivity. Qed.
(* hash_append_range.cpp *)
Example t114 : check Afnv64 le ([SCall (KRange IPtr u8 (map VInt v4))]) 13725386680924731485 = true. Proof. vm_compute. reflexivity. Qed.
(* hash_append_range_2.cpp *)
Example t115 : check Afnv32 le ([SCall (KRange IPtr int (map VInt v4))]) 1041505217 = true. Proof. vm_compute. reflexivity. Qed.
(* hash_append_range_2.cpp *)
Example t116 : check Afnv64 le ([SCall (KRange IPtr int (map VInt v4))]) 9566659391000707361 = true. Proof. vm_compute. reflexivity. Qed.
(* hash_append_range.cpp *)
Example t117 : check Afnv32 le ([SCall (KRange (IIter CInput) u8 (map VInt v4))]) 1463068797 = true. Proof. vm_compute. reflexivity. Qed.
(* hash_append_range.cpp *)
Example t118 : check Afnv64 le ([SCall (KRange (IIter CInput) u8 (map VInt v4))]) 13725386680924731485 = true. Proof. vm_compute. reflexivity. Qed.
(* hash_append_range_2.cpp *)
Example t119 : check Afnv32 le ([SCall (KRange (IIter CInput) int (map VInt v4))]) 1041505217 = true. Proof. vm_compute. reflexivity. Qed.
(* hash_append_range_2.cpp *)
Example t120 : check Afnv64 le ([SCall (KRange (IIter CInput) int (map VInt v4))]) 9566659391000707361 = true. Proof. vm_compute. reflexivity. Qed.
(* hash_append_range.cpp *)
Example t121 : check Afnv32 le ([SCall (KRange (IIter CRandom) u8 (map VInt v4))]) 1463068797 = true. Proof. vm_compute. reflexivity. Qed.
(* hash_append_range.cpp *)
Example t122 : check Afnv64 le ([SCall (KRange (IIter CRandom) u8 (map VInt v4))]) 13725386680924731485 = true. Proof. vm_compute. reflexivity. Qed.
(* hash_append_range_2.cpp *)
Example t123 : check Afnv32 le ([SCall (KRange (IIter CRandom) int (map VInt v4))]) 1041505217 = true. Proof. vm_compute. reflexivity. Qed.
(* hash_append_range_2.cpp *)
Example t124 : check Afnv64 le ([SCall (KRange (IIter CRandom) int (map VInt v4))]) 9566659391000707361 = true. Proof. vm_compute. reflexivity. Qed.
(* hash_append_range.cpp *)
Example t125 : check Afnv32 le ([SCall (KRange IPtr (TCArr 2 u8) [ints [1; 2]%Z; ints [3; 4]%Z])]) 1463068797 = true. Proof. vm_compute. reflexivity. Qed.
(* hash_append_5.cpp *)
Example t126 : check Afnv32 le (ap (TVec (TTag [TVec c8; TVec c8])) (VList (repeat (VList [ints [115; 49]%Z; ints [115; 50]%Z]) 3))) 4058687743 = true. Proof. vm_compute. reflexivity. Qed.
(* hash_append_5.cpp *)
Example t127 : check Afnv32 le (ap (TList CInput (TTag [TVec c8; TVec c8])) (VList (repeat (VList [ints [115; 49]%Z; ints [115; 50]%Z]) 3))) 4058687743 = true. Proof. vm_compute. reflexivity. Qed.

(* the hash algorithms on a seed and a message *)
Definition hash1 (e : env) (a : alg) (s : N) (m : list N) := runs e a le (CSeed s) [SUpdate (Ptr m) (length m); SResult].
Definition check_hash (a : alg) (s : N) (m : list N) (r : N) : bool := forallb (fun e => res_eqb (hash1 e a s m) r) machines.
Definition digest_eqb (x : res (list result)) (r : N) : bool :=
  match x with Ok [RDigest d] => N.eqb (fold_left (fun a b => a * 256 + b) d 0) r | _ => false end.
Definition check_digest (a : alg) (s : N) (m : list N) (r : N) : bool := forallb (fun e => digest_eqb (hash1 e a s m) r) machines.
(* xxhash.cpp *)
Example t128 : check_hash Axx32 0 [] 46947589 = true. Proof. vm_compute. reflexivity. Qed.
(* xxhash.cpp *)
Example t129 : check_hash Axx32 43 [84; 104; 101; 32; 113; 117; 105; 99; 107; 32; 98; 114; 111; 119; 110; 32; 102; 111; 120; 32; 106; 117; 109; 112; 115; 32; 111; 118; 101; 114; 32; 116; 104; 101; 32; 108; 97; 122; 121; 32; 100; 111; 103] 1965871544 = true. Proof. vm_compute. reflexivity. Qed.
(* xxhash.cpp *)
Example t130 : check_hash Axx64 0 [] 17241709254077376921 = true. Proof. vm_compute. reflexivity. Qed.
(* xxhash.cpp *)
Example t131 : check_hash Axx64 43 [84; 104; 101; 32; 113; 117; 105; 99; 107; 32; 98; 114; 111; 119; 110; 32; 102; 111; 120; 32; 106; 117; 109; 112; 115; 32; 111; 118; 101; 114; 32; 116; 104; 101; 32; 108; 97; 122; 121; 32; 100; 111; 103] 11101924938704843813 = true. Proof. vm_compute. reflexivity. Qed.
(* xxhash.cpp *)
Example t132 : check_hash Axx32 0 [116; 101; 115; 116] 1042293711 = true. Proof. vm_compute. reflexivity. Qed.
(* xxhash.cpp *)
Example t133 : check_hash Axx32 123 [116; 101; 115; 116] 2758658570 = true. Proof. vm_compute. reflexivity. Qed.
(* xxhash.cpp *)
Example t134 : check_hash Axx64 0 [116; 101; 115; 116] 5754696928334414137 = true. Proof. vm_compute. reflexivity. Qed.
(* xxhash.cpp *)
Example t135 : check_hash Axx64 123 [116; 101; 115; 116] 3134990500624303823 = true. Proof. vm_compute. reflexivity. Qed.
(* legacy/murmur3_32.cpp *)
Example t136 : check_hash Amur32 0 [] 0 = true. Proof. vm_compute. reflexivity. Qed.
(* legacy/murmur3_32.cpp *)
Example t137 : check_hash Amur32 1 [] 1364076727 = true. Proof. vm_compute. reflexivity. Qed.
(* legacy/murmur3_32.cpp *)
Example t138 : check_hash Amur32 4294967295 [] 2180083513 = true. Proof. vm_compute. reflexivity. Qed.
(* legacy/murmur3_32.cpp *)
Example t139 : check_hash Amur32 0 [255; 255; 255; 255] 1982413648 = true. Proof. vm_compute. reflexivity. Qed.
(* legacy/murmur3_32.cpp *)
Example t140 : check_hash Amur32 0 [33; 67; 101; 135] 4116402539 = true. Proof. vm_compute. reflexivity. Qed.
(* legacy/murmur3_32.cpp *)
Example t141 : check_hash Amur32 1350757870 [33; 67; 101; 135] 593689054 = true. Proof. vm_compute. reflexivity. Qed.
(* legacy/murmur3_32.cpp *)
Example t142 : check_hash Amur32 0 [33; 67; 101] 2118813236 = true. Proof. vm_compute. reflexivity. Qed.
(* legacy/murmur3_32.cpp *)
Example t143 : check_hash Amur32 0 [33; 67] 2700587130 = true. Proof. vm_compute. reflexivity. Qed.
(* legacy/murmur3_32.cpp *)
Example t144 : check_hash Amur32 0 [33] 1919294708 = true. Proof. vm_compute. reflexivity. Qed.
(* legacy/murmur3_32.cpp *)
Example t145 : check_hash Amur32 0 [0; 0; 0; 0] 593689054 = true. Proof. vm_compute. reflexivity. Qed.
(* legacy/murmur3_32.cpp *)
Example t146 : check_hash Amur32 0 [0; 0; 0] 2247144487 = true. Proof. vm_compute. reflexivity. Qed.
(* legacy/murmur3_32.cpp *)
Example t147 : check_hash Amur32 0 [0; 0] 821347078 = true. Proof. vm_compute. reflexivity. Qed.
(* legacy/murmur3_32.cpp *)
Example t148 : check_hash Amur32 0 [0] 1364076727 = true. Proof. vm_compute. reflexivity. Qed.
(* legacy/murmur3_32.cpp *)
Example t149 : check_hash Amur32 0 [97; 98; 99] 3017643002 = true. Proof. vm_compute. reflexivity. Qed.
(* legacy/murmur3_32.cpp *)
Example t150 : check_hash Amur32 0 [97; 98; 99; 100; 98; 99; 100; 101; 99; 100; 101; 102; 100; 101; 102; 103; 101; 102; 103; 104; 102; 103; 104; 105; 103; 104; 105; 106; 104; 105; 106; 107; 105; 106; 107; 108; 106; 107; 108; 109; 107; 108; 109; 110; 108; 109; 110; 111; 109; 110; 111; 112; 110; 111; 112; 113] 4002569104 = true. Proof. vm_compute. reflexivity. Qed.
(* legacy/murmur3_32.cpp *)
Example t151 : check_hash Amur32 2538058380 [84; 104; 101; 32; 113; 117; 105; 99; 107; 32; 98; 114; 111; 119; 110; 32; 102; 111; 120; 32; 106; 117; 109; 112; 115; 32; 111; 118; 101; 114; 32; 116; 104; 101; 32; 108; 97; 122; 121; 32; 100; 111; 103] 799549133 = true. Proof. vm_compute. reflexivity. Qed.
(* legacy/murmur3_128.cpp *)
Example t152 : check_digest Amur128 0 [84; 104; 101; 32; 113; 117; 105; 99; 107; 32; 98; 114; 111; 119; 110; 32; 102; 111; 120; 32; 106; 117; 109; 112; 115; 32; 111; 118; 101; 114; 32; 116; 104; 101; 32; 108; 97; 122; 121; 32; 100; 111; 103] 143696972470007425495137670989352813434 = true. Proof. vm_compute. reflexivity. Qed.
(* legacy/murmur3_128.cpp *)
Example t153 : check_digest Amur128 0 [84; 104; 101; 32; 113; 117; 105; 99; 107; 32; 98; 114; 111; 119; 110; 32; 102; 111; 120; 32; 106; 117; 109; 112; 115; 32; 111; 118; 101; 114; 32; 116; 104; 101; 32; 108; 97; 122; 121; 32; 99; 111; 103] 204901136430027387249070814080272694851 = true. Proof. vm_compute. reflexivity. Qed.
(* legacy/murmur3_128.cpp *)
Example t154 : check_digest Amur128 2538058380 [84; 104; 101; 32; 113; 117; 105; 99; 107; 32; 98; 114; 111; 119; 110; 32; 102; 111; 120; 32; 106; 117; 109; 112; 115; 32; 111; 118; 101; 114; 32; 116; 104; 101; 32; 108; 97; 122; 121; 32; 100; 111; 103] 44120971021849122853514707312569435641 = true. Proof. vm_compute. reflexivity. Qed.
(* legacy/murmur3_128.cpp *)
Example t155 : check_digest Amur128 2538058380 [84; 104; 101; 32; 113; 117; 105; 99; 107; 32; 98; 114; 111; 119; 110; 32; 102; 111; 120; 32; 106; 117; 109; 112; 115; 32; 111; 118; 101; 114; 32; 116; 104; 101; 32; 108; 97; 122; 121; 32; 99; 111; 103] 197232041812823613543078317618427686741 = true. Proof. vm_compute. reflexivity. Qed.
(* legacy/murmur3_128.cpp *)
Example t156 : check_digest Amur128 3314489979 [84; 104; 101; 32; 113; 117; 105; 99; 107; 32; 98; 114; 111; 119; 110; 32; 102; 111; 120; 32; 106; 117; 109; 112; 115; 32; 111; 118; 101; 114; 32; 116; 104; 101; 32; 108; 97; 122; 121; 32; 100; 111; 103] 339768589632507840502649896248022963000 = true. Proof. vm_compute. reflexivity. Qed.
(* legacy/murmur3_128.cpp *)
Example t157 : check_digest Amur128 3314489979 [84; 104; 101; 32; 113; 117; 105; 99; 107; 32; 98; 114; 111; 119; 110; 32; 102; 111; 120; 32; 106; 117; 109; 112; 115; 32; 111; 118; 101; 114; 32; 116; 104; 101; 32; 108; 97; 122; 121; 32; 99; 111; 103] 186857060280459161537361411126806166733 = true. Proof. vm_compute. reflexivity. Qed.

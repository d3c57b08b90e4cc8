(** * Properties: data of any shape, C79 *)
From Coq Require Import Arith ZArith.
From Verif Require Import Base Repr Syntax Spec Derive EnumSet Macros Fmt Serde ApiSpec Examples Shape ShapeSpec.
From Verif Require ShapeClaims.

(** C79: exactly the data that is read as a set *)
Theorem C79_shape_accepted pw inp T name v s : Supported pw inp T -> serde_compiles T = true -> visit_ok inp v ->
  (es_visit T name v = Ret (Ok s) <->
   Reachable pw inp T s /\ exists A, shape_stands pw inp (et_serde T) (et_deny_unknown T) v A /\ Denotes inp T s A).
Proof. exact (ShapeClaims.shape_accepted pw inp T name v s). Qed.
Print Assumptions C79_shape_accepted.
Example C79_shape_accepted_example :
  Supported 64 listed ListedT /\
  serde_compiles ListedT = true /\
  et_serde ListedT = SList /\
  visit_ok listed (VSeq (map Ok [2; 0; 2]%nat) []) /\
  Reachable 64 listed ListedT listed_ac /\
  Denotes listed ListedT listed_ac (among [0; 2]%nat) /\
  es_visit ListedT "Enum1" (VSeq (map Ok [2; 0; 2]%nat) []) = Ret (Ok listed_ac) /\
  map (es_visit SmallT "Enum1") [VUnsigned 0x41; VSigned 0x41%Z; VUnsigned 0x43] = [Ret (Ok small_ac); Ret (Ok small_ac); Ret (Ok small_ac)].
Proof. example. cbn. intuition (try discriminate); match goal with H : _ = _ |- _ => injection H as <-; vm_compute; lia end. Qed.

(** C79: exactly the data that is refused, and the texts of the errors *)
Theorem C79_shape_refusals pw inp T name v e : Supported pw inp T -> serde_compiles T = true -> visit_ok inp v ->
  (es_visit T name v = Ret (Err e) <-> refusal pw inp (et_serde T) (et_deny_unknown T) name v e).
Proof. exact (ShapeClaims.shape_refusals pw inp T name v e). Qed.
Print Assumptions C79_shape_refusals.
Example C79_shape_refusals_example :
  Supported 64 listed ListedT /\
  serde_compiles ListedT = true /\
  map (es_visit ListedT "Enum1") [VMap []; VUnsigned 7; VSigned (-7)%Z; VBool true; VStr """A"""; VUnit; VSeq [Ok 2%nat; Err (DeInput 7); Err (DeInput 8)] []] = map (fun e => Ret (Err e)) [DeCustom "invalid type: map, expected a list of Enum1"; DeCustom "invalid type: integer `7`, expected a list of Enum1"; DeCustom "invalid type: integer `-7`, expected a list of Enum1"; DeCustom "invalid type: boolean `true`, expected a list of Enum1"; DeCustom "invalid type: string ""A"", expected a list of Enum1"; DeCustom "invalid type: unit value, expected a list of Enum1"; DeInput 7] /\
  es_visit MappedT "Enum1" (VSeq [] []) = Ret (Err (DeCustom "invalid type: sequence, expected a map from Enum1 to bool")) /\
  es_visit WideT "Enum1" (VFloat "1.5") = Ret (Err (DeCustom "invalid type: floating point `1.5`, expected a list of u64")) /\
  map (es_visit DenyingT "Enum1") [VUnsigned 300; VSigned (-1)%Z; VUnsigned 0x43; VU128 1] = map (fun e => Ret (Err (DeCustom e))) ["invalid value: integer `300`, expected u8"; "invalid value: integer `-1`, expected u8"; "enumset contains unknown bits"; "invalid type: integer `1` as u128, expected u8"]%string.
Proof. example. Qed.

(** C79: what else may happen: a panic in the array format only *)
Theorem C79_shape_any pw inp T name v : Supported pw inp T -> serde_compiles T = true -> visit_ok inp v ->
  (exists s, es_visit T name v = Ret (Ok s) /\ Reachable pw inp T s) \/
  (exists e, es_visit T name v = Ret (Err e)) \/
  (exists vs ws, v = VSeq vs (map Ok ws) /\ et_serde T = SArray /\
     ~ only_variant_words inp (firstn (N.to_nat (storage_words (storage_of inp))) ws) /\
     es_visit T name v = Panic (PExpect "Bitset contains invalid variants.")).
Proof. exact (ShapeClaims.shape_any pw inp T name v). Qed.
Print Assumptions C79_shape_any.
Example C79_shape_any_example :
  Supported 64 wide WideT /\
  serde_compiles WideT = true /\
  et_serde WideT = SArray /\
  visit_ok wide (VSeq [] (map Ok [9])) /\
  es_visit WideT "Enum1" (VSeq [] (map Ok [9])) = Panic (PExpect "Bitset contains invalid variants.") /\
  es_visit WideT "Enum1" (VSeq [] (map Ok [8; 0x40; 0; 0; 77])) = Ret (Ok wide_bc).
Proof. example. cbn. intuition (try discriminate); match goal with H : _ = _ |- _ => injection H as <-; vm_compute; reflexivity end. Qed.


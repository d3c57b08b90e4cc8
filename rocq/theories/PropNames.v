(** * Properties: the names of the generated code, C75 *)
From Coq Require Import Arith.
From Verif Require Import Base Repr Syntax Spec Derive EnumSet Macros Fmt Serde ApiSpec Examples Impls Names NamesSpec NamesExamples.
From Verif Require NamesClaims.

(** C75: the names of an enum that the generated code captures, or that hide what it uses *)
Theorem C75_captured_names md serde o inp i name : derive_info md inp = Ret (Ok i) ->
  (Forall (right name) (generated_uses serde o i) <-> ~ Captured serde o inp name).
Proof. exact (NamesClaims.captured_names md serde o inp i name). Qed.
Print Assumptions C75_captured_names.
Example C75_captured_names_example :
  (exists i, derive_info Debug listed = Ret (Ok i)) /\
  serialize_name listed = "list"%string /\
  map (spoilt_with true (MkSwitches false false) listed) ["S"; "Visitor"; "O"; "u128"; "usize"; "bool"; "E"]%string = [true; true; true; true; true; true; false] /\
  map (spoilt_with false (MkSwitches true true) small) ["S"; "Visitor"; "O"; "u128"; "usize"; "bool"; "u32"]%string = [false; false; false; true; false; true; true] /\
  Captured true (MkSwitches false false) listed "Visitor" /\
  ~ Captured false (MkSwitches true false) small "S".
Proof. example. Qed.

(** C75: the same for names that begin with a capital letter *)
Theorem C75_type_names md serde o inp i name : derive_info md inp = Ret (Ok i) -> capitalised name ->
  (Forall (right name) (generated_uses serde o i) <->
   ~ (sw_no_ops o = false /\ In name ["O"; "Into"]%string \/
      serde = true /\ In name ["S"; "D"]%string \/
      serde = true /\ by_items inp /\ In name ["A"; "Visitor"]%string)).
Proof. exact (NamesClaims.type_names md serde o inp i name). Qed.
Print Assumptions C75_type_names.
Example C75_type_names_example :
  capitalised "Into" /\
  serialize_name small = "u8"%string /\
  map (spoilt_with true (MkSwitches false false) small) ["S"; "D"; "A"; "Visitor"; "O"; "Into"]%string = [true; true; false; false; true; true] /\
  map (spoilt_with true (MkSwitches true false) mapped) ["S"; "D"; "A"; "Visitor"; "O"; "Into"]%string = [true; true; true; true; false; false].
Proof. example. Qed.

(** C75: the variants that make [Self::Repr] and [Self::Output] ambiguous *)
Theorem C75_variant_names o i variants :
  Forall (clear variants) (impl_blocks o i) <->
  ~ In "Repr"%string variants /\ (sw_no_ops o = false -> ~ In "Output"%string variants).
Proof. exact (NamesClaims.variant_names o i variants). Qed.
Print Assumptions C75_variant_names.
Example C75_variant_names_example :
  clearb ["Repr"; "A"]%string (MkSwitches true false) = false /\
  clearb ["A"; "Output"]%string (MkSwitches true false) = true /\
  clearb ["A"; "Output"]%string (MkSwitches false false) = false /\
  clearb ["ConstHelper"; "Value"]%string (MkSwitches false false) = true.
Proof. example. Qed.

(** C75: names that are right under all circumstances *)
Theorem C75_ordinary_names md serde o inp i name : derive_info md inp = Ret (Ok i) -> capitalised name ->
  ~ In name ["A"; "D"; "Into"; "O"; "S"; "Visitor"]%string -> Forall (right name) (generated_uses serde o i).
Proof. exact (NamesClaims.ordinary_names md serde o inp i name). Qed.
Print Assumptions C75_ordinary_names.
Example C75_ordinary_names_example :
  capitalised "Enum1" /\
  ~ In "Enum1"%string ["A"; "D"; "Into"; "O"; "S"; "Visitor"]%string /\
  spoilt_with true (MkSwitches false false) wide "Enum1" = false.
Proof. example. Qed.


(** * Names an enum cannot have *)
From Verif Require Import Base Syntax Spec Impls Names.

(** What a name means inside code that binds the names [scope], next to an enum
    called [name]. *)
Inductive entity : Type := Generated (s : string) | TheEnum | Outside (s : string).
Inductive means (name : string) (scope : list string) : string -> entity -> Prop :=
| means_bound s : In s scope -> means name scope s (Generated s)
| means_enum : ~ In name scope -> means name scope name TheEnum
| means_outside s : ~ In s scope -> s <> name -> means name scope s (Outside s).
(** What is written means what the macro wants it to mean. *)
Definition right (name : string) (p : place) : Prop :=
  match pl_use p with
  | UEnum => means name (pl_scope p) name TheEnum
  | UOutside s => means name (pl_scope p) s (Outside s)
  | UOwn s => means name (pl_scope p) s (Generated s)
  end.

(** [Self::x] in an impl block for an enum with the given variants *)
Definition clear (variants : list string) (b : impl_block) : Prop :=
  forall x, In x (ib_self b) -> In x (ib_types b) /\ ~ In x variants.

Section Captured.
Context (serde : bool) (o : switches) (inp : derive_input).
(** The format of serialization is not an integer. *)
Definition by_items : Prop := In (serialize_name inp) ["list"; "map"; "array"]%string.
Inductive Captured : string -> Prop :=
| cap_helper : Captured "__EnumSetConstHelper"
(* the type parameters and the visitor of the generated code, and the bound of the operators *)
| cap_operand : sw_no_ops o = false -> Captured "O"
| cap_into : sw_no_ops o = false -> Captured "Into"
| cap_serializer : serde = true -> Captured "S"
| cap_deserializer : serde = true -> Captured "D"
| cap_access : serde = true -> by_items -> Captured "A"
| cap_visitor : serde = true -> by_items -> Captured "Visitor"
(* primitive types *)
| cap_u32 : Captured "u32"
| cap_storage s b : storage_of inp = SInt b -> name_bits s = Some b -> Captured s
| cap_int s b : (2 <= length (in_variants inp))%nat -> name_bits s = Some b -> Captured s
| cap_serialized s b : serde = true -> serialize_name inp = s -> name_bits s = Some b -> Captured s
| cap_words : serde = true -> serialize_name inp = "array"%string -> Captured "u64"
| cap_usize n : storage_of inp = SWords n -> Captured "usize"
| cap_bool : (2 <= length (in_variants inp))%nat \/ sw_no_ops o = false \/ sw_no_super_impls o = false \/
    (serde = true /\ serialize_name inp = "map"%string) -> Captured "bool".
End Captured.
(** A name as types have them by convention *)
Definition capitalised (s : string) : Prop :=
  exists c r, s = String c r /\ exists i, String.get i "ABCDEFGHIJKLMNOPQRSTUVWXYZ" = Some c.

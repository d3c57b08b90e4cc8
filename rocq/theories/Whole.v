(** * Whole declarations: when the compiler accepts an enum with its derived sets

    [#[derive(EnumSetType)]] on an enum together with what the user writes beside
    it: the macro, the checks rustc makes of the declaration and of the generated
    code that depend on the declaration, and the serde code if the feature is on. *)
From Verif Require Import Base Syntax ExtraSpec Derive Impls CrateName Attrs Names NamesSpec Serde.

Record user_enum : Type := MkEnum {
  ue_item : source_item;
  ue_name : string;
  ue_impls : list trait;     (* the traits of Impls.v that the user implements for it *)
  ue_ser : bool;             (* does it implement [Serialize], *)
  ue_de : bool               (* [Deserialize]? *)
}.

(** lib.rs:972-982 and the code it generates, 320-970; [serde] is the cargo
    feature, which generates 429-644. Checks of rustc that do not depend on the
    declaration are not modelled: that all other generated code has the right
    types is read off the templates. *)
Definition compiles_to (is_ident : string -> bool) (md : build) (pw : N) (lookup : bool) (found : found_crate)
           (std serde : bool) (u : user_enum) (g : generated) : Prop :=
  derive_item is_ident md pw lookup found std (ue_item u) = Ret (Ok g) /\
  impls_accepted (g_impls g ++ ue_impls u) /\
  (serde = true -> serde_accepted (ue_ser u) (ue_de u) (g_type g) = true) /\
  exists o i, decode_attributes (it_attributes (ue_item u)) = Ok o /\
    derive_info md (input_of (ue_item u) o) = Ret (Ok i) /\
    rustc_accepts pw (input_of (ue_item u) o) /\
    Forall (right (ue_name u)) (generated_uses serde (op_switches o) i) /\
    Forall (clear (map vd_name (it_variants (ue_item u)))) (impl_blocks (op_switches o) i).

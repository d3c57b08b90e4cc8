(** * The texts of the compile errors and warnings

    Model of the messages in /repo/enumset_derive/src/lib.rs. *)
From Verif Require Import Base Syntax Derive Impls.
Open Scope string_scope.

Definition or_empty (o : option string) : string := match o with Some s => s | None => "" end.
Definition error_text (inp : derive_input) (e : derive_error) : string :=
  match e with
  | EGeneric => "`#[derive(EnumSetType)]` cannot be used on enums with type parameters."   (* 991 *)
  | ENotEnum => "`#[derive(EnumSetType)]` may only be used on enums"                       (* 1059 *)
  | EReprParse => ""                                          (* 1000: a text of syn, not modelled *)
  | ERustRepr x => "`#[repr(" ++ x ++ ")]` cannot be used on enumset variants."            (* 1007 *)
  | EInvalidRepr =>                                                                        (* 197 *)
      "`" ++ or_empty (at_repr (in_attrs inp)) ++ "` is not a valid internal enumset representation."
  | EInvalidSerdeRepr =>                                                                   (* 183 *)
      "`" ++ or_empty (at_serialize_repr (in_attrs inp)) ++ "` is not a valid serialized representation."
  | EDupName => "Duplicated variant name."                                                 (* 205 *)
  | EFields => "`#[derive(EnumSetType)]` can only be used on fieldless enums."             (* 243 *)
  | EDiscrU32 => "Enum discriminants must fit into `u32`."                                 (* 212 *)
  | EDiscrNeg => "Enum discriminants must not be negative."                                (* 215 *)
  | EDiscrLit => "Enum discriminants must be literal expressions."                         (* 217 *)
  | EDiscrMax => "Maximum discriminant allowed is `0xFFFFFFBF`."                           (* 224 *)
  | EDupDiscr => "Duplicated enum discriminant."                                           (* 227 *)
  | EReprSmall => "`repr` is too small to contain the largest discriminant."               (* 288 *)
  | ESerdeSmall => "`serialize_repr` is too small to contain the largest discriminant."    (* 297 *)
  end.
Definition warning_text (w : warning) : string :=
  match w with
  | WAsMap =>                                                                              (* 1028-1029 *)
      "#[enumset(serialize_as_map)] is deprecated. Use `#[enumset(serialize_repr = ""map"")]` instead."
  | WAsList =>                                                                             (* 1037-1038 *)
      "#[enumset(serialize_as_list)] is deprecated. Use `#[enumset(serialize_repr = ""list"")]` instead."
  | WStd =>                                                                                (* 1045-1046 *)
      "feature = ""std"" is depercated. If you rename `enumset`, use feature = ""proc-macro-crate"" instead. If you don't, remove the feature."
  end.

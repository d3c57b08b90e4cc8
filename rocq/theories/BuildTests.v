(** * The crate's tests of compile errors, run on the model

    The cases of /repo/enumset_test_trybuild/tests with the messages and positions
    recorded in the [.stderr] files there. Tests of the model, like Tests.v. *)
From Verif Require Import Base Syntax Derive Impls Messages EnumSet Examples.
From Verif Require CrateName Attrs.
Open Scope string_scope.

Definition outcome (inp : derive_input) : option (string * span) :=
  match derive Debug 64 inp, derive Release 64 inp with
  | Ret (Err (e, sp)), Ret (Err (e', sp')) =>
      if String.eqb (error_text inp e) (error_text inp e') then Some (error_text inp e, sp) else None
  | _, _ => None
  end.
Definition accepted (inp : derive_input) : bool :=
  match derive Debug 64 inp, derive Release 64 inp with Ret (Ok _), Ret (Ok _) => true | _, _ => false end.
Definition with_discr (a : attrs) (d : discr_expr) : derive_input :=
  MkInput false true [] a [MkVariant "Variant" true (Some d)].
Definition repr_attr (s : string) : attrs := MkAttrs (Some s) None false false false.
Definition ser_attr (s : string) : attrs := MkAttrs None (Some s) false false false.
Definition unit_variant : list variant_decl := [MkVariant "Variant" true None].

(** compile-fail/syntax.rs *)
Example syntax_rs :
  (* BadRepr *)
  accepted (MkInput false true [Some "usize"] plain_attrs unit_variant) = true /\
  (* GenericEnum: 11:17, the generics *)
  outcome (MkInput true true [Some "usize"] plain_attrs (unit_variant ++ [MkVariant "FieldBlah" false None])) =
    Some ("`#[derive(EnumSetType)]` cannot be used on enums with type parameters.", SpGenerics) /\
  (* BadItemType: 17:1, the item *)
  outcome (MkInput false false [] plain_attrs []) =
    Some ("`#[derive(EnumSetType)]` may only be used on enums", SpInput) /\
  (* MultipleReprs: 22:24, the second item; Duplicate field `repr` *)
  (let repr s := Attrs.IMeta "repr" (Attrs.MValue (Attrs.EStr s)) in
   Attrs.derive_item (fun _ => true) Debug 64 false CrateName.FError false
     (Attrs.MkItem [Attrs.MkAttribute "enumset" (Attrs.AList (Some [repr "u8"; repr "u16"]) None)] false true unit_variant) =
   Ret (Err (Attrs.CAttributes [((0, Some 1), Attrs.ADuplicate "repr")])))%nat /\
  (* InvalidRepr: 28:18, the value of repr *)
  outcome (MkInput false true [] (repr_attr "abcdef") unit_variant) =
    Some ("`abcdef` is not a valid internal enumset representation.", SpRepr) /\
  (* InvalidSerdeRepr: 34:28, the value of serialize_repr *)
  outcome (MkInput false true [] (ser_attr "abcdef") unit_variant) =
    Some ("`abcdef` is not a valid serialized representation.", SpSerializeRepr).
Proof. repeat split. Qed.

(** compile-fail/variants.rs *)
Example variants_rs :
  (* NegativeVariant: 5:15, the discriminant *)
  outcome (with_discr plain_attrs DNeg) = Some ("Enum discriminants must not be negative.", SpDiscr 0) /\
  (* HasFields: 10:5, the variant *)
  outcome (MkInput false true [] plain_attrs [MkVariant "Variant" false None]) =
    Some ("`#[derive(EnumSetType)]` can only be used on fieldless enums.", SpVariant 0) /\
  (* BadExplicitRepr: 16:5, the variant *)
  outcome (with_discr (repr_attr "u128") (DInt 128)) =
    Some ("`repr` is too small to contain the largest discriminant.", SpVariant 0) /\
  (* BadSerializationRepr: 22:5, the variant *)
  outcome (with_discr (ser_attr "u8") (DInt 8)) =
    Some ("`serialize_repr` is too small to contain the largest discriminant.", SpVariant 0) /\
  (* NonLiteralRepr: 27:5, the variant *)
  outcome (with_discr plain_attrs DOther) = Some ("Enum discriminants must be literal expressions.", SpVariant 0) /\
  (* BadMemRepr: 33:5, the variant *)
  outcome (with_discr (repr_attr "u16") (DInt 16)) =
    Some ("`repr` is too small to contain the largest discriminant.", SpVariant 0) /\
  (* ExcessiveReprSize: 38:5, the variant *)
  outcome (with_discr plain_attrs (DInt 0xFFFFFFD0)) = Some ("Maximum discriminant allowed is `0xFFFFFFBF`.", SpVariant 0).
Proof. repeat split. Qed.

(** compile-fail/deprecation.rs *)
Example deprecation_rs :
  map warning_text (warnings false (MkAttrs None None false false true)) =
    ["#[enumset(serialize_as_map)] is deprecated. Use `#[enumset(serialize_repr = ""map"")]` instead."] /\
  map warning_text (warnings false (MkAttrs None None false true false)) =
    ["#[enumset(serialize_as_list)] is deprecated. Use `#[enumset(serialize_repr = ""list"")]` instead."].
Proof. repeat split. Qed.

(** compile-fail/explicit_repr.rs: [from_repr] is not there, for want of
    [EnumSetTypeWithRepr]; it is there with an integer [repr] *)
Definition has_repr (inp : derive_input) : option bool :=
  match derive_info Debug inp with
  | Ret (Ok i) => Some (existsb (fun t => match t with TWithRepr => true | _ => false end) (generated_impls (MkSwitches false false) i))
  | _ => None
  end.
Example explicit_repr_rs :
  has_repr (MkInput false true [] plain_attrs unit_variant) = Some false /\
  has_repr (MkInput false true [] (repr_attr "array") unit_variant) = Some false /\
  has_repr (MkInput false true [] (repr_attr "u8") unit_variant) = Some true.
Proof. repeat split. Qed.

(** compile-pass/no_imports.rs, no_std.rs *)
Fixpoint plain_variants (n k : nat) : list (string * option N) :=
  match n with O => [] | S n => (String (Ascii.ascii_of_nat (k + 1)) "", None) :: plain_variants n (S k) end.
Example compile_pass :
  forallb accepted
    [enum_of plain_attrs []; enum_of plain_attrs (plain_variants 1 0); enum_of plain_attrs (plain_variants 26 0);
     enum_of plain_attrs (plain_variants 128 0);
     enum_of plain_attrs [("A", Some 0xA); ("B", Some 20); ("C", Some 30); ("D", Some 40); ("E", Some 50); ("F", Some 60); ("G", Some 70); ("H", Some 80)];
     MkInput false true [Some "u32"] plain_attrs (in_variants (enum_of plain_attrs (plain_variants 26 0)));
     MkInput false true [Some "C"] plain_attrs (in_variants (enum_of plain_attrs (plain_variants 26 0)))] = true.
Proof. vm_compute. reflexivity. Qed.

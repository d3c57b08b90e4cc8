(** * Vocabulary of the claims about the texts of compile errors *)
From Verif Require Import Base Syntax Spec Derive ApiSpec.

(** What a compile error says is the case of the declaration, at the place it points at. *)
Inductive Says (inp : derive_input) : string -> span -> Prop :=
| Sy_generic : in_generic inp = true ->
    Says inp "`#[derive(EnumSetType)]` cannot be used on enums with type parameters." SpGenerics
| Sy_not_enum : in_is_enum inp = false ->
    Says inp "`#[derive(EnumSetType)]` may only be used on enums" SpInput
| Sy_rust_repr k r : nth_error (in_rust_reprs inp) k = Some (Some r) -> ~ In r rust_repr_names ->
    Says inp ("`#[repr(" ++ r ++ ")]` cannot be used on enumset variants.") (SpReprAttr k)
| Sy_repr s : at_repr (in_attrs inp) = Some s -> ~ In s repr_names ->
    Says inp ("`" ++ s ++ "` is not a valid internal enumset representation.") SpRepr
| Sy_serialize_repr s : at_serialize_repr (in_attrs inp) = Some s -> ~ In s serialize_repr_names ->
    Says inp ("`" ++ s ++ "` is not a valid serialized representation.") SpSerializeRepr
| Sy_name i j u v : (i < j)%nat -> nth_error (in_variants inp) i = Some u -> nth_error (in_variants inp) j = Some v ->
    vd_name u = vd_name v -> Says inp "Duplicated variant name." (SpVariant j)
| Sy_fields k v : nth_error (in_variants inp) k = Some v -> vd_unit v = false ->
    Says inp "`#[derive(EnumSetType)]` can only be used on fieldless enums." (SpVariant k)
| Sy_u32 k v n : nth_error (in_variants inp) k = Some v -> vd_discr v = Some (DInt n) -> 2 ^ 32 <= n ->
    Says inp "Enum discriminants must fit into `u32`." (SpDiscr k)
| Sy_neg k v : nth_error (in_variants inp) k = Some v -> vd_discr v = Some DNeg ->
    Says inp "Enum discriminants must not be negative." (SpDiscr k)
| Sy_literal k v : nth_error (in_variants inp) k = Some v -> vd_discr v = Some DOther ->
    Says inp "Enum discriminants must be literal expressions." (SpVariant k)
| Sy_max k d : nth_error (discrs inp) k = Some d -> 0xFFFFFFBF < d ->
    Says inp "Maximum discriminant allowed is `0xFFFFFFBF`." (SpVariant k)
| Sy_discr i j d : (i < j)%nat -> nth_error (discrs inp) i = Some d -> nth_error (discrs inp) j = Some d ->
    Says inp "Duplicated enum discriminant." (SpVariant j)
| Sy_repr_small s b k : at_repr (in_attrs inp) = Some s -> name_bits s = Some b ->
    nth_error (discrs inp) k = Some (max_discr inp) -> b <= max_discr inp ->
    Says inp "`repr` is too small to contain the largest discriminant." (SpVariant k)
| Sy_serialize_small s b k : serialize_choice (in_attrs inp) = Some s -> name_bits s = Some b ->
    nth_error (discrs inp) k = Some (max_discr inp) -> b <= max_discr inp ->
    Says inp "`serialize_repr` is too small to contain the largest discriminant." (SpVariant k).

(** A deprecation warning about the option [opt], to be replaced by [serialize_repr = v] *)
Definition deprecation (opt v : string) : string :=
  "#[enumset(" ++ opt ++ ")] is deprecated. Use `#[enumset(serialize_repr = """ ++ v ++ """)]` instead.".
Definition std_deprecation : string :=
  "feature = ""std"" is depercated. If you rename `enumset`, use feature = ""proc-macro-crate"" instead. If you don't, remove the feature.".
(** A deprecated option is given. *)
Inductive Uses (a : attrs) : string -> Prop :=
| Us_map : at_as_map a = true -> Uses a "serialize_as_map"
| Us_list : at_as_list a = true -> Uses a "serialize_as_list".
(** The declaration with [serialize_repr = v] in place of the deprecated options *)
Definition advised (inp : derive_input) (v : string) : derive_input :=
  let a := in_attrs inp in
  MkInput (in_generic inp) (in_is_enum inp) (in_rust_reprs inp)
    (MkAttrs (at_repr a) (Some v) (at_deny_unknown a) false false) (in_variants inp).

(** * The serialization options of a declaration (for C76) *)
From Verif Require Import Base Syntax Derive HistorySpec.

(** The declaration with other options [serialize_repr], [serialize_deny_unknown],
    [serialize_as_list] and [serialize_as_map], and nothing else changed. *)
Definition with_serialization (inp : derive_input) (ser : option string) (deny as_list as_map : bool) : derive_input :=
  MkInput (in_generic inp) (in_is_enum inp) (in_rust_reprs inp)
    (MkAttrs (at_repr (in_attrs inp)) ser deny as_list as_map) (in_variants inp).

(** The generated implementation with another serialization format, and nothing
    else changed. *)
Definition reserialized (T : EnumTy) (r : serde_repr) (deny : bool) : EnumTy := {|
  et_repr := et_repr T; et_all_bits := et_all_bits T; et_all_lit := et_all_lit T; et_bit_width := et_bit_width T;
  et_variant_count := et_variant_count T; et_variants := et_variants T; et_discrs := et_discrs T;
  et_const_only := et_const_only T; et_const_union := et_const_union T;
  et_const_intersection := et_const_intersection T;
  et_const_symmetric_difference := et_const_symmetric_difference T;
  et_const_complement := et_const_complement T; et_with_repr := et_with_repr T;
  et_serde := r; et_deny_unknown := deny; et_pw := et_pw T
|}.

Definition deserializes (c : cmd) : Prop := match c with CDeserialize _ _ => True | _ => False end.

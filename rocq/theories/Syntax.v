(** * Input of the derive macro, and the discriminants rustc assigns

    The declaration of the enum as the derive macro and the compiler see it. *)
From Verif Require Import Base.

(** A discriminant expression [= e] of a variant. *)
Inductive discr_expr : Type :=
| DInt (n : N)   (* an integer literal, any base, with value [n] *)
| DNeg           (* a negation, e.g. [-1] *)
| DOther.        (* any other expression, e.g. [1 + 1] *)

Record variant_decl : Type := MkVariant {
  vd_name : string;
  vd_unit : bool;                    (* no fields *)
  vd_discr : option discr_expr
}.

(** The decoded [#[enumset(..)]] attributes, derive/src/lib.rs:20-36
    ([EnumsetAttrs]). How they are decoded is in Attrs.v.
    [no_ops] and [no_super_impls] only switch impl blocks on or off, see Impls.v;
    [crate_name] is in CrateName.v. *)
Record attrs : Type := MkAttrs {
  at_repr : option string;
  at_serialize_repr : option string;
  at_deny_unknown : bool;
  at_as_list : bool;
  at_as_map : bool
}.

Record derive_input : Type := MkInput {
  in_generic : bool;                 (* has type/lifetime/const parameters *)
  in_is_enum : bool;
  in_rust_reprs : list (option string);
      (* one entry per [#[repr(..)]]: [Some x] if its argument is the single
         identifier [x], [None] if it does not parse as one identifier *)
  in_attrs : attrs;
  in_variants : list variant_decl
}.

(** ** The compiler's rule (Rust reference, "Discriminants")

    An explicit discriminant is the value of its expression; otherwise it is one
    more than that of the previous variant, and zero for the first variant.
    (The value of a non-literal expression is immaterial: the derive rejects such
    enums; we use 0.) *)
Fixpoint rustc_discrs_from (next : N) (vs : list variant_decl) : list N :=
  match vs with
  | [] => []
  | v :: rest =>
      let d := match vd_discr v with
               | None => next
               | Some (DInt n) => n
               | Some _ => 0
               end in
      d :: rustc_discrs_from (d + 1) rest
  end.
Definition rustc_discrs (vs : list variant_decl) : list N := rustc_discrs_from 0 vs.

(** * What a declaration has to be like *)
From Verif Require Import Base Syntax Spec ExtraSpec Impls CrateName Attrs AttrsSpec Names NamesSpec Whole.

(** The options of the attributes can be read and are [o]. *)
Definition options_are (l : list attribute) (o : options) : Prop :=
  (forall p e, ~ Fault l p e) /\ Given l o.
(** The path of the crate is one. *)
Definition path_fine (is_ident : string -> bool) (lookup : bool) (found : found_crate) (o : options) : Prop :=
  (forall n, op_crate_name o = Some n -> is_ident n = true) /\
  (forall n, op_crate_name o = None -> lookup = true -> found = FName n -> is_ident n = true).
(** The discriminants fit the type rustc gives them. *)
Definition discrs_fit (pw : N) (it : source_item) (o : options) : Prop :=
  exists rs, Reprs (it_attributes it) rs /\
    forall d, In d (discrs (declared it o)) -> d <= rustc_discr_max pw rs.
(** The user implements the traits the macro leaves out, and none it generates. *)
Definition impls_fine (u : user_enum) (o : options) : Prop :=
  NoDup (ue_impls u) /\
  (forall t, In t [TPartialEq; TEq; TClone; TCopy] -> (In t (ue_impls u) <-> sw_no_super_impls (op_switches o) = true)) /\
  (forall t, In t [TSub; TBitAnd; TBitOr; TBitXor; TNot; TPartialEqSet] -> In t (ue_impls u) -> sw_no_ops (op_switches o) = true).
(** The names are not in the way of those of the generated code. *)
Definition names_fine (serde : bool) (u : user_enum) (o : options) : Prop :=
  ~ Captured serde (op_switches o) (declared (ue_item u) o) (ue_name u) /\
  ~ In "Repr"%string (map vd_name (it_variants (ue_item u))) /\
  (sw_no_ops (op_switches o) = false -> ~ In "Output"%string (map vd_name (it_variants (ue_item u)))).
(** Unknown bits are denied for integers only; lists and maps need the traits. *)
Definition serde_fine (u : user_enum) (o : options) : Prop :=
  let inp := declared (ue_item u) o in
  (at_deny_unknown (op_attrs o) = true ->
   serialize_name inp <> "array"%string /\
   (forall b n, name_bits (serialize_name inp) = Some b -> storage_of inp <> SWords n)) /\
  (In (serialize_name inp) ["list"; "map"]%string -> ue_ser u = true /\ ue_de u = true).

(** A declaration without attributes of the macro or [#[repr(..)]], with unit
    variants called [names] *)
Definition simple (attributes : list attribute) (names : list string) : source_item :=
  MkItem attributes false true (map (fun n => MkVariant n true None) names).

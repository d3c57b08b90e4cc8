(** * Which impls and warnings the derive macro generates

    Model of the parts of /repo/enumset_derive/src/lib.rs that switch impl blocks
    on or off, and of the supertraits that rustc checks. *)
From Verif Require Import Base Syntax Derive.

(** The traits implemented for the enum type. *)
Inductive trait : Type :=
| TPrivate | TEnumSetType | TWithRepr                    (* of this crate, traits.rs *)
| TPartialEq | TEq | TClone | TCopy
| TSub | TBitAnd | TBitOr | TBitXor | TNot
| TPartialEqSet.                                         (* PartialEq<EnumSet<Self>> *)

(** traits.rs:16, 28-30 and the core library: what an impl requires besides *)
Definition supertraits (t : trait) : list trait :=
  match t with
  | TEnumSetType => [TCopy; TEq; TPrivate]
  | TWithRepr => [TEnumSetType; TPrivate]
  | TCopy => [TClone]
  | TEq => [TPartialEq]
  | _ => []
  end.

(** lib.rs:23-24  the options [no_ops], [no_super_impls] of [#[enumset(..)]] *)
Record switches : Type := MkSwitches { sw_no_ops : bool; sw_no_super_impls : bool }.

(** lib.rs:380-427  [#ops] *)
Definition ops_impls (o : switches) : list trait :=
  if sw_no_ops o then [] else [TSub; TBitAnd; TBitOr; TBitXor; TNot; TPartialEqSet].
(** lib.rs:717-740  [#super_impls] *)
Definition super_impls (o : switches) : list trait :=
  if sw_no_super_impls o then [] else [TPartialEq; TEq; TClone; TCopy].
(** lib.rs:742-751  [#impl_with_repr] *)
Definition with_repr_impls (i : info) : list trait :=
  match i_explicit_internal i with Some _ => [TWithRepr] | None => [] end.
(** lib.rs:942-963  the generated block, in its order *)
Definition generated_impls (o : switches) (i : info) : list trait :=
  [TPrivate; TEnumSetType] ++ with_repr_impls i ++ super_impls o ++ ops_impls o.

(** rustc: no trait is implemented twice, and the supertraits of every
    implemented trait are implemented. *)
Definition impls_accepted (l : list trait) : Prop :=
  NoDup l /\ forall t s, In t l -> In s (supertraits t) -> In s l.

(** lib.rs:1024-1047  the deprecation warnings; [std] is the cargo feature
    [std_deprecation_warning] *)
Inductive warning : Type := WAsMap | WAsList | WStd.
Definition warnings (std : bool) (a : attrs) : list warning :=
  (if at_as_map a then [WAsMap] else []) ++ (if at_as_list a then [WAsList] else []) ++ (if std then [WStd] else []).

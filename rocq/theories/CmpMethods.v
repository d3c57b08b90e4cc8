(** * The provided methods of [PartialEq], [PartialOrd] and [Ord] on [EnumSet]

    set.rs:416-431 defines only [partial_cmp] and [cmp], set.rs:123 derives only
    [eq]; all other methods, and the operators [!=], [<], [<=], [>], [>=], are the
    default ones of core::cmp, modelled here from their documented meaning. *)
From Verif Require Import Base Repr Syntax Derive EnumSet.

Section Methods.
Context (T : EnumTy).
Notation set := (eset T).

Definition es_ne (a b : set) : bool := negb (es_eq T a b).
Definition es_lt (a b : set) : bool := match es_partial_cmp T a b with Some Lt => true | _ => false end.
Definition es_le (a b : set) : bool := match es_partial_cmp T a b with Some Lt | Some Eq => true | _ => false end.
Definition es_gt (a b : set) : bool := match es_partial_cmp T a b with Some Gt => true | _ => false end.
Definition es_ge (a b : set) : bool := match es_partial_cmp T a b with Some Gt | Some Eq => true | _ => false end.
(** [max] returns its second argument if both are equal, [min] the first *)
Definition es_max (a b : set) : set := match es_cmp T a b with Gt => a | _ => b end.
Definition es_min (a b : set) : set := match es_cmp T a b with Gt => b | _ => a end.
(** [assert!(min <= max)], then two comparisons *)
Definition es_clamp (x lo hi : set) : M set :=
  if negb (es_le lo hi) then Panic (PExplicit "assertion failed: min <= max")
  else Ret (if es_lt x lo then lo else if es_gt x hi then hi else x).
End Methods.

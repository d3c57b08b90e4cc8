(** * Vocabulary of the claims about macro syntax *)
From Verif Require Import Base Repr Derive EnumSet Macros MacroRules.

(** [p1 t p2 t .. t pn] *)
Fixpoint paths_by (t : token) (ps : list nat) : list token :=
  match ps with
  | [] => []
  | p :: rest => match rest with [] => [TPath p] | _ => TPath p :: t :: paths_by t rest end
  end.

(** The function a macro with comma-paths_by operands computes. *)
Definition fold_macro (T : EnumTy) (m : macro_name) : option (operand T -> list (operand T) -> M (eset T)) :=
  match m with
  | MUnion => Some (mc_union T)
  | MIntersection => Some (mc_intersection T)
  | MDifference => Some (mc_difference T)
  | MSymmetricDifference => Some (mc_symmetric_difference T)
  | MEnumSet | MComplement => None
  end.
(** Its effect on membership, operand by operand. *)
Definition fold_op (m : macro_name) : option (bool -> bool -> bool) :=
  match m with
  | MUnion => Some orb
  | MIntersection => Some andb
  | MDifference => Some (fun a b => a && negb b)
  | MSymmetricDifference => Some xorb
  | MEnumSet | MComplement => None
  end.

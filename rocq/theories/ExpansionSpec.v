(** * What the macros are for *)
From Verif Require Import Base Spec MacroRules.

(** The paths in the order of the text *)
Definition paths_of (toks : list token) : list nat :=
  flat_map (fun t => match t with TPath p => [p] | _ => [] end) toks.
(** The result in terms of the sets of variants the operands stand for *)
Definition macro_set (m : macro_name) (l : list vset) : vset := fun v =>
  match m with
  | MEnumSet | MUnion => existsb (fun A => A v) l
  | MIntersection => forallb (fun A => A v) l
  | MDifference => match l with [] => false | A :: l => A v && negb (existsb (fun A => A v) l) end
  | MSymmetricDifference => Nat.odd (length (filter (fun A => A v) l))
  | MComplement => match l with [] => false | A :: _ => negb (A v) end
  end.

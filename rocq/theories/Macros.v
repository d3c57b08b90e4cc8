(** * Model of /repo/enumset/src/macros.rs

    The operands of the macros are paths denoting variants or constant sets; both
    provide [__impl_enumset_internal__const_only] and [..const_helper]
    (derive/src/lib.rs:773-778, 835-845, 937-941; set.rs:290-301). *)
From Verif Require Import Base Repr Syntax Derive EnumSet.

Section Macros.
Context (T : EnumTy).

(** [$value.__impl_enumset_internal__const_only()]: on a variant the generated
    function applied to its discriminant, on a set the identity (set.rs:299-301) *)
Definition mc_const_only (o : operand T) : M (eset T) :=
  match o with
  | OSet s => Ret s
  | OVar v => match nth_error (et_discrs T) v with
              | Some d => et_const_only T d
              | None => UB                   (* not a value of the enum *)
              end
  end.

(** macros.rs:73-88 [enum_set_union!] and macros.rs:43-56 [enum_set!]. The first
    arm of [enum_set_union!] and the second of [enum_set!] are the one-operand
    case; the last arms fold over the rest. *)
Definition mc_fold (f : eset T -> eset T -> M (eset T)) (first : operand T) (rest : list (operand T)) : M (eset T) :=
  value <- mc_const_only first ;;
  for_each rest value (fun o value => new <- mc_const_only o ;; f value new).

Definition mc_union (first : operand T) (rest : list (operand T)) : M (eset T) :=
  mc_fold (et_const_union T) first rest.
Definition mc_enum_set (ops : list (operand T)) : M (eset T) :=
  match ops with
  | [] => Ret (es_empty T)                          (* macros.rs:44-46 *)
  | [o] => mc_const_only o                          (* macros.rs:47-52 *)
  | o :: rest => mc_union o rest                    (* macros.rs:53-55 *)
  end.
(** macros.rs:107-122 *)
Definition mc_intersection (first : operand T) (rest : list (operand T)) : M (eset T) :=
  mc_fold (et_const_intersection T) first rest.
(** macros.rs:138-146 *)
Definition mc_complement (o : operand T) : M (eset T) :=
  value <- mc_const_only o ;; et_const_complement T value.
(** macros.rs:165-180: [helper.const_intersection(value, helper.const_complement(new))] *)
Definition mc_difference (first : operand T) (rest : list (operand T)) : M (eset T) :=
  mc_fold (fun value new => c <- et_const_complement T new ;; et_const_intersection T value c) first rest.
(** macros.rs:199-214 *)
Definition mc_symmetric_difference (first : operand T) (rest : list (operand T)) : M (eset T) :=
  mc_fold (et_const_symmetric_difference T) first rest.

End Macros.

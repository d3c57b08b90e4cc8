(** * The blocks the macros of /repo/enumset/src/macros.rs expand to

    [MacroRules.v] says which arm is taken, this file what its block is as a
    piece of code, which types it has and what it evaluates to. Operands may
    belong to several enums, numbered as in Multi.v. *)
From Coq Require Import PeanoNat.
From Verif Require Import Base Repr Syntax Derive EnumSet Macros MacroRules.

(** The variables of the blocks. They are hygienic: no path of the caller means one of them. *)
Inductive local : Type := Helper | Value | New.
(** The methods of the helper with two arguments, derive/src/lib.rs:780-823, 848-905 *)
Inductive helper_op : Type := HUnion | HIntersection | HSymmetricDifference.
Inductive cexpr : Type :=
| XEmpty                                     (* EnumSet::empty() *)
| XOnly (p : nat)                            (* p.__impl_enumset_internal__const_only() *)
| XHelper (p : nat)                          (* p.__impl_enumset_internal__const_helper() *)
| XLocal (x : local)
| XOp (f : helper_op) (h a b : cexpr)        (* h.const_union(a, b), .. *)
| XComplement (h a : cexpr)                  (* h.const_complement(a) *)
| XLet (x : local) (e body : cexpr).         (* { let x = e; body } *)

(** macros.rs:81-84, 115-118, 173-176, 207-210  the block in the repetition *)
Definition step_block (m : macro_name) : cexpr :=
  match m with
  | MIntersection => XOp HIntersection (XLocal Helper) (XLocal Value) (XLocal New)
  | MDifference => XOp HIntersection (XLocal Helper) (XLocal Value) (XComplement (XLocal Helper) (XLocal New))
  | MSymmetricDifference => XOp HSymmetricDifference (XLocal Helper) (XLocal Value) (XLocal New)
  | _ => XOp HUnion (XLocal Helper) (XLocal Value) (XLocal New)
  end.
(** [$(let value = { let new = $rest.const_only(); .. };)* value] *)
Fixpoint steps_block (m : macro_name) (l : list nat) : cexpr :=
  match l with
  | [] => XLocal Value
  | q :: l => XLet Value (XLet New (XOnly q) (step_block m)) (steps_block m l)
  end.
(** macros.rs:45, 48-51, 78-86 (112-120, 170-178, 204-212), 139-145 *)
Definition block (c : code) : cexpr :=
  match c with
  | CEmpty => XEmpty
  | COnly p => XLet Value (XOnly p) (XLocal Value)
  | CFold m p l => XLet Helper (XHelper p) (XLet Value (XOnly p) (steps_block m l))
  | CComplement p => XLet Helper (XHelper p) (XLet Value (XOnly p) (XComplement (XLocal Helper) (XLocal Value)))
  end.

(** ** Types *)
Inductive cty : Type :=
| TSet (e : nat)             (* EnumSet<e> *)
| THelper (e : nat).         (* <e as EnumSetTypePrivate>::ConstHelper *)
Definition bind_local {A} (x : local) (a : A) (G : local -> option A) : local -> option A :=
  fun y => match x, y with
           | Helper, Helper | Value, Value | New, New => Some a
           | _, _ => G y
           end.
Section Types.
(** Does [EnumSet] mean the type of the crate where the macro is used? The enum
    each path is a variant or a set of. *)
Context (imported : bool) (tag : nat -> nat).
(** Signatures: derive/src/lib.rs:773-778, 782-823, 835-845, 850-905, 937-941; set.rs:290-301 *)
Inductive typed : (local -> option cty) -> cexpr -> cty -> Prop :=
| Ty_empty G e : imported = true -> typed G XEmpty (TSet e)
| Ty_only G p : typed G (XOnly p) (TSet (tag p))
| Ty_helper G p : typed G (XHelper p) (THelper (tag p))
| Ty_local G x t : G x = Some t -> typed G (XLocal x) t
| Ty_op G f h a b e : typed G h (THelper e) -> typed G a (TSet e) -> typed G b (TSet e) ->
    typed G (XOp f h a b) (TSet e)
| Ty_complement G h a e : typed G h (THelper e) -> typed G a (TSet e) -> typed G (XComplement h a) (TSet e)
| Ty_let G x e b t t' : typed G e t -> typed (bind_local x t G) b t' -> typed G (XLet x e b) t'.
(** The compiler accepts the invocation where it gives a value of type [t]. *)
Definition accepted (m : macro_name) (toks : list token) (t : cty) : Prop :=
  exists c, expand recursion_limit m toks = Some c /\ typed (fun _ => None) (block c) t.
End Types.

(** ** Values *)
Section Values.
Context (T : nat -> EnumTy) (env : nat -> {e : nat & operand (T e)}).
Inductive cval : Type := VSet (e : nat) (s : eset (T e)) | VHelper (e : nat).
(** The set inside a value, if it is one of the enum [e] *)
Definition as_set (e : nat) (v : cval) : option (eset (T e)) :=
  match v with
  | VSet k s => match Nat.eq_dec k e with
                | left E => Some (match E in _ = e return eset (T e) with eq_refl => s end)
                | right _ => None
                end
  | VHelper _ => None
  end.
Definition helper_fun (f : helper_op) (e : nat) : eset (T e) -> eset (T e) -> M (eset (T e)) :=
  match f with
  | HUnion => et_const_union (T e)
  | HIntersection => et_const_intersection (T e)
  | HSymmetricDifference => et_const_symmetric_difference (T e)
  end.
(** [want] is the enum the context asks for, which matters for [EnumSet::empty()];
    [UB] for what has no type *)
Fixpoint eval (want : nat) (rho : local -> option cval) (x : cexpr) : M cval :=
  match x with
  | XEmpty => Ret (VSet want (es_empty (T want)))
  | XOnly p => let (e, o) := env p in s <- mc_const_only (T e) o ;; Ret (VSet e s)
  | XHelper p => let (e, _) := env p in Ret (VHelper e)
  | XLocal x => match rho x with Some v => Ret v | None => UB end
  | XOp f h a b =>
      h <- eval want rho h ;; a <- eval want rho a ;; b <- eval want rho b ;;
      match h with
      | VHelper e => match as_set e a, as_set e b with
                     | Some s, Some s' => r <- helper_fun f e s s' ;; Ret (VSet e r)
                     | _, _ => UB
                     end
      | VSet _ _ => UB
      end
  | XComplement h a =>
      h <- eval want rho h ;; a <- eval want rho a ;;
      match h with
      | VHelper e => match as_set e a with Some s => r <- et_const_complement (T e) s ;; Ret (VSet e r) | None => UB end
      | VSet _ _ => UB
      end
  | XLet x e body => v <- eval want rho e ;; eval want (bind_local x v rho) body
  end.
End Values.

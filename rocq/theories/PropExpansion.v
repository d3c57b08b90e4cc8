(** * Properties: the code the macros expand to, C78 *)
From Coq Require Import Arith.
From Verif Require Import Base Repr Syntax Spec Derive EnumSet Macros Fmt Serde ApiSpec Examples MacroRules MacroRulesSpec Expansion ExpansionSpec ExpansionExamples.
From Verif Require ExpansionClaims.

(** C78: exactly the invocations of [enum_set!] that are accepted, and their types *)
Theorem C78_literal_typed imported tag toks t :
  accepted imported tag MEnumSet toks t <->
  exists ps k e, toks = paths_by TBar ps ++ repeat TBar k /\ t = TSet e /\
    (forall p, In p ps -> tag p = e) /\ (ps = [] -> imported = true).
Proof. exact (ExpansionClaims.literal_typed imported tag toks t). Qed.
Print Assumptions C78_literal_typed.
Example C78_literal_typed_example :
  accepted true owner MEnumSet [TPath 0; TBar; TPath 1; TBar] (TSet 0) /\
  paths_by TBar [0; 1]%nat ++ repeat TBar 1 = [TPath 0; TBar; TPath 1; TBar] /\
  (forall t, ~ accepted true owner MEnumSet [TPath 0; TBar; TPath 2] t) /\
  (forall e, accepted true owner MEnumSet [] (TSet e)) /\
  (forall t, ~ accepted false owner MEnumSet [] t).
Proof. split; [exact literal_ok|]. split; [reflexivity|]. split; [intros t; apply mixed_rejected; cbn; auto|]. split; [exact empty_ok|exact empty_unimported]. Qed.

(** C78: the same for [enum_set_union!], [enum_set_intersection!], [enum_set_difference!] and [enum_set_symmetric_difference!] *)
Theorem C78_fold_accepted imported tag m g toks t : fold_op m = Some g ->
  (accepted imported tag m toks t <->
   exists p ps k, toks = paths_by TComma (p :: ps) ++ repeat TComma k /\ (k <= 1 \/ ps = [] /\ k = 2)%nat /\
     t = TSet (tag p) /\ forall q, In q ps -> tag q = tag p).
Proof. exact (ExpansionClaims.fold_accepted imported tag m g toks t). Qed.
Print Assumptions C78_fold_accepted.
Example C78_fold_accepted_example :
  fold_op MDifference = Some (fun a b => a && negb b) /\
  accepted false owner MDifference [TPath 1; TComma; TPath 0; TComma] (TSet 0) /\
  (forall t, ~ accepted false owner MDifference [TPath 0; TComma; TPath 2] t).
Proof. split; [reflexivity|]. split; [exact difference_ok|]. intros t; apply mixed_rejected; cbn; auto. Qed.

(** C78: the same for [enum_set_complement!] *)
Theorem C78_complement_accepted imported tag toks t :
  accepted imported tag MComplement toks t <->
  exists p k, toks = TPath p :: repeat TComma k /\ (k <= 1)%nat /\ t = TSet (tag p).
Proof. exact (ExpansionClaims.complement_accepted imported tag toks t). Qed.
Print Assumptions C78_complement_accepted.
Example C78_complement_accepted_example :
  accepted false owner MComplement [TPath 2; TComma] (TSet 1).
Proof. exact complement_ok. Qed.

(** C78: all operands belong to one enum, and the result is a set of it *)
Theorem C78_strongly_typed imported tag m toks t : accepted imported tag m toks t ->
  exists e, t = TSet e /\ forall p, In (TPath p) toks -> tag p = e.
Proof. exact (ExpansionClaims.strongly_typed imported tag m toks t). Qed.
Print Assumptions C78_strongly_typed.
Example C78_strongly_typed_example :
  accepted false owner MDifference [TPath 1; TComma; TPath 0; TComma] (TSet 0) /\
  owner 0 = 0%nat /\
  owner 2 = 1%nat /\
  (forall m t, ~ accepted true owner m [TPath 0; TComma; TPath 2] t).
Proof. split; [exact difference_ok|]. split; [reflexivity|]. split; [reflexivity|]. intros m t; apply mixed_rejected; cbn; auto. Qed.

(** C78: the value of what is accepted *)
Theorem C78_macro_result (T : nat -> EnumTy) (env : nat -> {e : nat & operand (T e)}) imported pw inp m toks e envs :
  accepted imported (fun p => projT1 (env p)) m toks (TSet e) -> Supported pw inp (T e) ->
  (forall p o, In (TPath p) toks -> env p = existT (fun e => operand (T e)) e o -> OpDenotes inp (T e) (Reachable pw inp (T e)) o (envs p)) ->
  exists c s, expand recursion_limit m toks = Some c /\
    eval T env e (fun _ => None) (block c) = Ret (VSet T e s) /\
    Denotes inp (T e) s (macro_set m (map envs (paths_of toks))).
Proof. exact (ExpansionClaims.macro_result T env imported pw inp m toks e envs). Qed.
Print Assumptions C78_macro_result.
Example C78_macro_result_example :
  accepted false (fun p => projT1 (scope p)) MDifference [TPath 1; TComma; TPath 0; TComma] (TSet 0) /\
  Supported 64 wide (both 0) /\
  (forall p o, In (TPath p) [TPath 1; TComma; TPath 0; TComma] -> scope p = existT (fun e => operand (both e)) 0%nat o -> OpDenotes wide WideT (Reachable 64 wide WideT) o (scope_sets p)) /\
  eval both scope 0 (fun _ => None) (block (CFold MDifference 1 [0%nat])) = Ret (VSet both 0 wide_bc) /\
  eval both scope 0 (fun _ => None) (block (CFold MUnion 1 [0%nat])) = Ret (VSet both 0 [8; 0x40; 0; 0x100]) /\
  eval both scope 0 (fun _ => None) (block (CFold MUnion 1 [2%nat])) = UB.
Proof. split; [exact difference_ok|]. split; [exact wide_supported|]. split; [exact scope_denotes|]. repeat split; vm_compute; reflexivity. Qed.


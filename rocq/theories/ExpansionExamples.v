(** * Examples of invocations of the macros *)
From Verif Require Import Base Repr Syntax Spec Derive EnumSet Macros ApiSpec Examples MacroRules MacroRulesSpec Expansion ExpansionSpec.
From Verif Require ExpansionClaims.

(** Two enums; path 0 is a variant and path 1 a constant set of the first, path 2 a variant of the second. *)
Definition both (e : nat) : EnumTy := match e with O => WideT | _ => SmallT end.
Definition scope (p : nat) : {e : nat & operand (both e)} :=
  match p with
  | 0%nat => existT (fun e => operand (both e)) 0%nat (OVar (T := WideT) 0%nat)
  | 1%nat => existT (fun e => operand (both e)) 0%nat (OSet (T := WideT) wide_bc)
  | _ => existT (fun e => operand (both e)) 1%nat (OVar (T := SmallT) 1%nat)
  end.
Definition owner (p : nat) : nat := projT1 (scope p).
Definition scope_sets (p : nat) : vset := match p with 0%nat => among [0]%nat | _ => among [1; 2]%nat end.

Lemma mixed_rejected imported m toks t :
  In (TPath 0) toks -> In (TPath 2) toks -> ~ accepted imported owner m toks t.
Proof.
  intros H0 H2 H. destruct (ExpansionClaims.strongly_typed _ _ _ _ _ H) as (e & _ & F).
  pose proof (F _ H0) as A. pose proof (F _ H2) as B. rewrite <- A in B. discriminate B.
Qed.
Lemma literal_ok : accepted true owner MEnumSet [TPath 0; TBar; TPath 1; TBar] (TSet 0).
Proof.
  apply ExpansionClaims.literal_typed. exists [0; 1]%nat, 1%nat, 0%nat. split; [reflexivity|]. split; [reflexivity|].
  split; [intros p [<-|[<-|[]]]; reflexivity|discriminate].
Qed.
Lemma empty_ok e : accepted true owner MEnumSet [] (TSet e).
Proof. apply ExpansionClaims.literal_typed. exists [], 0%nat, e. repeat split. intros p []. Qed.
Lemma empty_unimported t : ~ accepted false owner MEnumSet [] t.
Proof.
  intros (c & E & H). injection E as <-. inversion H. discriminate.
Qed.
Lemma difference_ok : accepted false owner MDifference [TPath 1; TComma; TPath 0; TComma] (TSet 0).
Proof.
  apply (ExpansionClaims.fold_accepted _ _ MDifference (fun a b => a && negb b)); [reflexivity|].
  exists 1%nat, [0%nat], 1%nat. split; [reflexivity|]. split; [left; repeat constructor|]. split; [reflexivity|].
  intros q [<-|[]]; reflexivity.
Qed.
Lemma complement_ok : accepted false owner MComplement [TPath 2; TComma] (TSet 1).
Proof. apply ExpansionClaims.complement_accepted. exists 2%nat, 1%nat. repeat split. repeat constructor. Qed.
Lemma scope_denotes p o : In (TPath p) [TPath 1; TComma; TPath 0; TComma] -> scope p = existT (fun e => operand (both e)) 0%nat o ->
  OpDenotes wide WideT (Reachable 64 wide WideT) o (scope_sets p).
Proof.
  intros H E.
  assert (K : forall (x y : operand WideT), existT (fun e => operand (both e)) 0%nat x = existT (fun e => operand (both e)) 0%nat y -> x = y).
  { intros x y. apply Eqdep_dec.inj_pair2_eq_dec, PeanoNat.Nat.eq_dec. }
  destruct H as [[= <-]|[[=]|[[= <-]|[[=]|[]]]]]; apply K in E; subst o; cbn.
  - split; auto with ex.
  - split; [vm_compute; lia|]. intros [|v] _; reflexivity.
Qed.

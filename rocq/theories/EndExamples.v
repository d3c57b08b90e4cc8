(** * Examples of declarations and programs using their sets *)
From Coq Require Import Arith.
From Verif Require Import Base Syntax Spec Derive EnumSet ApiSpec Examples Impls CrateName HistorySpec History MultiSpec Multi HistoryExamples.
From Verif Require Import ExtraExamples Attrs AttrsSpec AttrsExamples.
From Verif Require AttrsClaims DeriveClaims.

Definition two_items (e : nat) : source_item := match e with O => spread_item | _ => named_item "e2" end.
Definition two_options (e : nat) : options :=
  match e with O => spread_options | _ => MkOptions plain_attrs (MkSwitches false false) (Some "e2"%string) end.
Definition two_declared (e : nat) : derive_input := declared (two_items e) (two_options e).

Lemma two_given e : decode_attributes (it_attributes (two_items e)) = Ok (two_options e).
Proof. destruct e; reflexivity. Qed.
Lemma decoded_fine l o : decode_attributes l = Ok o -> (forall p f, ~ Fault l p f) /\ Given l o.
Proof.
  intros D. split; [|apply AttrsClaims.attributes_decoded in D; apply D].
  intros p f F. assert (X : exists es, decode_attributes l = Err es) by (apply AttrsClaims.fault_rejected; eauto).
  destruct X; congruence.
Qed.
Lemma two_reprs e : reprs_fine (it_attributes (two_items e)).
Proof.
  destruct e; intros f H; cbn in H.
  - destruct H as [H|[H|[H|[H|[]]]]]; inversion H; subst. eexists; eexists. split; [reflexivity|cbn; auto].
  - destruct H as [H|[]]; inversion H.
Qed.
Lemma two_well_formed e : WellFormed (two_declared e).
Proof.
  assert (D : exists T, derive Debug 64 (two_declared e) = Ret (Ok T)).
  { destruct e; eexists; apply derived_ok; vm_compute; reflexivity. }
  destruct D as [T D]. destruct (DeriveClaims.derive_total Debug 64 (two_declared e)) as (r & Hr & H & _).
  apply H. exists T. congruence.
Qed.
Lemma two_names e : (forall s, op_crate_name (two_options e) = Some s -> ascii_ident s = true) /\
  (forall s, op_crate_name (two_options e) = None -> true = true -> FName "es" = FName s -> ascii_ident s = true)%string.
Proof.
  split; [destruct e; cbn; intros s H; inversion H; reflexivity|].
  intros s _ _ H. inversion H. reflexivity.
Qed.
Lemma two_calls : mcalls 64 two_declared 20 tour.
Proof.
  vm_compute. repeat split; auto 10 with arith.
  intros v u Hv E. destruct v as [|[|v]]; try discriminate; injection E as <-; auto with arith.
Qed.

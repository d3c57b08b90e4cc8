(** * Examples of whole declarations *)
From Coq Require Import Arith Ascii.
From Verif Require Import Base Syntax Spec ExtraSpec Derive EnumSet Serde ApiSpec Examples Impls CrateName HistorySpec History MultiSpec Multi HistoryExamples.
From Verif Require Import ExtraExamples Attrs AttrsSpec AttrsExamples EndExamples Names NamesSpec NamesExamples Whole WholeSpec.
From Verif Require AttrsClaims NamesClaims WholeClaims.
Open Scope string_scope.

(** The enums of EndExamples.v; the first is serialized as a map. *)
Definition as_written (e : nat) : user_enum := MkEnum (two_items e) "Enum1" [] true true.
Definition generated_of (e : nat) : generated :=
  match derive_item ascii_ident Debug 64 true (FName "es") false (two_items e) with Ret (Ok g) => g | _ => MkGenerated "" WideT [] [] end.
Lemma two_compile e : exists g, compiles_to ascii_ident Debug 64 true (FName "es") false true (as_written e) g.
Proof.
  apply WholeClaims.whole_compiles; [intros t []|]. exists (two_options e).
  split; [apply decoded_fine, two_given|]. split; [apply two_reprs|]. split; [apply two_well_formed|].
  split; [apply two_names|].
  split. { destruct e; (eexists; split; [apply AttrsClaims.reprs_give; reflexivity|]); intros d Hd; apply N.leb_le;
    revert d Hd; apply Forall_forall; repeat constructor. }
  split. { split; [constructor|]. split; [|intros t _ []]. intros t _. destruct e; (split; [intros []|discriminate]). }
  split.
  { split.
    - destruct e.
      + destruct (derive_info Debug (two_declared 0)) as [[i|]| | |] eqn:E; try (vm_compute in E; discriminate E).
        apply (NamesClaims.captured_names _ _ _ _ _ _ E), (NamesClaims.ordinary_names _ _ _ _ _ _ E capital_Enum1 unlisted_Enum1).
      + destruct (derive_info Debug (two_declared 1)) as [[i|]| | |] eqn:E; try (vm_compute in E; discriminate E).
        apply (NamesClaims.captured_names _ _ _ _ _ _ E), (NamesClaims.ordinary_names _ _ _ _ _ _ E capital_Enum1 unlisted_Enum1).
    - destruct e; cbn; intuition discriminate. }
  intros _. split; [destruct e; discriminate|]. split; reflexivity.
Qed.
Lemma two_generated e : compiles_to ascii_ident Debug 64 true (FName "es") false true (as_written e) (generated_of e).
Proof. destruct (two_compile e) as [g H]. unfold generated_of. change (two_items e) with (ue_item (as_written e)). rewrite (proj1 H). exact H. Qed.

(** Without [Deserialize] it is not accepted, nor if [Clone] is implemented again, nor with other names. *)
Definition broken : list user_enum :=
  [MkEnum spread_item "Enum1" [] true false; MkEnum spread_item "Enum1" [TClone] true true;
   MkEnum spread_item "Visitor" [] true true; MkEnum (named_item "a-b") "Enum1" [] true true].
Lemma broken_rejected u g : In u broken -> ~ compiles_to ascii_ident Debug 64 true (FName "es") false true u g.
Proof.
  intros Hu H.
  assert (HU : forall t, In t (ue_impls u) -> t <> TPrivate /\ t <> TEnumSetType /\ t <> TWithRepr).
  { destruct Hu as [<-|[<-|[<-|[<-|[]]]]]; cbn; intros t Ht; intuition (subst; discriminate). }
  apply (ex_intro (fun g => compiles_to ascii_ident Debug 64 true (FName "es") false true u g)) in H.
  apply WholeClaims.whole_compiles in H; [|exact HU]. destruct H as (o & (_ & G) & _ & _ & P & _ & I & N & S).
  destruct Hu as [<-|[<-|[<-|[<-|[]]]]].
  - rewrite (AttrsClaims.given_unique _ _ _ G (proj2 (decoded_fine _ _ (two_given 0)))) in S.
    destruct (S eq_refl) as [_ S2]. destruct S2 as [_ X]; [right; left; reflexivity|discriminate X].
  - rewrite (AttrsClaims.given_unique _ _ _ G (proj2 (decoded_fine _ _ (two_given 0)))) in I.
    destruct I as (_ & I & _). assert (X : sw_no_super_impls (op_switches spread_options) = true) by (apply (I TClone); cbn; auto). discriminate X.
  - rewrite (AttrsClaims.given_unique _ _ _ G (proj2 (decoded_fine _ _ (two_given 0)))) in N.
    destruct N as [N _]. apply N. apply cap_visitor; [reflexivity|]. right. left. reflexivity.
  - destruct P as [P _]. assert (D : exists o, decode_attributes (it_attributes (named_item "a-b")) = Ok o) by (eexists; reflexivity).
    destruct D as [o' D]. rewrite (AttrsClaims.given_unique _ _ _ G (proj2 (decoded_fine _ _ D))) in P.
    injection D as <-. discriminate (P "a-b" eq_refl).
Qed.

(** [/// text], [enum Enum1 { A, B, C }] *)
Definition commented : list attribute := [doc_attr].
Lemma commented_fine a : In a commented -> a_path a <> "enumset" /\ a_path a <> "repr".
Proof. intros [<-|[]]. split; discriminate. Qed.
Lemma abc_distinct : NoDup ["A"; "B"; "C"].
Proof. repeat constructor; cbn; intuition discriminate. Qed.

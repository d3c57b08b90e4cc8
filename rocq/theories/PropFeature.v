(** * Properties: the cargo features, C82 *)
From Coq Require Import Arith.
From Verif Require Import Base Repr Syntax Spec Derive EnumSet Macros Fmt Serde ApiSpec Examples ExtraSpec Impls CrateName HistorySpec History MultiSpec Multi Attrs AttrsSpec AttrsExamples HistoryExamples ExtraExamples EndExamples Names NamesSpec NamesExamples Whole WholeSpec WholeExamples Features.
From Verif Require FeatureClaims.

(** C82: the crate and the generated impls compile with every choice of features *)
Theorem C82_features_fit fs :
  serde_available fs /\ impl_matches fs /\
  (has_to_vec fs = true <-> In FAlloc fs \/ In FStd fs) /\ (has_serde fs = true <-> In FSerde fs).
Proof. exact (FeatureClaims.features_fit fs). Qed.
Print Assumptions C82_features_fit.
Example C82_features_fit_example :
  has_to_vec [FStd] = true /\
  has_serde [FStd] = false /\
  has_serde [FStd; FSerde] = true /\
  has_serde [FSerde2] = false /\
  on [FStd] DeriveLookup = true.
Proof. repeat split. Qed.

(** C82: what turning on features changes *)
Theorem C82_more_features is_ident md pw found fs gs u g :
  (forall t, In t (ue_impls u) -> t <> TPrivate /\ t <> TEnumSetType /\ t <> TWithRepr) ->
  incl fs gs -> builds is_ident md pw found fs u g ->
  exists o, Given (it_attributes (ue_item u)) o /\
    ((exists g', builds is_ident md pw found gs u g') <->
     (In FSerde gs -> names_fine true u o /\ serde_fine u o) /\
     (In FProcMacroCrate gs \/ In FStd gs -> op_crate_name o = None -> forall n, found = FName n -> is_ident n = true)) /\
    (forall g', builds is_ident md pw found gs u g' ->
       g_type g' = g_type g /\ g_impls g' = g_impls g /\
       (forall w, In w (g_warnings g') <-> In w (g_warnings g) \/ w = WStd /\ In FStd gs) /\
       (g_crate g' = g_crate g \/
        ~ (In FProcMacroCrate fs \/ In FStd fs) /\ (In FProcMacroCrate gs \/ In FStd gs) /\ found = FName (g_crate g'))).
Proof. exact (FeatureClaims.more_features is_ident md pw found fs gs u g). Qed.
Print Assumptions C82_more_features.
Example C82_more_features_example :
  (forall t, In t (ue_impls (as_written 0)) -> t <> TPrivate /\ t <> TEnumSetType /\ t <> TWithRepr) /\
  incl [FProcMacroCrate; FSerde] [FSerde; FStd; FProcMacroCrate] /\
  builds ascii_ident Debug 64 (FName "es") [FProcMacroCrate; FSerde] (as_written 0) (generated_of 0) /\
  (exists g, builds ascii_ident Debug 64 (FName "es") [FSerde; FStd; FProcMacroCrate] (as_written 0) g).
Proof. split; [intros t []|]. split; [intros f [<-|[<-|[]]]; cbn; auto|]. split; [split; [intros _; reflexivity|split; [reflexivity|exact (two_generated 0)]]|]. destruct (FeatureClaims.features_additive ascii_ident Debug 64 (FName "es") [FProcMacroCrate; FSerde] [FSerde; FStd; FProcMacroCrate] (as_written 0) (generated_of 0)) as (g & H & _); [intros t []|intros f [<-|[<-|[]]]; cbn; auto|cbn; auto|intros n [= <-]; reflexivity|split; [intros _; reflexivity|split; [reflexivity|exact (two_generated 0)]]|exists g; exact H]. Qed.

(** C82: features other than serde never break a declaration *)
Theorem C82_features_additive is_ident md pw found fs gs u g :
  (forall t, In t (ue_impls u) -> t <> TPrivate /\ t <> TEnumSetType /\ t <> TWithRepr) ->
  incl fs gs -> (In FSerde gs -> In FSerde fs) -> (forall n, found = FName n -> is_ident n = true) ->
  builds is_ident md pw found fs u g -> exists g', builds is_ident md pw found gs u g' /\ g_type g' = g_type g.
Proof. exact (FeatureClaims.features_additive is_ident md pw found fs gs u g). Qed.
Print Assumptions C82_features_additive.
Example C82_features_additive_example :
  (forall t, In t (ue_impls (as_written 1)) -> t <> TPrivate /\ t <> TEnumSetType /\ t <> TWithRepr) /\
  incl [FProcMacroCrate; FSerde] [FSerde; FStd; FProcMacroCrate; FAlloc] /\
  builds ascii_ident Debug 64 (FName "es") [FProcMacroCrate; FSerde] (as_written 1) (generated_of 1).
Proof. split; [intros t []|]. split; [intros f [<-|[<-|[]]]; cbn; auto|]. split; [intros _; reflexivity|split; [reflexivity|exact (two_generated 1)]]. Qed.

(** C82: the feature serde does: enums called S or D compile exactly without it *)
Theorem C82_serde_breaks is_ident md pw found fs names name : pw = 32 \/ pw = 64 ->
  NoDup names -> N.of_nat (length names) <= 2 ^ 31 -> ~ In "Repr"%string names -> ~ In "Output"%string names ->
  In name ["S"; "D"]%string -> (forall n, found = FName n -> is_ident n = true) ->
  let u := MkEnum (simple [] names) name [] false false in
  (exists g, builds is_ident md pw found fs u g) <-> ~ In FSerde fs.
Proof. exact (FeatureClaims.serde_breaks is_ident md pw found fs names name). Qed.
Print Assumptions C82_serde_breaks.
Example C82_serde_breaks_example :
  NoDup ["A"; "B"]%string /\
  (exists g, builds ascii_ident Debug 64 (FName "es") [FAlloc; FStd] (MkEnum (simple [] ["A"; "B"]%string) "S" [] false false) g) /\
  ~ (exists g, builds ascii_ident Debug 64 (FName "es") [FAlloc; FStd; FSerde] (MkEnum (simple [] ["A"; "B"]%string) "S" [] false false) g).
Proof. assert (HN : NoDup ["A"; "B"]%string) by (repeat constructor; cbn; intuition discriminate). assert (HB : forall fs, (exists g, builds ascii_ident Debug 64 (FName "es") fs (MkEnum (simple [] ["A"; "B"]%string) "S" [] false false) g) <-> ~ In FSerde fs) by (intros fs; apply FeatureClaims.serde_breaks; [now right|exact HN|discriminate|cbn; intuition discriminate|cbn; intuition discriminate|now left|intros n [= <-]; reflexivity]). split; [exact HN|]. split; [apply HB|intros H; apply HB in H; apply H]; cbn; intuition discriminate. Qed.


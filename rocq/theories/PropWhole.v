(** * Properties: whole declarations, C77 *)
From Coq Require Import Arith.
From Verif Require Import Base Repr Syntax Spec Derive EnumSet Macros Fmt Serde ApiSpec Examples ExtraSpec Impls CrateName HistorySpec History MultiSpec Multi Attrs AttrsSpec AttrsExamples HistoryExamples ExtraExamples EndExamples Names NamesSpec NamesExamples Whole WholeSpec WholeExamples.
From Verif Require WholeClaims.

(** C77: exactly the declarations that are accepted by the macro and the compiler *)
Theorem C77_whole_compiles is_ident md pw lookup found std serde u :
  (forall t, In t (ue_impls u) -> t <> TPrivate /\ t <> TEnumSetType /\ t <> TWithRepr) ->
  (exists g, compiles_to is_ident md pw lookup found std serde u g) <->
  exists o, options_are (it_attributes (ue_item u)) o /\ reprs_fine (it_attributes (ue_item u)) /\
    WellFormed (declared (ue_item u) o) /\ path_fine is_ident lookup found o /\ discrs_fit pw (ue_item u) o /\
    impls_fine u o /\ names_fine serde u o /\ (serde = true -> serde_fine u o).
Proof. exact (WholeClaims.whole_compiles is_ident md pw lookup found std serde u). Qed.
Print Assumptions C77_whole_compiles.
Example C77_whole_compiles_example :
  (forall e, exists g, compiles_to ascii_ident Debug 64 true (FName "es") false true (as_written e) g) /\
  (forall u g, In u broken -> ~ compiles_to ascii_ident Debug 64 true (FName "es") false true u g) /\
  length broken = 4%nat.
Proof. split; [exact two_compile|]. split; [exact broken_rejected|reflexivity]. Qed.

(** C77: neither the build mode nor the warnings matter *)
Theorem C77_compiles_anywhere is_ident lookup found serde md md' pw std std' u :
  (forall t, In t (ue_impls u) -> t <> TPrivate /\ t <> TEnumSetType /\ t <> TWithRepr) ->
  (exists g, compiles_to is_ident md pw lookup found std serde u g) <->
  (exists g, compiles_to is_ident md' pw lookup found std' serde u g).
Proof. exact (WholeClaims.compiles_anywhere is_ident lookup found serde md md' pw std std' u). Qed.
Print Assumptions C77_compiles_anywhere.
Example C77_compiles_anywhere_example :
  (forall t, In t (ue_impls (as_written 0)) -> t <> TPrivate /\ t <> TEnumSetType /\ t <> TWithRepr) /\
  (exists g, compiles_to ascii_ident Release 64 true (FName "es") true true (as_written 0) g).
Proof. split; [intros t []|]. apply (WholeClaims.compiles_anywhere _ _ _ _ Debug Release 64 false true); [intros t []|exact (two_compile 0)]. Qed.

(** C77: if they compile, programs compute with their sets as with sets *)
Theorem C77_compiled_programs is_ident md pw lookup found std serde us gs n prog : pw = 32 \/ pw = 64 ->
  (forall e, compiles_to is_ident md pw lookup found std serde (us e) (gs e)) ->
  exists os, (forall e, Given (it_attributes (ue_item (us e))) (os e)) /\
    (mcalls pw (fun e => declared (ue_item (us e)) (os e)) n prog ->
     m_play (fun e => g_type (gs e)) n prog [] (m_init (fun e => g_type (gs e))) =
     am_play pw (fun e => declared (ue_item (us e)) (os e)) n prog [] (fun _ => a_init)).
Proof. exact (WholeClaims.compiled_programs is_ident md pw lookup found std serde us gs n prog). Qed.
Print Assumptions C77_compiled_programs.
Example C77_compiled_programs_example :
  (forall e, compiles_to ascii_ident Debug 64 true (FName "es") false true (as_written e) (generated_of e)) /\
  mcalls 64 two_declared 20 tour /\
  m_play (fun e => g_type (generated_of e)) 20 tour [] (m_init (fun e => g_type (generated_of e))) = ([MOut OUnit; MOut OUnit; MOut (OBool true); MClosurePanicked; MOut (OOptVariant (Some 2%nat)); MOut (OBool true); MOut (OVariants [2; 3; 0]%nat); MPanicked (PExpect "Bitset contains invalid variants."); MOut (ONum 3)], Ret tt).
Proof. split; [exact two_generated|]. split; [exact two_calls|vm_compute; reflexivity]. Qed.

(** C77: plain declarations are always accepted *)
Theorem C77_simple_compiles is_ident md pw lookup found std serde attributes names name ser de : pw = 32 \/ pw = 64 ->
  (forall a, In a attributes -> a_path a <> "enumset"%string /\ a_path a <> "repr"%string) ->
  NoDup names -> N.of_nat (length names) <= 2 ^ 31 ->
  ~ In "Repr"%string names -> ~ In "Output"%string names ->
  capitalised name -> ~ In name ["A"; "D"; "Into"; "O"; "S"; "Visitor"]%string ->
  (lookup = true -> forall n, found = FName n -> is_ident n = true) ->
  exists g, compiles_to is_ident md pw lookup found std serde (MkEnum (simple attributes names) name [] ser de) g.
Proof. exact (WholeClaims.simple_compiles is_ident md pw lookup found std serde attributes names name ser de). Qed.
Print Assumptions C77_simple_compiles.
Example C77_simple_compiles_example :
  (forall a, In a commented -> a_path a <> "enumset"%string /\ a_path a <> "repr"%string) /\
  NoDup ["A"; "B"; "C"]%string /\
  capitalised "Enum1" /\
  ~ In "Enum1"%string ["A"; "D"; "Into"; "O"; "S"; "Visitor"]%string /\
  simple commented ["A"; "B"; "C"]%string = MkItem [doc_attr] false true [MkVariant "A" true None; MkVariant "B" true None; MkVariant "C" true None].
Proof. split; [exact commented_fine|]. split; [exact abc_distinct|]. split; [exact capital_Enum1|]. split; [exact unlisted_Enum1|reflexivity]. Qed.


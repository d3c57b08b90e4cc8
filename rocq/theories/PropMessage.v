(** * Properties: the texts of compile errors and warnings, C80 *)
From Coq Require Import Arith.
From Verif Require Import Base Repr Syntax Spec Derive EnumSet Macros Fmt Serde ApiSpec Examples Impls Messages MessageSpec ExtraExamples.
From Verif Require MessageClaims.

(** C80: what a compile error says is the case *)
Theorem C80_error_says md pw inp e sp : derive md pw inp = Ret (Err (e, sp)) -> e <> EReprParse -> Says inp (error_text inp e) sp.
Proof. exact (MessageClaims.error_says md pw inp e sp). Qed.
Print Assumptions C80_error_says.
Example C80_error_says_example :
  derive Debug 64 many_faults = Ret (Err (EFields, SpVariant 1)) /\
  error_text many_faults EFields = "`#[derive(EnumSetType)]` can only be used on fieldless enums."%string /\
  (exists v, nth_error (in_variants many_faults) 1 = Some v /\ vd_unit v = false).
Proof. repeat split; try reflexivity. eexists; split; reflexivity. Qed.

(** C80: a declaration of which one of the texts is true is refused with a text that is true; with its own text if no other is *)
Theorem C80_fault_reported md pw inp t sp : Says inp t sp -> (forall k, nth_error (in_rust_reprs inp) k <> Some None) ->
  exists e sp', derive md pw inp = Ret (Err (e, sp')) /\ Says inp (error_text inp e) sp' /\
    ((forall t' sp', Says inp t' sp' -> t' = t /\ sp' = sp) -> error_text inp e = t /\ sp' = sp).
Proof. exact (MessageClaims.fault_reported md pw inp t sp). Qed.
Print Assumptions C80_fault_reported.
Example C80_fault_reported_example :
  Says (MkInput false true [Some "packed"] plain_attrs [])%string "`#[repr(packed)]` cannot be used on enumset variants." (SpReprAttr 0) /\
  (forall k, nth_error (in_rust_reprs (MkInput false true [Some "packed"] plain_attrs [])%string) k <> Some None) /\
  derive Debug 64 (MkInput false true [Some "packed"] plain_attrs [])%string = Ret (Err (ERustRepr "packed"%string, SpReprAttr 0)).
Proof. split; [apply (Sy_rust_repr _ 0 "packed"%string); [reflexivity|cbn; intuition discriminate]|]. split; [|reflexivity]. intros [|[|k]]; discriminate. Qed.

(** C80: different errors have different texts, and the texts tell the names they are about *)
Theorem C80_texts_distinct inp inp' e e' : error_text inp e = error_text inp' e' -> e <> EReprParse -> e' <> EReprParse ->
  e = e' /\
  (e = EInvalidRepr -> or_empty (at_repr (in_attrs inp)) = or_empty (at_repr (in_attrs inp'))) /\
  (e = EInvalidSerdeRepr -> or_empty (at_serialize_repr (in_attrs inp)) = or_empty (at_serialize_repr (in_attrs inp'))).
Proof. exact (MessageClaims.texts_distinct inp inp' e e'). Qed.
Print Assumptions C80_texts_distinct.
Example C80_texts_distinct_example :
  error_text small (ERustRepr "x"%string) = "`#[repr(x)]` cannot be used on enumset variants."%string /\
  error_text small EDupName <> error_text wide EDupDiscr.
Proof. split; [reflexivity|]. vm_compute. discriminate. Qed.

(** C80: exactly the deprecation warnings that are given, with their texts *)
Theorem C80_warning_says std a t : (exists w, In w (warnings std a) /\ warning_text w = t) <->
  (exists opt v, Uses a opt /\ t = deprecation opt v /\ opt = ("serialize_as_" ++ v)%string) \/
  (std = true /\ t = std_deprecation).
Proof. exact (MessageClaims.warning_says std a t). Qed.
Print Assumptions C80_warning_says.
Example C80_warning_says_example :
  Uses (in_attrs legacy_both) "serialize_as_map" /\
  Uses (in_attrs legacy_both) "serialize_as_list" /\
  map warning_text (warnings false (in_attrs legacy_both)) = [deprecation "serialize_as_map" "map"; deprecation "serialize_as_list" "list"].
Proof. split; [now constructor|]. split; [now constructor|]. reflexivity. Qed.

(** C80: doing what a warning says does not change the generated code *)
Theorem C80_warning_advice md pw inp T std opt v : derive md pw inp = Ret (Ok T) ->
  Uses (in_attrs inp) opt -> (forall opt', Uses (in_attrs inp) opt' -> opt' = opt) -> opt = ("serialize_as_" ++ v)%string ->
  derive md pw (advised inp v) = Ret (Ok T) /\
  forall w, In w (warnings std (in_attrs (advised inp v))) -> w = WStd.
Proof. exact (MessageClaims.warning_advice md pw inp T std opt v). Qed.
Print Assumptions C80_warning_advice.
Example C80_warning_advice_example :
  derive Debug 64 (enum_of (MkAttrs None None false false true) wide_variants) = Ret (Ok MappedT) /\
  Uses (in_attrs (enum_of (MkAttrs None None false false true) wide_variants)) "serialize_as_map" /\
  (forall opt, Uses (in_attrs (enum_of (MkAttrs None None false false true) wide_variants)) opt -> opt = "serialize_as_map"%string) /\
  advised (enum_of (MkAttrs None None false false true) wide_variants) "map" = mapped.
Proof. split; [apply derived_ok; vm_compute; reflexivity|]. split; [now constructor|]. split; [|reflexivity]. intros opt []; [reflexivity|discriminate]. Qed.

(** C80: different warnings have different texts *)
Theorem C80_warnings_distinct w w' : warning_text w = warning_text w' -> w = w'.
Proof. exact (MessageClaims.warnings_distinct w w'). Qed.
Print Assumptions C80_warnings_distinct.
Example C80_warnings_distinct_example :
  warning_text WAsMap <> warning_text WAsList.
Proof. vm_compute. discriminate. Qed.


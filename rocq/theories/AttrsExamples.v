(** * Examples of attributes *)
From Coq Require Import Permutation.
From Verif Require Import Base Syntax Spec Derive Examples Impls CrateName Attrs AttrsSpec.
Open Scope string_scope.

Definition enumset_attr (l : list item) : attribute := MkAttribute "enumset" (AList (Some l) None).
Definition text (n s : string) : item := IMeta n (MValue (EStr s)).
Definition word (n : string) : item := IMeta n MWord.

(** [/// text], [#[enumset(repr = "u16", no_ops)]], [#[repr(C)]],
    [#[enumset(serialize_as_map = "true", no_super_impls = false)]] *)
Definition doc_attr : attribute := MkAttribute "doc" ANameValue.
Definition repr_c : attribute := MkAttribute "repr" (AList (Some [word "C"]) (Some "C")).
Definition spread : list attribute :=
  [doc_attr; enumset_attr [text "repr" "u16"; word "no_ops"]; repr_c;
   enumset_attr [text "serialize_as_map" "true"; IMeta "no_super_impls" (MValue (EBool false))]].
(** The same in one attribute, in another order *)
Definition joint : list attribute :=
  [repr_c; MkAttribute "enumset" AWord;
   enumset_attr [IMeta "no_super_impls" (MValue (EBool false)); text "serialize_as_map" "true"; text "repr" "u16"; word "no_ops"]].
Definition spread_options : options := MkOptions (MkAttrs (Some "u16") None false false true) (MkSwitches true false) None.

(** [#[enumset(repr = "u8", repr = "u16", 5, abc, no_ops = 3)]], [#[enumset = ""]],
    [#[enumset(no_ops, no_super_impls = "yes")]], [#[enumset(;)]] *)
Definition faulty : list attribute :=
  [enumset_attr [text "repr" "u8"; text "repr" "u16"; ILit; word "abc"; IMeta "no_ops" (MValue EOther)];
   MkAttribute "enumset" ANameValue;
   enumset_attr [word "no_ops"; text "no_super_impls" "yes"];
   MkAttribute "enumset" (AList None None)].
Definition its_faults : errors :=
  [((0, Some 1), ADuplicate "repr"); ((0, Some 2), ALiteral); ((0, Some 3), AUnknown "abc"); ((0, Some 4), AValue "no_ops");
   ((1, None), ANoNameValue); ((2, Some 0), ADuplicate "no_ops"); ((2, Some 1), AValue "no_super_impls"); ((3, None), AParse)]%nat.

Definition spread_item : source_item := MkItem spread false true (in_variants small).
Definition faulty_item : source_item := MkItem faulty true false [].
Definition named_item (s : string) : source_item := MkItem [enumset_attr [text "crate_name" s]] false true (in_variants wide).

Lemma fits_flag n m b : In n flag_names -> says m b -> fits n m.
Proof. left. eauto. Qed.
Lemma fits_text n s : In n text_names -> fits n (MValue (EStr s)).
Proof. right. eauto. Qed.
Lemma spread_readable : readable spread.
Proof. intros f [H|[H|[H|[H|[]]]]]; inversion H; subst; right; eauto. Qed.
Lemma joint_readable : readable joint.
Proof. intros f [H|[H|[H|[]]]]; inversion H; subst; [left; reflexivity|right; eauto]. Qed.
Lemma spread_fits : forall it, In it (all_items spread) -> exists name m, it = IMeta name m /\ fits name m.
Proof.
  intros it H. cbn in H. destruct H as [<-|[<-|[<-|[<-|[]]]]]; eexists; eexists; (split; [reflexivity|]).
  - apply fits_text. cbn. auto.
  - apply fits_flag with true; [cbn; auto|constructor].
  - apply fits_flag with true; [cbn; auto 6|constructor].
  - apply fits_flag with false; [cbn; auto|constructor].
Qed.
Lemma spread_joint : Permutation (all_items spread) (all_items joint).
Proof.
  cbn. apply Permutation_trans with (l' := [text "serialize_as_map" "true"; IMeta "no_super_impls" (MValue (EBool false)); text "repr" "u16"; word "no_ops"]).
  - apply (Permutation_app_comm [text "repr" "u16"; word "no_ops"]).
  - apply perm_swap.
Qed.

Definition summary (r : M (result generated compile_error)) : option (string * list trait * list warning) :=
  match r with Ret (Ok g) => Some (g_crate g, g_impls g, g_warnings g) | _ => None end.
Lemma summary_gen r s : summary r = Some s -> exists g, r = Ret (Ok g) /\ (g_crate g, g_impls g, g_warnings g) = s.
Proof.
  unfold summary. destruct r as [[g|]| | |]; try discriminate. intros H. exists g. split; [reflexivity|congruence].
Qed.

(** [#[enumset(no_ops)]], [#[repr(u8)]], [#[repr(C, u8)]] *)
Definition repr_item : source_item :=
  MkItem [enumset_attr [word "no_ops"]; MkAttribute "repr" (AList (Some [word "u8"]) (Some "u8"));
          MkAttribute "repr" (AList (Some [word "C"; word "u8"]) None)] false true (in_variants small).

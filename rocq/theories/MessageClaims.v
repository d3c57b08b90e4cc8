(** * Proofs of the claims about the texts of compile errors *)
From Coq Require Import List String Ascii PeanoNat.
From Verif Require Import Base Syntax Spec ExtraSpec Derive ApiSpec Impls Messages MessageSpec.
From Verif Require DeriveClaims ImplClaims.
Import ListNotations.

Lemma violation_says inp e sp : Violation inp e sp -> e <> EReprParse -> Says inp (error_text inp e) sp.
Proof.
  intros H N. destruct H; try (exfalso; apply N; reflexivity);
    cbn [error_text]; rewrite ?H; cbn [or_empty]; econstructor; eassumption.
Qed.
Lemma says_violation inp t sp : Says inp t sp -> exists e, Violation inp e sp /\ e <> EReprParse /\ error_text inp e = t.
Proof.
  intros H. destruct H; eexists; (split; [econstructor; eassumption|]);
    (split; [discriminate|]); cbn [error_text]; rewrite ?H; reflexivity.
Qed.

Lemma error_says md pw inp e sp : derive md pw inp = Ret (Err (e, sp)) -> e <> EReprParse -> Says inp (error_text inp e) sp.
Proof. intros H. apply violation_says. apply (DeriveClaims.first_error md pw inp e sp) in H. tauto. Qed.

Lemma fault_reported md pw inp t sp : Says inp t sp -> (forall k, nth_error (in_rust_reprs inp) k <> Some None) ->
  exists e sp', derive md pw inp = Ret (Err (e, sp')) /\ Says inp (error_text inp e) sp' /\
    ((forall t' sp', Says inp t' sp' -> t' = t /\ sp' = sp) -> error_text inp e = t /\ sp' = sp).
Proof.
  intros H K. destruct (says_violation _ _ _ H) as (e & V & _ & _).
  destruct (DeriveClaims.violation_rejected md pw inp e sp V) as (_ & [e' sp'] & D).
  assert (W : Says inp (error_text inp e') sp').
  { apply (error_says md pw _ _ _ D). intros ->.
    apply (DeriveClaims.first_error md pw inp) in D. destruct D as [D _]. inversion D; subst. eapply K; eassumption. }
  exists e', sp'. split; [exact D|]. split; [exact W|]. intros U. apply (U _ _ W).
Qed.

(** The last characters of a text, in reverse *)
Definition ending (s : string) : list ascii := firstn 18 (rev (list_ascii_of_string s)).
Lemma list_append a b : list_ascii_of_string (a ++ b)%string = (list_ascii_of_string a ++ list_ascii_of_string b)%list.
Proof. induction a as [|c a IH]; [reflexivity|]. cbn [append list_ascii_of_string app]. now rewrite IH. Qed.
Lemma append_cancel_r a b s : (a ++ s = b ++ s)%string -> a = b.
Proof.
  intros H. apply (f_equal list_ascii_of_string) in H. rewrite !list_append in H. apply app_inv_tail in H.
  rewrite <- (string_of_list_ascii_of_string a), <- (string_of_list_ascii_of_string b). now rewrite H.
Qed.
Lemma ending_append a b : (18 <= length (list_ascii_of_string b))%nat -> ending (a ++ b)%string = ending b.
Proof.
  intros H. unfold ending. rewrite list_append, rev_app_distr, firstn_app, rev_length.
  replace (18 - length (list_ascii_of_string b))%nat with 0%nat by (symmetry; apply PeanoNat.Nat.sub_0_le; exact H).
  cbn [firstn]. now rewrite app_nil_r.
Qed.
Definition fixed_ending (e : derive_error) : list ascii :=
  match e with
  | ERustRepr _ => ending ")]` cannot be used on enumset variants."
  | EInvalidRepr => ending "` is not a valid internal enumset representation."
  | EInvalidSerdeRepr => ending "` is not a valid serialized representation."
  | _ => ending (error_text (MkInput false true [] (MkAttrs None None false false false) []) e)
  end.
Lemma text_ending inp e : ending (error_text inp e) = fixed_ending e.
Proof.
  destruct e; try reflexivity; unfold fixed_ending; cbn [error_text]; rewrite 2!ending_append;
    first [reflexivity|rewrite ?list_append, ?app_length; cbn [list_ascii_of_string length]; apply Nat.le_trans with (2 := Nat.le_add_l _ _); vm_compute; repeat constructor|vm_compute; repeat constructor].
Qed.
Lemma texts_distinct inp inp' e e' : error_text inp e = error_text inp' e' -> e <> EReprParse -> e' <> EReprParse ->
  e = e' /\
  (e = EInvalidRepr -> or_empty (at_repr (in_attrs inp)) = or_empty (at_repr (in_attrs inp'))) /\
  (e = EInvalidSerdeRepr -> or_empty (at_serialize_repr (in_attrs inp)) = or_empty (at_serialize_repr (in_attrs inp'))).
Proof.
  intros H N N'.
  assert (F : fixed_ending e = fixed_ending e') by (rewrite <- (text_ending inp e), <- (text_ending inp' e'); now rewrite H).
  destruct e, e'; try (exfalso; apply N; reflexivity); try (exfalso; apply N'; reflexivity);
    try (exfalso; vm_compute in F; discriminate F); try (exfalso; vm_compute in H; discriminate H);
    try (split; [reflexivity|split; discriminate]).
  all: cbn [error_text] in H; cbn [append] in H; injection H as H; apply append_cancel_r in H;
    (split; [first [reflexivity|now rewrite H]|]); split; intros D; try discriminate D; exact H.
Qed.
Lemma warnings_distinct w w' : warning_text w = warning_text w' -> w = w'.
Proof. destruct w, w'; intros H; try reflexivity; vm_compute in H; discriminate H. Qed.

Lemma warning_says std a t : (exists w, In w (warnings std a) /\ warning_text w = t) <->
  (exists opt v, Uses a opt /\ t = deprecation opt v /\ opt = ("serialize_as_" ++ v)%string) \/
  (std = true /\ t = std_deprecation).
Proof.
  split.
  - intros (w & Hw & <-). destruct (ImplClaims.warnings_given std a) as [_ H]. apply H in Hw. destruct w.
    + left. exists "serialize_as_map"%string, "map"%string. split; [now constructor|split; reflexivity].
    + left. exists "serialize_as_list"%string, "list"%string. split; [now constructor|split; reflexivity].
    + right. split; [exact Hw|reflexivity].
  - intros [(opt & v & Hu & -> & E)|[Hs ->]].
    + destruct Hu; cbn [append] in E; injection E as <-.
      * exists WAsMap. split; [apply (ImplClaims.warnings_given std a); assumption|reflexivity].
      * exists WAsList. split; [apply (ImplClaims.warnings_given std a); assumption|reflexivity].
    + exists WStd. split; [apply (ImplClaims.warnings_given std a); assumption|reflexivity].
Qed.
Lemma warning_advice md pw inp T std opt v : derive md pw inp = Ret (Ok T) ->
  Uses (in_attrs inp) opt -> (forall opt', Uses (in_attrs inp) opt' -> opt' = opt) -> opt = ("serialize_as_" ++ v)%string ->
  derive md pw (advised inp v) = Ret (Ok T) /\
  forall w, In w (warnings std (in_attrs (advised inp v))) -> w = WStd.
Proof.
  intros D U Only E.
  assert (M : modernised inp = advised inp v).
  { unfold modernised, advised. destruct U as [H|H]; cbn [append] in E; injection E as <-.
    - destruct (at_as_list (in_attrs inp)) eqn:L; [specialize (Only _ (Us_list _ L)); discriminate Only|]. now rewrite H.
    - now rewrite H. }
  rewrite <- M. apply (ImplClaims.advice_harmless md pw inp T std D).
Qed.

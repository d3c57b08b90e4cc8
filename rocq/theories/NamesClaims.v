(** * Claims about names in the generated code *)
From Coq Require Import Ascii.
From Verif Require Import Base BaseFacts Syntax Spec Derive DeriveFacts TyFacts SerdeFacts Impls Names NamesSpec NamesFacts.
From Verif Require DeriveClaims.
Local Open Scope string_scope.
Local Open Scope list_scope.

Lemma i_count inp i : InfoOk inp i -> length (i_variants i) = length (in_variants inp).
Proof.
  intros H. rewrite (io_variants _ _ H), combine_length, discrs_length. unfold names. rewrite map_length. lia.
Qed.
Lemma sr_is_name md inp i : derive_info md inp = Ret (Ok i) -> serialize_name inp = DeriveClaims.sr_name (serde_repr_of i).
Proof.
  intros H. destruct (@derive_info_spec md inp) as (r & E & Hr). rewrite H in E. inversion E; subst. destruct Hr as [HW Hi].
  rewrite (serde_repr_chosen _ _ Hi). unfold serialize_name, serde_chosen, serde_attr.
  destruct (serialize_choice (in_attrs inp)) as [s|] eqn:Es.
  - assert (Hs : exists r, sr_of_name s = Some r).
    { assert (Hin : In s serialize_repr_names).
      { unfold serialize_choice in Es. destruct (at_as_list (in_attrs inp)); [inversion Es; unfold serialize_repr_names; cbn; tauto|].
        destruct (at_as_map (in_attrs inp)); [inversion Es; unfold serialize_repr_names; cbn; tauto|].
        now apply (wf_serialize_repr _ HW). }
      unfold serialize_repr_names in Hin. cbn [In] in Hin.
      repeat (destruct Hin as [<-|Hin]; [eexists; reflexivity|]). destruct Hin. }
    destruct Hs as [r Hr]. rewrite Hr. symmetry. now apply DeriveClaims.sr_name_inv.
  - destruct (max_discr inp <? 8)%N, (max_discr inp <? 16)%N, (max_discr inp <? 32)%N, (max_discr inp <? 64)%N, (max_discr inp <? 128)%N; reflexivity.
Qed.
Lemma storage_spoils inp i s : WellFormed inp -> InfoOk inp i ->
  In (UOutside s) (repr_uses (internal_repr_of i)) <-> exists b, storage_of inp = SInt b /\ name_bits s = Some b.
Proof.
  intros HW Hi. rewrite repr_spoils, (internal_repr_chosen _ _ Hi). pose proof (DeriveClaims.chosen_storage inp HW) as Hc.
  destruct (storage_of inp) as [b|n].
  - destruct (chosen inp); try contradiction; subst b; split; try (now eauto); intros (b & [= <-] & ->); reflexivity.
  - rewrite Hc. split; [tauto|]. intros (b & [=] & _).
Qed.
Lemma storage_words_spoils inp i : WellFormed inp -> InfoOk inp i ->
  match internal_repr_of i with IArray _ => True | _ => False end <-> exists n, storage_of inp = SWords n.
Proof.
  intros HW Hi. rewrite (internal_repr_chosen _ _ Hi). pose proof (DeriveClaims.chosen_storage inp HW) as Hc.
  destruct (storage_of inp) as [b|n].
  - split; [|now intros [? [=]]]. destruct (chosen inp); tauto.
  - rewrite Hc. split; eauto.
Qed.

Theorem captured_names md serde o inp i name : derive_info md inp = Ret (Ok i) ->
  (Forall (right name) (generated_uses serde o i) <-> ~ Captured serde o inp name).
Proof.
  intros H. destruct (@derive_info_spec md inp) as (r & E & Hr). rewrite H in E. inversion E; subst. destruct Hr as [HW Hi].
  rewrite (all_right _ _ (all_sound serde o i)).
  transitivity (~ spoilt (generated_uses serde o i) name).
  { unfold spoilt. rewrite Exists_exists. split; [intros Hn (p & Hp & Hs)|intros Hn p Hp Hs]; eauto. eapply Hn; eauto. }
  apply not_iff_compat. rewrite all_spoilt, (i_count _ _ Hi), (storage_spoils _ _ _ HW Hi), (storage_words_spoils _ _ HW Hi), serde_spoils.
  pose proof (sr_is_name _ _ _ H) as Hn. unfold is_int.
  split.
  - intros [->|[->|[(b & Hb & Hb')|[(L & [->|Hint])|[(-> & Hs)|[(Ho & ->)|[(Ho & Hs)|(-> & n & Hs)]]]]]]].
    + constructor.
    + constructor.
    + now apply cap_storage with b.
    + apply cap_bool. auto.
    + destruct (name_bits name) as [b|] eqn:Eb; [|tauto]. now apply cap_int with b.
    + destruct Hs as [->|[->|Hs]]; [now constructor..|].
      assert (HI : (name = serialize_name inp \/ In (UOutside name) (repr_uses (internal_repr_of i))) ->
                   name_bits (serialize_name inp) <> None -> Captured true o inp name).
      { intros [->|Hx] Hb.
        - destruct (name_bits (serialize_name inp)) as [b|] eqn:Eb; [|tauto]. now apply cap_serialized with b.
        - apply (storage_spoils _ _ _ HW Hi) in Hx. destruct Hx as (b & Hb1 & Hb2). now apply cap_storage with b. }
      rewrite Hn in HI.
      destruct (serde_repr_of i); cbn [DeriveClaims.sr_name] in *; try (apply HI; [assumption|now vm_compute]);
        unfold by_items in *;
        repeat (destruct Hs as [->|Hs]); try subst name.
      all: try (apply cap_access || apply cap_visitor); try reflexivity; unfold by_items; rewrite ?Hn; cbn [In]; auto.
      * apply cap_bool. rewrite Hn. auto.
      * now apply cap_words.
    + apply cap_bool. auto.
    + destruct Hs as [->|[->| ->]]; [now constructor..|]. apply cap_bool. auto.
    + now apply cap_usize with n.
  - intros C. destruct C as [|Ho|Ho|Hs|Hs|Hs Hb|Hs Hb| |s b Hb Hb'|s b L Hb|s b Hs Hse Hb|Hs Hse|n Hs|Hb].
    + auto.
    + do 6 right. left. auto.
    + do 6 right. left. auto.
    + do 4 right. left. auto.
    + do 4 right. left. auto.
    + do 4 right. left. split; [assumption|]. unfold by_items in Hb. rewrite Hn in Hb. cbn [In] in Hb.
      destruct (serde_repr_of i); cbn [DeriveClaims.sr_name] in Hb; intuition discriminate.
    + do 4 right. left. split; [assumption|]. unfold by_items in Hb. rewrite Hn in Hb. cbn [In] in Hb.
      destruct (serde_repr_of i); cbn [DeriveClaims.sr_name] in Hb; intuition discriminate.
    + auto.
    + do 2 right. left. eauto.
    + do 3 right. left. split; [assumption|]. right. congruence.
    + do 4 right. left. split; [assumption|]. do 2 right. rewrite Hn in Hse. subst s.
      destruct (serde_repr_of i); cbn [DeriveClaims.sr_name] in *; try discriminate; auto.
    + do 4 right. left. split; [assumption|]. do 2 right. rewrite Hn in Hse.
      destruct (serde_repr_of i); cbn [DeriveClaims.sr_name] in *; try discriminate; auto.
    + do 7 right. eauto.
    + destruct Hb as [L|[Ho|[Ho|[Hs Hse]]]].
      * do 3 right. left. auto.
      * do 6 right. left. auto.
      * do 5 right. left. auto.
      * do 4 right. left. split; [assumption|]. do 2 right. rewrite Hn in Hse.
        destruct (serde_repr_of i); cbn [DeriveClaims.sr_name] in *; try discriminate; auto.
Qed.

Lemma int_not_capitalised s b : name_bits s = Some b -> ~ capitalised s.
Proof.
  intros H (c & r & -> & j & Hj).
  assert (Hc : c = "u"%char).
  { revert H. unfold name_bits. DeriveFacts.str_cases; try discriminate; congruence. }
  subst c. do 26 (destruct j as [|j]; [discriminate|]). discriminate.
Qed.
Ltac not_capital := intros (? & ? & E & j & Hj); injection E as <- <-; do 26 (destruct j as [|j]; [discriminate|]); discriminate.
Theorem type_names md serde o inp i name : derive_info md inp = Ret (Ok i) -> capitalised name ->
  (Forall (right name) (generated_uses serde o i) <->
   ~ (sw_no_ops o = false /\ In name ["O"; "Into"]%string \/
      serde = true /\ In name ["S"; "D"]%string \/
      serde = true /\ by_items inp /\ In name ["A"; "Visitor"]%string)).
Proof.
  intros H Hc. rewrite (captured_names md serde o inp i name H). apply not_iff_compat. split.
  - intros C. destruct C as [|Ho|Ho|Hs|Hs|Hs Hb|Hs Hb| |s b Hb Hb'|s b L Hb|s b Hs Hse Hb|Hs Hse|n Hs|Hb]; cbn [In]; auto 10.
    all: exfalso; revert Hc; try (eapply int_not_capitalised; eassumption); not_capital.
  - cbn [In]. intros [(Ho & [<-|[<-|[]]])|[(Hs & [<-|[<-|[]]])|(Hs & Hb & [<-|[<-|[]]])]]; now constructor.
Qed.
Corollary ordinary_names md serde o inp i name : derive_info md inp = Ret (Ok i) -> capitalised name ->
  ~ In name ["A"; "D"; "Into"; "O"; "S"; "Visitor"]%string -> Forall (right name) (generated_uses serde o i).
Proof.
  intros H Hc Hn. apply (type_names md serde o inp i name H Hc). cbn [In] in *. tauto.
Qed.

Lemma clear_plain variants : clear variants plain_block.
Proof. intros x []. Qed.
Theorem variant_names o i variants :
  Forall (clear variants) (impl_blocks o i) <->
  ~ In "Repr"%string variants /\ (sw_no_ops o = false -> ~ In "Output"%string variants).
Proof.
  assert (Hr : clear variants (MkBlock ["ConstHelper"; "Repr"] ["Repr"]) <-> ~ In "Repr" variants).
  { split; [intros H; apply (H "Repr"); now left|]. intros H x [<-|[]]. split; [right; now left|assumption]. }
  assert (Ho : clear variants op_block <-> ~ In "Output" variants).
  { split; [intros H; apply (H "Output"); now left|]. intros H x [<-|[]]. split; [now left|assumption]. }
  pose proof (clear_plain variants) as Hp.
  assert (Hw : clear variants (MkBlock ["Repr"] [])) by (intros x []).
  unfold impl_blocks. rewrite !Forall_app. split.
  - intros (H1 & _ & _ & H2 & _). inversion H1 as [|? ? _ H3]; subst. inversion H3 as [|? ? H4 _]; subst.
    split; [exact (proj1 Hr H4)|]. intros E. rewrite E in H2. apply Forall_app in H2. destruct H2 as [H2 _]. inversion H2. now apply (proj1 Ho).
  - intros [H1 H2]. split; [|split; [|split; [|split]]].
    + apply (proj2 Hr) in H1. auto.
    + destruct (i_explicit_internal i); auto.
    + destruct (sw_no_super_impls o); [auto|]. apply Forall_forall. intros b Hb. apply repeat_spec in Hb. now subst.
    + destruct (sw_no_ops o); [auto|]. apply Forall_app. split; [|auto]. apply Forall_forall. intros b Hb. apply repeat_spec in Hb.
      subst. apply (proj2 Ho). auto.
    + auto.
Qed.

(** * Claims about the serialization options, C76 *)
From Verif Require Import Base BaseFacts LimbFacts Prim ArrayRepr Repr ReprLaws PrimFacts ArrayFacts.
From Verif Require Import Syntax Spec Derive EnumSet Serde ApiSpec DeriveFacts TyFacts SetFacts ConvFacts SerdeFacts ReachFacts.
From Verif Require Import SerdeClaims DeriveClaims Impls Names HistorySpec History HistoryFacts HistoryClaims OptionSpec.
Ltac Zify.zify_post_hook ::= Z.div_mod_to_equations.

Lemma well_formed_with inp ser deny l m : WellFormed inp ->
  (WellFormed (with_serialization inp ser deny l m) <->
   (forall s, ser = Some s -> In s serialize_repr_names) /\
   name_fits inp (if l then Some "list" else if m then Some "map" else ser)%string).
Proof.
  intros []. split.
  - intros []. now split.
  - intros [H1 H2]. now constructor.
Qed.

Lemma info_with {md inp i ser deny l m i'} : derive_info md inp = Ret (Ok i) ->
  derive_info md (with_serialization inp ser deny l m) = Ret (Ok i') ->
  i_explicit_internal i' = i_explicit_internal i /\ i_force_array i' = i_force_array i /\
  i_variants i' = i_variants i /\ i_max_discrim i' = i_max_discrim i /\ i_deny_unknown i' = deny.
Proof.
  intros E E'. destruct (@derive_info_spec md inp) as (r & Er & Hr). rewrite E in Er. inversion Er; subst r.
  destruct (@derive_info_spec md (with_serialization inp ser deny l m)) as (r & Er' & Hr'). rewrite E' in Er'. inversion Er'; subst r.
  destruct Hr as [_ [A1 A2 A3 A4 A5 A6 A7]], Hr' as [_ [B1 B2 B3 B4 B5 B6 B7]].
  rewrite A1, A2, A5, A6, B1, B2, B5, B6. repeat split. exact B4.
Qed.
Lemma derive_split {md pw inp T} : derive md pw inp = Ret (Ok T) ->
  exists i, derive_info md inp = Ret (Ok i) /\ enum_set_type_impl md pw i (in_variants inp) = Ret T.
Proof.
  unfold derive. destruct (derive_info md inp) as [[i|e]|p| |]; cbn [bind try_]; try discriminate.
  intros H. exists i. split; [reflexivity|].
  destruct (enum_set_type_impl md pw i (in_variants inp)) as [t|p| |]; cbn [bind] in H; congruence.
Qed.
Lemma variant_map_with md i i' : i_variants i' = i_variants i -> variant_map md i' = variant_map md i.
Proof. intros E. unfold variant_map. now rewrite E. Qed.
Lemma impl_with md pw i i' decls T : enum_set_type_impl md pw i decls = Ret T ->
  i_explicit_internal i' = i_explicit_internal i -> i_force_array i' = i_force_array i ->
  i_variants i' = i_variants i -> i_max_discrim i' = i_max_discrim i ->
  enum_set_type_impl md pw i' decls = Ret (reserialized T (serde_repr_of i') (i_deny_unknown i')).
Proof.
  intros E H1 H2 H3 H4. unfold enum_set_type_impl in *. rewrite (variant_map_with md i i' H3).
  assert (Hi : internal_repr_of i' = internal_repr_of i) by (unfold internal_repr_of; now rewrite H1, H2, H4).
  rewrite Hi. destruct (variant_map md i) as [vm|p| |]; cbn [bind] in *; try discriminate.
  destruct (internal_repr_of i) as [| | | | |size];
    try (destruct (get vm 0) as [l|p| |]; cbn [bind] in *; try discriminate).
  5: match type of E with bind ?m _ = _ => destruct m as [hi|p| |]; cbn [bind] in *; try discriminate end.
  all: inversion E; subst T; unfold prim_ty, array_ty, reserialized; cbn; now rewrite H1, H3, H4.
Qed.

Lemma violation_with inp ser deny l m e sp : WellFormed inp -> Violation (with_serialization inp ser deny l m) e sp ->
  e = EInvalidSerdeRepr /\ sp = SpSerializeRepr \/ e = ESerdeSmall.
Proof.
  intros HW V.
  destruct V; auto; exfalso; refine (wf_no_violation inp _ _ HW _); cbn [with_serialization in_attrs at_repr in_variants] in *.
  - eapply V_generic; eassumption.
  - eapply V_not_enum; eassumption.
  - eapply V_repr_parse; eassumption.
  - eapply V_rust_repr; eassumption.
  - eapply V_repr; eassumption.
  - eapply (V_name inp i j); eassumption.
  - eapply (V_fields inp k); eassumption.
  - eapply (V_u32 inp k v); eassumption.
  - eapply (V_neg inp k); eassumption.
  - eapply (V_literal inp k); eassumption.
  - eapply (V_max inp k d); eassumption.
  - eapply (V_discr inp i j); eassumption.
  - eapply (V_repr_small inp s b k); eassumption.
Qed.

Lemma options_checked md pw inp T ser deny as_list as_map : derive md pw inp = Ret (Ok T) ->
  let inp' := with_serialization inp ser deny as_list as_map in
  let choice := (if as_list then Some "list" else if as_map then Some "map" else ser)%string in
  (forall s, ser = Some s -> ~ In s serialize_repr_names ->
     derive md pw inp' = Ret (Err (EInvalidSerdeRepr, SpSerializeRepr))) /\
  ((forall s, ser = Some s -> In s serialize_repr_names) -> ~ name_fits inp choice ->
     exists k, nth_error (discrs inp) k = Some (max_discr inp) /\ derive md pw inp' = Ret (Err (ESerdeSmall, SpVariant k))) /\
  ((forall s, ser = Some s -> In s serialize_repr_names) -> name_fits inp choice ->
     exists r, derive md pw inp' = Ret (Ok (reserialized T r deny))).
Proof.
  intros HT inp' choice.
  assert (HW : WellFormed inp).
  { destruct (derive_total md pw inp) as (r & E & Hw & _). rewrite HT in E. inversion E; subst r. apply Hw. eauto. }
  assert (HI := well_formed_with inp ser deny as_list as_map HW). fold inp' choice in HI.
  destruct (derive_total md pw inp') as (r & E & Hw & He). split; [|split].
  - intros s Es Hn.
    apply first_error. split; [now apply (V_serialize_repr inp' s)|].
    intros e' sp' V. destruct (violation_with _ _ _ _ _ _ _ HW V) as [[-> ->]| ->]; [now left|right; left; cbn; lia].
  - intros Hk Hn. destruct r as [T'|[e sp]]; [exfalso; apply Hn; exact (proj2 (proj1 HI (proj1 Hw (ex_intro _ T' eq_refl))))|].
    assert (V := He e sp eq_refl). rewrite E.
    destruct (violation_with _ _ _ _ _ _ _ HW V) as [[-> ->]| ->]; inversion V; subst.
    + exfalso. eauto.
    + exists k. now split.
  - intros Hk Hn. assert (HW' := proj2 Hw (proj2 HI (conj Hk Hn))). destruct HW' as [T' ->].
    destruct (derive_split HT) as (i & E1 & E2). destruct (derive_split E) as (i' & E1' & E2').
    destruct (info_with E1 E1') as (H1 & H2 & H3 & H4 & H5).
    exists (serde_repr_of i'). rewrite E. do 2 f_equal.
    change (in_variants inp') with (in_variants inp) in E2'.
    rewrite (impl_with md pw i i' (in_variants inp) T E2 H1 H2 H3 H4) in E2'. inversion E2'. now rewrite H5.
Qed.

(** What else is generated does not depend on the options either. *)
Lemma options_generated md inp i ser deny as_list as_map i' o : derive_info md inp = Ret (Ok i) ->
  derive_info md (with_serialization inp ser deny as_list as_map) = Ret (Ok i') ->
  generated_impls o i' = generated_impls o i /\ generated_uses false o i' = generated_uses false o i /\
  impl_blocks o i' = impl_blocks o i.
Proof.
  intros E E'. destruct (info_with E E') as (H1 & H2 & H3 & H4 & H5).
  assert (Hi : internal_repr_of i' = internal_repr_of i) by (unfold internal_repr_of; now rewrite H1, H2, H4).
  repeat split.
  - unfold generated_impls, with_repr_impls. now rewrite H1.
  - unfold generated_uses, into_uses, with_repr_uses, super_uses, inherent_uses. now rewrite Hi, H1, H3.
  - unfold impl_blocks. now rewrite H1.
Qed.

(** ** Programs *)
Lemma unserialized_step pw inp inp' c ast : discrs inp = discrs inp' -> storage_of inp = storage_of inp' ->
  ~ uses_serde c -> a_step pw inp c ast = a_step pw inp' c ast.
Proof.
  intros Hv Hst Hs. assert (Ed := same_discr inp inp' Hv).
  destruct c; try (now destruct (Hs I)); cbn [a_step];
    rewrite ?(same_call inp inp' Hv), ?(same_known inp inp' Hv), ?(same_bits inp inp' Hv), ?Ed, ?(same_size inp inp' Hv),
      ?(same_all inp inp' Hv), ?(same_fits inp inp' Hv), ?(same_value inp inp' Hv), ?(same_words inp inp' Hv),
      ?(same_elements inp inp' Hv), ?Hst; try reflexivity;
    try (destruct (storage_of inp'); now rewrite ?(same_words inp inp' Hv)).
  - now rewrite (same_count inp inp' Hv).
  - unfold max_discr. now rewrite Hv.
Qed.
Lemma options_unseen pw inp T inp' T' n prog : Supported pw inp T -> Supported pw inp' T' ->
  discrs inp = discrs inp' -> storage_of inp = storage_of inp' ->
  calls pw inp (fun c => cmd_ok pw inp c /\ ~ uses_serde c) n prog ->
  play T n prog [] (c_init T) = play T' n prog [] (c_init T').
Proof.
  intros HS HS' Hv Hst Hall.
  assert (Hok : calls pw inp (cmd_ok pw inp) n prog) by (eapply a_calls_weaken; [|exact Hall]; now intros c (H & _)).
  assert (Hok' : calls pw inp' (cmd_ok pw inp') n prog).
  { eapply (a_calls_same pw inp pw inp'); [|exact Hall]. intros c ast (H1 & H2).
    split; [apply (same_ok pw inp inp' Hv); auto|now apply unserialized_step]. }
  rewrite (program_refines pw inp T n prog HS Hok), (program_refines pw inp' T' n prog HS' Hok').
  eapply a_play_same; [|exact Hall]. intros c ast (H1 & H2). now apply unserialized_step.
Qed.
Lemma denial_unseen pw inp T inp' T' n prog : Supported pw inp T -> Supported pw inp' T' ->
  discrs inp = discrs inp' -> storage_of inp = storage_of inp' -> serialize_name inp = serialize_name inp' ->
  serde_usable inp' ->
  calls pw inp (fun c => cmd_ok pw inp c /\ ~ deserializes c) n prog ->
  play T n prog [] (c_init T) = play T' n prog [] (c_init T').
Proof.
  intros HS HS' Hv Hst Hn Hu Hall.
  assert (HE : forall c ast, ~ deserializes c -> a_step pw inp c ast = a_step pw inp' c ast).
  { intros c ast Hd. assert (Hc : uses_serde c \/ ~ uses_serde c) by (destruct c; cbn; auto).
    destruct Hc as [Hc|Hc]; [|now apply unserialized_step].
    destruct c; cbn [uses_serde deserializes] in *; try contradiction. cbn [a_step].
    do 3 f_equal. unfold a_serialize, words_written. cbv zeta.
    now rewrite Hn, !(same_words inp inp' Hv), (same_value inp inp' Hv), (same_size inp inp' Hv), (same_elements inp inp' Hv), Hst. }
  assert (Hok : calls pw inp (cmd_ok pw inp) n prog) by (eapply a_calls_weaken; [|exact Hall]; now intros c (H & _)).
  assert (Hok' : calls pw inp' (cmd_ok pw inp') n prog).
  { eapply (a_calls_same pw inp pw inp'); [|exact Hall]. intros c ast (H1 & H2). split; [|now apply HE].
    assert (Hc : uses_serde c \/ ~ uses_serde c) by (destruct c; cbn; auto).
    destruct Hc as [Hc|Hc]; [|now apply (same_ok pw inp inp' Hv)].
    destruct c; cbn [uses_serde deserializes cmd_ok] in *; try contradiction. assumption. }
  rewrite (program_refines pw inp T n prog HS Hok), (program_refines pw inp' T' n prog HS' Hok').
  eapply a_play_same; [|exact Hall]. intros c ast (H1 & H2). now apply HE.
Qed.

(** ** [serialize_deny_unknown] *)
Lemma denial_restricts pw inp T inp' T' src : Supported pw inp T -> Supported pw inp' T' ->
  discrs inp = discrs inp' -> serialize_name inp = serialize_name inp' ->
  at_deny_unknown (in_attrs inp) = true -> at_deny_unknown (in_attrs inp') = false ->
  serde_compiles T = true -> SourceOk pw inp src ->
  (exists s s' A, es_deserialize T src = Ret (Ok s) /\ es_deserialize T' src = Ret (Ok s') /\
     Denotes inp T s A /\ Denotes inp' T' s' A) \/
  (exists e, es_deserialize T src = Ret (Err e) /\ es_deserialize T' src = Ret (Err e)) \/
  (exists t x s', sr_ity (et_serde T) = Some t /\ src_int src t = Ok x /\ ~ only_variant_bits inp x /\
     es_deserialize T src = Ret (Err (DeCustom "enumset contains unknown bits")) /\
     es_deserialize T' src = Ret (Ok s') /\ Denotes inp' T' s' (bits_set inp x)).
Proof.
  intros HS HS' Hv Hn Hd Hd' HC HO.
  assert (Er : et_serde T' = et_serde T).
  { rewrite (named HS), (named HS') in Hn. clear - Hn. destruct (et_serde T), (et_serde T'); reflexivity || discriminate Hn. }
  assert (HC' : serde_compiles T' = true).
  { destruct (sup_derive _ _ _ HS') as [md Hmd]. pose proof (compiles md pw inp' T' Hmd) as H.
    destruct (serde_compiles T'); [reflexivity|]. destruct (proj1 H eq_refl) as [H' _]. congruence. }
  assert (HO' : SourceOk pw inp' src).
  { destruct HO as [O1 O2 O3 O4]. constructor; auto.
    - intros items v E Hin. rewrite <- (same_variant inp inp' Hv). eauto.
    - intros items v b E Hin. rewrite <- (same_variant inp inp' Hv). eauto. }
  assert (HT := denied HS). assert (HT' := denied HS'). rewrite Hd in HT. rewrite Hd' in HT'.
  destruct (sr_ity (et_serde T)) as [t|] eqn:Et.
  - pose proof (int_input pw inp T t src HS Et HC) as H. assert (Et' : sr_ity (et_serde T') = Some t) by now rewrite Er.
    pose proof (int_input pw inp' T' t src HS' Et' HC') as H'.
    destruct (src_int src t) as [x|e] eqn:Ex; [|right; left; exists e; exact (conj H H')].
    specialize (H (so_int _ _ _ HO t x Ex)). specialize (H' (so_int _ _ _ HO t x Ex)).
    destruct H' as [_ H']. destruct (H' (or_introl HT')) as (s' & E' & D'). rewrite <- (same_bits inp inp' Hv) in D'.
    destruct (unknown_bits (inp := inp) x) eqn:Eu.
    + right. right. assert (Hx : ~ only_variant_bits inp x) by (intros Hx; apply unknown_bits_spec in Hx; congruence).
      exists t, x, s'. exact (conj eq_refl (conj Ex (conj Hx (conj (proj1 H HT Hx) (conj E' D'))))).
    + apply unknown_bits_spec in Eu. left. destruct H as [_ H]. destruct (H (or_intror Eu)) as (s & E & D).
      exists s, s', (bits_set inp x). exact (conj E (conj E' (conj D D'))).
  - destruct (et_serde T) eqn:Es; try discriminate Et.
    + pose proof (list_input pw inp T src HS HO Es) as H. pose proof (list_input pw inp' T' src HS' HO' Er) as H'.
      destruct (src_list src) as [items|e]; [|right; left; exists e; exact (conj H H')]. destruct (all_ok items) as [vs|e]; [|right; left; exists e; exact (conj H H')].
      destruct H as (s & E & D), H' as (s' & E' & D'). left. exists s, s'. eexists. exact (conj E (conj E' (conj D D'))).
    + pose proof (map_input pw inp T src HS HO Es) as H. pose proof (map_input pw inp' T' src HS' HO' Er) as H'.
      destruct (src_map src) as [items|e]; [|right; left; exists e; exact (conj H H')]. destruct (all_ok items) as [vs|e]; [|right; left; exists e; exact (conj H H')].
      destruct H as (s & E & D), H' as (s' & E' & D'). left. exists s, s'. eexists. exact (conj E (conj E' (conj D D'))).
    + unfold serde_compiles in HC. rewrite HT, Es in HC. discriminate HC.
Qed.

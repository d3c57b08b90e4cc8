(** * Claims about the cargo features *)
From Verif Require Import Base Syntax Spec ExtraSpec Derive EnumSet Serde Impls CrateName Attrs AttrsSpec Names NamesSpec Whole WholeSpec Features.
From Verif Require AttrsClaims WholeClaims.

Lemma on_iff fs x : on fs x = true <-> exists f, In f fs /\ turns_on f x = true.
Proof. unfold on. apply existsb_exists. Qed.
Lemma on_lookup fs : on fs DeriveLookup = true <-> In FProcMacroCrate fs \/ In FStd fs.
Proof.
  rewrite on_iff. split.
  - intros ([] & Hf & Hx); cbn in Hx; try discriminate; auto.
  - intros [H|H]; eexists; (split; [exact H|]); cbn; auto.
Qed.
Lemma on_std fs : on fs DeriveStdWarning = true <-> In FStd fs.
Proof.
  rewrite on_iff. split.
  - intros ([] & Hf & Hx); cbn in Hx; try discriminate; auto.
  - intros H; eexists; (split; [exact H|]); cbn; auto.
Qed.
Lemma on_serde fs x : x = DeriveSerde \/ x = OwnSerde -> on fs x = true <-> In FSerde fs.
Proof.
  intros X. rewrite on_iff. split.
  - intros ([] & Hf & Hx); destruct X; subst x; cbn in Hx; try discriminate; auto.
  - intros H; eexists; (split; [exact H|]); destruct X; subst x; cbn; auto.
Qed.
Lemma on_alloc fs : on fs OwnAlloc = true <-> In FAlloc fs \/ In FStd fs.
Proof.
  rewrite on_iff. split.
  - intros ([] & Hf & Hx); cbn in Hx; try discriminate; auto.
  - intros [H|H]; eexists; (split; [exact H|]); cbn; auto.
Qed.
Lemma on_incl fs gs x : incl fs gs -> on fs x = true -> on gs x = true.
Proof. rewrite !on_iff. intros H (f & Hf & Hx). exists f. auto. Qed.

(** ** C82 *)
Lemma features_fit fs :
  serde_available fs /\ impl_matches fs /\
  (has_to_vec fs = true <-> In FAlloc fs \/ In FStd fs) /\ (has_serde fs = true <-> In FSerde fs).
Proof.
  split; [|split; [|split]].
  - intros H. apply on_serde in H; [|auto]. apply on_iff. exists FSerde. cbn. auto.
  - unfold impl_matches. pose proof (on_serde fs DeriveSerde) as H1. pose proof (on_serde fs OwnSerde) as H2.
    destruct (on fs DeriveSerde), (on fs OwnSerde); intuition congruence.
  - apply on_alloc.
  - apply on_serde. auto.
Qed.

Lemma item_parts is_ident md pw lookup found std it g :
  derive_item is_ident md pw lookup found std it = Ret (Ok g) ->
  exists o i, decode_attributes (it_attributes it) = Ok o /\ derive_info md (input_of it o) = Ret (Ok i) /\
    derive md pw (input_of it o) = Ret (Ok (g_type g)) /\ g_impls g = generated_impls (op_switches o) i /\
    g_warnings g = warnings std (op_attrs o) /\
    g_crate g = match op_crate_name o with
                | Some n => n
                | None => match lookup, found with true, FName n => n | _, _ => "enumset"%string end
                end.
Proof.
  unfold derive_item. destruct (decode_attributes (it_attributes it)) as [o|]; [|discriminate]. intros H.
  unfold derive_named in H.
  destruct (in_generic _); [discriminate|]. destruct (negb _); [discriminate|].
  unfold info_crate_name in H. cbn [co_attr] in H.
  destruct (op_crate_name o) as [n|] eqn:En.
  - unfold ident_new in H. destruct (is_ident n); cbn [bind] in H; [|discriminate].
    destruct (derive md pw (input_of it o)) as [[T|[e sp]]| | |] eqn:ED; cbn [bind try_] in H; try discriminate.
    cbn [enumset_path bind] in H.
    destruct (derive_info md (input_of it o)) as [[i|[e sp]]| | |] eqn:EI; cbn [bind] in H; try discriminate.
    injection H as <-. exists o, i. rewrite En. cbn. repeat split; assumption.
  - cbn [bind] in H.
    destruct (derive md pw (input_of it o)) as [[T|[e sp]]| | |] eqn:ED; cbn [bind try_] in H; try discriminate.
    destruct (enumset_path _ _ _) as [p| | |] eqn:Ep; cbn [bind] in H; try discriminate.
    destruct (derive_info md (input_of it o)) as [[i|[e sp]]| | |] eqn:EI; cbn [bind] in H; try discriminate.
    injection H as <-. exists o, i. rewrite En. cbn [g_type g_impls g_warnings g_crate].
    split; [reflexivity|]. split; [assumption|]. split; [assumption|]. split; [reflexivity|]. split; [reflexivity|].
    unfold enumset_path in Ep. cbn [co_lookup co_found] in Ep. destruct lookup; [|congruence].
    destruct found as [n| |]; try congruence. unfold ident_new in Ep. destruct (is_ident n); congruence.
Qed.

Lemma more_features is_ident md pw found fs gs u g :
  (forall t, In t (ue_impls u) -> t <> TPrivate /\ t <> TEnumSetType /\ t <> TWithRepr) ->
  incl fs gs -> builds is_ident md pw found fs u g ->
  exists o, Given (it_attributes (ue_item u)) o /\
    ((exists g', builds is_ident md pw found gs u g') <->
     (In FSerde gs -> names_fine true u o /\ serde_fine u o) /\
     (In FProcMacroCrate gs \/ In FStd gs -> op_crate_name o = None -> forall n, found = FName n -> is_ident n = true)) /\
    (forall g', builds is_ident md pw found gs u g' ->
       g_type g' = g_type g /\ g_impls g' = g_impls g /\
       (forall w, In w (g_warnings g') <-> In w (g_warnings g) \/ w = WStd /\ In FStd gs) /\
       (g_crate g' = g_crate g \/
        ~ (In FProcMacroCrate fs \/ In FStd fs) /\ (In FProcMacroCrate gs \/ In FStd gs) /\ found = FName (g_crate g'))).
Proof.
  intros HU Hi (_ & _ & HC).
  destruct (proj1 (WholeClaims.whole_compiles is_ident md pw _ found _ _ u HU) (ex_intro _ g HC))
    as (o & (NF & G) & RF & W & P & DF & IF & NM & SF).
  exists o. split; [assumption|]. split.
  - assert (E : (exists g', builds is_ident md pw found gs u g') <->
                exists g', compiles_to is_ident md pw (on gs DeriveLookup) found (on gs DeriveStdWarning) (on gs DeriveSerde) u g').
    { split; intros [g' H]; exists g'; [apply H|]. split; [apply features_fit|]. split; [apply features_fit|assumption]. }
    rewrite E, (WholeClaims.whole_compiles is_ident md pw _ found _ _ u HU). split.
    + intros (o' & (_ & G') & _ & _ & P' & _ & _ & NM' & SF').
      pose proof (AttrsClaims.given_unique _ _ _ G' G). subst o'. split.
      * intros Hs. apply (on_serde gs DeriveSerde) in Hs; [|auto]. rewrite Hs in *. auto.
      * intros Hl Hn n Hf. apply on_lookup in Hl. destruct P' as [_ P']. apply (P' n); auto.
    + intros [Hs Hl]. exists o. split; [split; assumption|]. split; [assumption|]. split; [assumption|].
      split. { split; [apply P|]. intros n Hn El Hf. apply on_lookup in El. auto. }
      split; [assumption|]. split; [assumption|].
      destruct (on gs DeriveSerde) eqn:Eg.
      * apply (on_serde gs DeriveSerde) in Eg; [|auto]. split; [apply Hs; assumption|]. intros _. apply Hs; assumption.
      * split; [|discriminate]. destruct (on fs DeriveSerde) eqn:Ef; [|assumption].
        apply (on_incl fs gs) in Ef; [congruence|assumption].
  - intros g' (_ & _ & HC'). destruct HC as (HD & _). destruct HC' as (HD' & _).
    destruct (item_parts _ _ _ _ _ _ _ _ HD) as (o1 & i1 & D1 & I1 & T1 & M1 & W1 & C1).
    destruct (item_parts _ _ _ _ _ _ _ _ HD') as (o2 & i2 & D2 & I2 & T2 & M2 & W2 & C2).
    rewrite D1 in D2. injection D2 as <-. rewrite I1 in I2. injection I2 as <-.
    rewrite T1 in T2. injection T2 as T2. split; [congruence|]. split; [congruence|]. split.
    + intros w. rewrite W1, W2. unfold warnings. rewrite !in_app_iff.
      pose proof (on_std fs) as S1. pose proof (on_std gs) as S2. pose proof (on_incl fs gs DeriveStdWarning Hi) as S3.
      destruct (on fs DeriveStdWarning), (on gs DeriveStdWarning); cbn [In]; intuition (subst; auto; congruence).
    + rewrite C1, C2. destruct (op_crate_name o1); [auto|].
      pose proof (on_lookup fs) as S1. pose proof (on_lookup gs) as S2. pose proof (on_incl fs gs DeriveLookup Hi) as S3.
      destruct (on fs DeriveLookup), (on gs DeriveLookup); auto; [specialize (S3 eq_refl); discriminate|].
      destruct found as [n| |]; auto. right. split; [intros H; apply S1 in H; discriminate|]. split; [now apply S2|reflexivity].
Qed.

(** Features other than serde never break a declaration. *)
Lemma features_additive is_ident md pw found fs gs u g :
  (forall t, In t (ue_impls u) -> t <> TPrivate /\ t <> TEnumSetType /\ t <> TWithRepr) ->
  incl fs gs -> (In FSerde gs -> In FSerde fs) -> (forall n, found = FName n -> is_ident n = true) ->
  builds is_ident md pw found fs u g -> exists g', builds is_ident md pw found gs u g' /\ g_type g' = g_type g.
Proof.
  intros HU Hi Hs Hn HB. destruct (more_features is_ident md pw found fs gs u g HU Hi HB) as (o & G & H1 & H2).
  destruct HB as (_ & _ & HC).
  destruct (proj1 (WholeClaims.whole_compiles is_ident md pw _ found _ _ u HU) (ex_intro _ g HC))
    as (o' & (NF & G') & _ & _ & _ & _ & _ & NM & SF).
  pose proof (AttrsClaims.given_unique _ _ _ G' G). subst o'.
  assert (X : exists g', builds is_ident md pw found gs u g').
  { apply H1. split; [|auto]. intros H. apply Hs in H. apply (on_serde fs DeriveSerde) in H; [|auto]. rewrite H in *. auto. }
  destruct X as [g' X]. exists g'. split; [assumption|]. now apply H2.
Qed.

(** The feature serde does: cargo turns it on for all users of the crate if one asks for it. *)
Lemma serde_breaks is_ident md pw found fs names name : pw = 32 \/ pw = 64 ->
  NoDup names -> N.of_nat (length names) <= 2 ^ 31 -> ~ In "Repr"%string names -> ~ In "Output"%string names ->
  In name ["S"; "D"]%string -> (forall n, found = FName n -> is_ident n = true) ->
  let u := MkEnum (simple [] names) name [] false false in
  (exists g, builds is_ident md pw found fs u g) <-> ~ In FSerde fs.
Proof.
  intros Hpw HN HL HR HO Hn HF u.
  assert (HU : forall t, In t (ue_impls u) -> t <> TPrivate /\ t <> TEnumSetType /\ t <> TWithRepr) by intros t [].
  assert (E : (exists g, builds is_ident md pw found fs u g) <->
              exists g, compiles_to is_ident md pw (on fs DeriveLookup) found (on fs DeriveStdWarning) (on fs DeriveSerde) u g).
  { split; intros [g H]; exists g; [apply H|]. split; [apply features_fit|]. split; [apply features_fit|assumption]. }
  rewrite E, (WholeClaims.whole_compiles is_ident md pw _ found _ _ u HU). clear E.
  assert (X : exists g, compiles_to is_ident md pw (on fs DeriveLookup) found (on fs DeriveStdWarning) (on fs DeriveSerde)
                          (MkEnum (simple [] names) "Enum1" [] false false) g).
  { apply WholeClaims.simple_compiles; try assumption.
    - intros a [].
    - exists (Ascii.ascii_of_nat 69), "num1"%string. split; [reflexivity|]. exists 4%nat. reflexivity.
    - cbn. intuition discriminate.
    - intros _. exact HF. }
  apply (WholeClaims.whole_compiles is_ident md pw _ found _ _ (MkEnum (simple [] names) "Enum1" [] false false)) in X; [|intros t []].
  destruct X as (o & OA & RF & W & P & DF & IF & (_ & HV) & SF). split.
  - intros (o' & _ & _ & _ & _ & _ & _ & (HC & _) & _) Hs. apply (on_serde fs DeriveSerde) in Hs; [|auto].
    apply HC. cbn [ue_name u]. destruct Hn as [<-|[<-|[]]]; [now apply cap_serializer|now apply cap_deserializer].
  - intros Hs. exists o. split; [exact OA|]. split; [exact RF|]. split; [exact W|]. split; [exact P|]. split; [exact DF|].
    split; [exact IF|].
    assert (Es : on fs DeriveSerde = false).
    { destruct (on fs DeriveSerde) eqn:Es; [|reflexivity]. apply (on_serde fs DeriveSerde) in Es; [contradiction|auto]. }
    rewrite Es in *. split; [|discriminate]. split; [|exact HV].
    intros C. cbn [ue_name u] in C. destruct Hn as [<-|[<-|[]]]; inversion C; subst; discriminate.
Qed.

(** * Claims about whole declarations, C77 *)
From Coq Require Import FinFun.
From Verif Require Import Base Syntax Spec ExtraSpec Derive EnumSet Serde ApiSpec DeriveFacts Impls CrateName HistorySpec History MultiSpec Multi.
From Verif Require Import Attrs AttrsSpec Names NamesSpec Whole WholeSpec.
From Verif Require DeriveClaims ImplClaims SerdeClaims NamesClaims AttrsClaims MultiClaims EndClaims.

Lemma captured_input serde sw it o name : Captured serde sw (input_of it o) name <-> Captured serde sw (declared it o) name.
Proof.
  split; intros C; (inversion C; subst;
    [apply cap_helper|apply cap_operand|apply cap_into|apply cap_serializer|apply cap_deserializer|apply cap_access
    |apply cap_visitor|apply cap_u32|eapply cap_storage|eapply cap_int|eapply cap_serialized|apply cap_words|eapply cap_usize|apply cap_bool]); first [assumption|match goal with H : _ |- _ => exact H end|reflexivity].
Qed.
Lemma derive_item_parts is_ident md pw lookup found std it g o :
  derive_item is_ident md pw lookup found std it = Ret (Ok g) -> decode_attributes (it_attributes it) = Ok o ->
  exists i, derive_info md (input_of it o) = Ret (Ok i) /\ g_impls g = generated_impls (op_switches o) i /\
    derive md pw (input_of it o) = Ret (Ok (g_type g)).
Proof.
  intros H D. destruct (AttrsClaims.item_generated _ _ _ _ _ _ _ _ H) as ((o' & G' & DD) & _).
  unfold derive_item in H. rewrite D in H.
  pose proof (AttrsClaims.decoded_given _ _ D) as G. rewrite (AttrsClaims.given_unique _ _ _ G' G) in DD.
  assert (A : exists g, derive_item is_ident md pw lookup found std it = Ret (Ok g)) by (exists g; unfold derive_item; now rewrite D).
  apply AttrsClaims.item_accepted in A. destruct A as (o2 & _ & _ & R & _).
  rewrite <- (AttrsClaims.derive_declared md pw it o R) in DD.
  destruct (derive_named _ _ _ _ _) as [[[path T]|[e sp]]| | |]; cbn in H; try discriminate.
  destruct (derive_info md (input_of it o)) as [[i|[e sp]]| | |]; cbn in H; try discriminate.
  exists i. inversion H; subst. cbn in *. split; [reflexivity|]. split; [reflexivity|exact DD].
Qed.

Lemma whole_compiles is_ident md pw lookup found std serde u :
  (forall t, In t (ue_impls u) -> t <> TPrivate /\ t <> TEnumSetType /\ t <> TWithRepr) ->
  (exists g, compiles_to is_ident md pw lookup found std serde u g) <->
  exists o, options_are (it_attributes (ue_item u)) o /\ reprs_fine (it_attributes (ue_item u)) /\
    WellFormed (declared (ue_item u) o) /\ path_fine is_ident lookup found o /\ discrs_fit pw (ue_item u) o /\
    impls_fine u o /\ names_fine serde u o /\ (serde = true -> serde_fine u o).
Proof.
  intros HU. set (it := ue_item u). split.
  - intros (g & Hg & HI & HS & o & i & D & Ei & HR & Hr & Hc). fold it in Hg, D, Ei, HR, Hr, Hc.
    destruct (derive_item_parts _ _ _ _ _ _ _ _ _ Hg D) as (i' & Ei' & EI & ED). rewrite Ei in Ei'. inversion Ei'; subst i'. clear Ei'.
    destruct (proj1 (AttrsClaims.item_accepted is_ident md pw lookup found std it) (ex_intro _ g Hg)) as (o' & NF & G' & RF & W & P1 & P2).
    assert (o' = o) by exact (AttrsClaims.given_unique _ _ _ G' (AttrsClaims.decoded_given _ _ D)). subst o'.
    exists o. split; [exact (conj NF G')|]. split; [exact RF|]. split; [exact W|]. split; [exact (conj P1 P2)|].
    split. { exists (rust_reprs (it_attributes it)). split; [now apply AttrsClaims.reprs_give|exact HR]. }
    split. { rewrite EI in HI. exact (proj1 (ImplClaims.impls_compile _ _ _ _ _ Ei HU) HI). }
    split.
    { split; [|exact (proj1 (NamesClaims.variant_names _ _ _) Hc)].
      intros C. apply captured_input in C. exact (proj1 (NamesClaims.captured_names _ _ _ _ _ _ Ei) Hr C). }
    intros E. specialize (HS E).
    pose proof (SerdeClaims.accepted _ _ _ _ (ue_ser u) (ue_de u) ED) as HA. rewrite HS in HA.
    assert (HN : ~ ((at_deny_unknown (in_attrs (input_of it o)) = true /\
       (serialize_name (input_of it o) = "array"%string \/
        ((exists b, name_bits (serialize_name (input_of it o)) = Some b) /\ exists n, storage_of (input_of it o) = SWords n))) \/
      (In (serialize_name (input_of it o)) ["list"; "map"]%string /\ (ue_ser u = false \/ ue_de u = false)))).
    { intros X. apply HA in X. discriminate X. }
    split.
    + intros Hd. split.
      * intros Hs. apply HN. left. split; [exact Hd|]. left. exact Hs.
      * intros b n Hb Hn. apply HN. left. split; [exact Hd|]. right. split; [exists b; exact Hb|exists n; exact Hn].
    + intros Hin. destruct (ue_ser u), (ue_de u); try (split; reflexivity); exfalso; apply HN; right; (split; [exact Hin|]); auto.
  - intros (o & (NF & G) & RF & W & (P1 & P2) & (rs & HRs & HR) & HI & (HC & HV) & HS).
    fold it in NF, G, RF, W, HRs, HR, HC, HV.
    destruct (proj2 (AttrsClaims.item_accepted is_ident md pw lookup found std it)) as [g Hg].
    { exists o. exact (conj NF (conj G (conj RF (conj W (conj P1 P2))))). }
    assert (D : decode_attributes (it_attributes it) = Ok o).
    { destruct (decode_attributes (it_attributes it)) as [o'|es] eqn:D.
      - now rewrite (AttrsClaims.given_unique _ _ _ G (AttrsClaims.decoded_given _ _ D)).
      - exfalso. assert (X : exists p e, Fault (it_attributes it) p e) by (apply AttrsClaims.fault_rejected; eauto).
        destruct X as (p & e & F). exact (NF p e F). }
    destruct (derive_item_parts _ _ _ _ _ _ _ _ _ Hg D) as (i & Ei & EI & ED).
    exists g. split; [exact Hg|]. split. { rewrite EI. exact (proj2 (ImplClaims.impls_compile _ _ _ _ _ Ei HU) HI). }
    split.
    { intros E. specialize (HS E). destruct HS as [HS1 HS2]. destruct (serde_accepted _ _ _) eqn:A; [reflexivity|].
      apply (SerdeClaims.accepted _ _ _ _ (ue_ser u) (ue_de u) ED) in A. exfalso.
      destruct A as [[Hd [Hs|[[b Hb] [n Hn]]]]|[Hin [X|X]]].
      - exact (proj1 (HS1 Hd) Hs).
      - exact (proj2 (HS1 Hd) b n Hb Hn).
      - rewrite (proj1 (HS2 Hin)) in X. discriminate.
      - rewrite (proj2 (HS2 Hin)) in X. discriminate. }
    exists o, i. split; [exact D|]. split; [exact Ei|]. split.
    { apply AttrsClaims.reprs_give in HRs. subst rs. exact HR. }
    split.
    { apply (NamesClaims.captured_names _ _ _ _ _ _ Ei). intros C. apply HC. apply captured_input. exact C. }
    apply NamesClaims.variant_names. exact HV.
Qed.

Lemma compiles_anywhere is_ident lookup found serde md md' pw std std' u :
  (forall t, In t (ue_impls u) -> t <> TPrivate /\ t <> TEnumSetType /\ t <> TWithRepr) ->
  (exists g, compiles_to is_ident md pw lookup found std serde u g) <->
  (exists g, compiles_to is_ident md' pw lookup found std' serde u g).
Proof. intros HU. now rewrite !whole_compiles. Qed.

Lemma compiled_programs is_ident md pw lookup found std serde us gs n prog : pw = 32 \/ pw = 64 ->
  (forall e, compiles_to is_ident md pw lookup found std serde (us e) (gs e)) ->
  exists os, (forall e, Given (it_attributes (ue_item (us e))) (os e)) /\
    (mcalls pw (fun e => declared (ue_item (us e)) (os e)) n prog ->
     m_play (fun e => g_type (gs e)) n prog [] (m_init (fun e => g_type (gs e))) =
     am_play pw (fun e => declared (ue_item (us e)) (os e)) n prog [] (fun _ => a_init)).
Proof.
  intros Hpw HC.
  set (o0 := MkOptions (MkAttrs None None false false false) (MkSwitches false false) None).
  exists (fun e => match decode_attributes (it_attributes (ue_item (us e))) with Ok o => o | Err _ => o0 end).
  assert (G : forall e, Given (it_attributes (ue_item (us e))) (match decode_attributes (it_attributes (ue_item (us e))) with Ok o => o | Err _ => o0 end)).
  { intros e. destruct (HC e) as (_ & _ & _ & o & i & D & _). rewrite D. exact (AttrsClaims.decoded_given _ _ D). }
  split; [exact G|]. intros Hcalls. apply MultiClaims.multi_refines; [|exact Hcalls].
  intros e. destruct (HC e) as (Hg & _). destruct (EndClaims.item_supported _ _ _ _ _ _ _ _ Hpw Hg) as (o & Go & S).
  rewrite (AttrsClaims.given_unique _ _ _ (G e) Go). exact S.
Qed.

Lemma simple_discrs names o attributes : discrs (declared (simple attributes names) o) = map N.of_nat (seq 0 (length names)).
Proof.
  unfold discrs, rustc_discrs, simple, declared. cbn [in_variants it_variants]. change 0 with (N.of_nat 0). generalize 0%nat as a.
  induction names as [|x l IH]; intros a; cbn [length seq map rustc_discrs_from vd_discr]; [reflexivity|]. f_equal. rewrite <- IH. f_equal. lia.
Qed.

Lemma simple_compiles is_ident md pw lookup found std serde attributes names name ser de : pw = 32 \/ pw = 64 ->
  (forall a, In a attributes -> a_path a <> "enumset"%string /\ a_path a <> "repr"%string) ->
  NoDup names -> N.of_nat (length names) <= 2 ^ 31 ->
  ~ In "Repr"%string names -> ~ In "Output"%string names ->
  capitalised name -> ~ In name ["A"; "D"; "Into"; "O"; "S"; "Visitor"]%string ->
  (lookup = true -> forall n, found = FName n -> is_ident n = true) ->
  exists g, compiles_to is_ident md pw lookup found std serde (MkEnum (simple attributes names) name [] ser de) g.
Proof.
  intros Hpw HA HN HL HR HO Hc Hn HF. set (it := simple attributes names).
  set (o := MkOptions (MkAttrs None None false false false) (MkSwitches false false) None).
  assert (I0 : all_items attributes = []).
  { unfold all_items. induction attributes as [|a l IH]; [reflexivity|]. cbn [flat_map]. rewrite IH by (intros b Hb; apply HA; now right).
    destruct (HA a (or_introl eq_refl)) as [H _]. destruct a as [path form]. cbn [a_path] in H. unfold items_of.
    destruct (String.eqb_spec path "enumset"); [contradiction|].
    repeat (destruct path as [|[[] [] [] [] [] [] [] []] path]; try reflexivity). contradiction. }
  assert (G : Given attributes o).
  { unfold Given, given_text, given_flag. rewrite I0. cbn [o op_attrs op_switches op_crate_name at_repr at_serialize_repr at_deny_unknown at_as_list at_as_map sw_no_ops sw_no_super_impls In].
    repeat split; try discriminate; try (intros (m & [] & _)); intros []. }
  assert (NF : forall p e, ~ Fault attributes p e).
  { assert (NE : forall a f, nth_error attributes a = Some (MkAttribute "enumset" f) -> False).
    { intros a f H. apply nth_error_In in H. apply HA in H. now apply (proj1 H). }
    intros p e F. inversion F as [a H|a id H|q (a & i & its & id & _ & H & _)|q n m (a & i & its & id & _ & H & _)|q n m q' m' (a & i & its & id & _ & H & _)|q n m (a & i & its & id & _ & H & _)]; subst; exact (NE _ _ H). }
  assert (ND : NoDup (discrs (declared it o))).
  { unfold it. rewrite simple_discrs. apply Injective_map_NoDup; [|apply seq_NoDup]. intros a b E. lia. }
  assert (Hd : forall d, In d (discrs (declared it o)) -> d < 2 ^ 31).
  { intros d Hd. unfold it in Hd. rewrite simple_discrs in Hd. apply in_map_iff in Hd as (k & <- & Hk). apply in_seq in Hk. lia. }
  assert (M : map vd_name (it_variants it) = names).
  { cbn [it simple it_variants]. rewrite map_map. apply map_id. }
  assert (SN : ~ In (serialize_name (declared it o)) ["list"; "map"]%string).
  { unfold serialize_name. change (serialize_choice (in_attrs (declared it o))) with (@None string). cbv beta iota.
    repeat destruct (N.ltb _ _); intros [E|[E|[]]]; discriminate E. }
  assert (W : WellFormed (declared it o)).
  { constructor; try reflexivity; try discriminate.
    - intros r [].
    - cbn [declared in_variants]. rewrite M. exact HN.
    - intros v Hv. apply in_map_iff in Hv as (k & <- & _). reflexivity.
    - intros v Hv. apply in_map_iff in Hv as (k & <- & _). exact I.
    - intros d H. apply Hd in H. change (2 ^ 31) with 2147483648 in H. lia.
    - exact ND. }
  apply whole_compiles; [intros t []|]. cbn [ue_item ue_impls ue_name]. fold it. exists o.
  split; [exact (conj NF G)|].
  split. { intros f H. apply HA in H. now destruct (proj2 H). }
  split; [exact W|].
  split. { split; [discriminate|]. intros n _ E1 E2. exact (HF E1 n E2). }
  split.
  { exists []. split.
    - apply AttrsClaims.reprs_give. unfold rust_reprs. cbn [it simple it_attributes]. symmetry.
      clear I0 G NF ND Hd M SN W it o. induction attributes as [|a l IH]; [reflexivity|]. cbn [flat_map].
      rewrite IH by (intros b Hb; apply HA; now right).
      destruct (String.eqb_spec (a_path a) "repr"); [|reflexivity]. destruct (HA a (or_introl eq_refl)); contradiction.
    - intros d H. apply Hd in H. cbn [rustc_discr_max]. change (2 ^ 31) with 2147483648 in H.
      destruct Hpw as [-> | ->]; [change (2 ^ (32 - 1) - 1) with 2147483647|change (2 ^ (64 - 1) - 1) with 9223372036854775807]; lia. }
  split. { split; [constructor|]. split; [|intros t _ []]. intros t _. cbn. split; [intros []|discriminate]. }
  split.
  { split; [|cbn [ue_item]; rewrite M; auto]. cbn [ue_name ue_item].
    destruct (@derive_info_spec Debug (declared it o)) as (r & Er & _).
    destruct (DeriveClaims.derive_total Debug 64 (declared it o)) as (r' & Er' & Hok & _). destruct (proj2 Hok W) as [T ->].
    unfold derive in Er'. rewrite Er in Er'. destruct r as [i|e]; [|discriminate Er'].
    apply (NamesClaims.captured_names _ _ _ _ _ _ Er). exact (NamesClaims.ordinary_names _ _ _ _ _ _ Er Hc Hn). }
  intros _. split; [discriminate|]. intros H. contradiction.
Qed.

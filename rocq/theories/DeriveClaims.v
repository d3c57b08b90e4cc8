(** * Claims about the derive macro *)
From Verif Require Import Base BaseFacts LimbFacts Prim ArrayRepr Repr ReprLaws PrimFacts ArrayFacts.
From Verif Require Import Syntax Spec Derive EnumSet Serde ApiSpec DeriveFacts TyFacts SetFacts ConvFacts SerdeFacts ReachFacts SetClaims.
Ltac Zify.zify_post_hook ::= Z.div_mod_to_equations.

(** ** C28 *)
Lemma derive_total md pw inp :
  exists r, derive md pw inp = Ret r /\
    ((exists T, r = Ok T) <-> WellFormed inp) /\
    (forall e sp, r = Err (e, sp) -> Violation inp e sp).
Proof.
  destruct (derive_spec pw inp) as (r & E & Hr). exists r. split; [assumption|]. split.
  - split.
    + intros [T ->]. apply Hr.
    + intros HW. destruct r as [T|[e sp]]; [eauto|]. exfalso. exact (wf_no_violation inp e sp HW (proj1 Hr)).
  - intros e sp ->. apply Hr.
Qed.
Lemma violation_rejected md pw inp e sp : Violation inp e sp -> ~ WellFormed inp /\ exists x, derive md pw inp = Ret (Err x).
Proof.
  intros HV. assert (HW : ~ WellFormed inp) by (intros HW; exact (wf_no_violation inp e sp HW HV)).
  split; [assumption|]. destruct (derive_spec pw inp) as (r & E & Hr). destruct r as [T|x]; [tauto|eauto].
Qed.

(** ** C62 *)
Lemma before_irrefl e sp e' sp' : err_before e sp e' sp' -> err_before e' sp' e sp -> False.
Proof. unfold err_before. lia. Qed.
Lemma first_error md pw inp e sp :
  derive md pw inp = Ret (Err (e, sp)) <->
  Violation inp e sp /\
  forall e' sp', Violation inp e' sp' -> (e', sp') = (e, sp) \/ err_before e sp e' sp'.
Proof.
  destruct (derive_spec pw inp) as (r & E & Hr). rewrite E. split.
  - intros H. inversion H; subst. exact Hr.
  - intros [HV Hm]. destruct r as [T|[e0 sp0]].
    + exfalso. exact (wf_no_violation inp e sp (proj1 Hr) HV).
    + destruct Hr as [HV0 Hm0]. destruct (Hm _ _ HV0) as [Eq|Hb]; [now rewrite Eq|].
      destruct (Hm0 _ _ HV) as [Eq|Hb0]; [now rewrite Eq|]. destruct (before_irrefl _ _ _ _ Hb Hb0).
Qed.
Lemma no_call_site md pw inp e sp : derive md pw inp = Ret (Err (e, sp)) ->
  match sp with
  | SpCallSite => False
  | SpGenerics | SpInput => True
  | SpRepr => at_repr (in_attrs inp) <> None
  | SpSerializeRepr => at_serialize_repr (in_attrs inp) <> None
  | SpReprAttr k => (k < length (in_rust_reprs inp))%nat
  | SpVariant k => (k < length (in_variants inp))%nat
  | SpDiscr k => exists v, nth_error (in_variants inp) k = Some v /\ vd_discr v <> None
  end.
Proof.
  intros H. apply first_error in H. destruct H as [V _].
  destruct V as [H|H|k H|k r H Hn|s H Hn|s H Hn|i j u v Hij Hi Hj E|k v Hv Hf|k v n Hv He Hn|k v Hv He|k v Hv He|k d Hd Hm|i j d Hij Hi Hj|s b k Hs Hb Hk Hm|s b k Hs Hb Hk Hm];
    try exact I; try congruence; try (apply nth_error_Some; congruence); try (rewrite <- discrs_length; apply nth_error_Some; congruence).
  - exists v. split; [assumption|congruence].
  - exists v. split; [assumption|congruence].
Qed.

(** ** C27 *)
Lemma derive_discriminants md pw inp T : derive md pw inp = Ret (Ok T) ->
  map fst (et_variants T) = map vd_name (in_variants inp) /\
  map snd (et_variants T) = discrs inp /\
  NoDup (discrs inp) /\
  (forall d, In d (discrs inp) -> d <= 0xFFFFFFBF).
Proof.
  intros H. destruct (derive_ok _ _ _ H) as (HW & i & Hi & HG).
  assert (E : et_variants T = i_variants i) by (destruct HG; reflexivity). rewrite E.
  split; [apply (info_names _ _ Hi)|]. split; [apply (info_variants _ _ Hi)|].
  split; [apply (wf_distinct _ HW)|apply (wf_max _ HW)].
Qed.
(** The rule for discriminants, variant by variant. *)
Lemma rustc_rule_from vs : forall c,
  forall v d, nth_error vs v = Some d ->
    nth v (rustc_discrs_from c vs) 0 =
      match vd_discr d with
      | Some (DInt n) => n
      | Some _ => 0
      | None => match v with O => c | S u => nth u (rustc_discrs_from c vs) 0 + 1 end
      end.
Proof.
  induction vs as [|x vs IH]; intros c [|v] d H; try discriminate; cbn [nth_error] in H.
  - inversion H; subst. cbn. destruct (vd_discr d) as [[]|]; reflexivity.
  - cbn [rustc_discrs_from nth]. rewrite (IH _ v d H).
    destruct (vd_discr d) as [[]|]; try reflexivity. destruct v; reflexivity.
Qed.
Lemma discriminant_rule inp v d : nth_error (in_variants inp) v = Some d -> literal_discr d ->
  match vd_discr d with
  | Some (DInt n) => discr inp v = n
  | _ => discr inp v = match v with O => 0 | S u => discr inp u + 1 end
  end.
Proof.
  intros H HL. pose proof (rustc_rule_from (in_variants inp) 0 v d H) as HR. unfold discr, discrs, rustc_discrs.
  unfold literal_discr in HL. destruct (vd_discr d) as [[]|]; try exact HR; destruct HL.
Qed.
Lemma conversions_inverse pw inp T : Supported pw inp T ->
  (forall v, variant inp v -> enum_into_u32 T v = Ret (discr inp v)) /\
  (forall v, variant inp v -> enum_from_u32 T (discr inp v) = Ret v) /\
  (forall i v, In i (discrs inp) -> enum_from_u32 T i = Ret v -> variant inp v /\ enum_into_u32 T v = Ret i).
Proof.
  intros HS. start. split; [|split].
  - intros v Hv. now apply (into_u32_spec HT).
  - intros v Hv. now apply (from_u32_spec HT).
  - intros i v Hi E. apply In_discr in Hi. destruct Hi as (u & Hu & <-).
    rewrite (from_u32_spec HT) in E by assumption. inversion E; subst. split; [assumption|now apply (into_u32_spec HT)].
Qed.

(** ** C29 *)
Lemma div_ceil x : (x + 64) / 64 = x / 64 + 1.
Proof. lia. Qed.
Lemma chosen_storage inp : WellFormed inp ->
  match storage_of inp with
  | SInt b => match chosen inp with IArray _ => False | r => ir_supported r = b end
  | SWords n => chosen inp = IArray (N.to_nat n)
  end.
Proof.
  intros HW. unfold storage_of, chosen, repr_attr, force_attr.
  destruct (at_repr (in_attrs inp)) as [s|] eqn:Es.
  - pose proof (wf_repr _ HW s Es) as Hin. pose proof (name_bits_ir s) as Hb.
    unfold repr_names in Hin. cbn [In] in Hin.
    destruct Hin as [<-|[<-|[<-|[<-|[<-|[<-|[]]]]]]]; cbn [name_bits ir_of_name String.eqb Ascii.eqb Bool.eqb];
      try reflexivity.
    cbn. rewrite !andb_false_r. now rewrite div_ceil.
  - cbn [negb]. rewrite !andb_true_r.
    destruct (max_discr inp <? 8), (max_discr inp <? 16), (max_discr inp <? 32), (max_discr inp <? 64);
      try reflexivity; now rewrite div_ceil.
Qed.
Lemma storage_chosen md pw inp T : derive md pw inp = Ret (Ok T) ->
  match storage_of inp with
  | SInt b => et_repr T = prim_repr md pw b (N.to_nat ((b + 63) / 64)) /\
              exists lit, et_all_lit T = Some lit /\ lit < 2 ^ b
  | SWords n => et_repr T = array_repr md pw (N.to_nat n) /\ et_all_lit T = None /\ 1 <= n /\ n < 2 ^ 32
  end.
Proof.
  intros H. destruct (derive_ok _ _ _ H) as (HW & i & Hi & HG). pose proof (chosen_storage inp HW) as HC.
  destruct HG as [w pl lit Hok Hw Hmax Hlit Hb Hpl|n all Hc Hn Hall Hb].
  - destruct (storage_of inp) as [b|n].
    + destruct (chosen inp); try (exfalso; exact HC); destruct Hpl as [Ew Ep]; cbn [ir_supported] in *; subst;
        (split; [reflexivity|eexists; split; [reflexivity|assumption]]).
    + rewrite HC in Hpl. destruct Hpl.
  - destruct (storage_of inp) as [b|k] eqn:Est.
    + rewrite Hc in HC. destruct HC.
    + rewrite HC in Hc. inversion Hc as [E]. split; [cbn; now rewrite E|]. split; [reflexivity|].
      assert (Ek : k = max_discr inp / 64 + 1).
      { unfold storage_of in Est. destruct (at_repr (in_attrs inp)) as [s|].
        - destruct (name_bits s); inversion Est; reflexivity.
        - repeat match type of Est with (if ?c then _ else _) = _ => destruct c; [discriminate|] end. now inversion Est. }
      assert (Hm : max_discr inp <= 0xFFFFFFBF) by (apply max_le, (wf_max _ HW)). change (2 ^ 32) with 4294967296. lia.
Qed.
Lemma storage_holds md pw inp T : derive md pw inp = Ret (Ok T) ->
  r_width (et_repr T) = storage_bits (storage_of inp) /\
  N.of_nat (r_preferred_array_len (et_repr T)) = storage_words (storage_of inp) /\
  (forall v, variant inp v -> discr inp v < r_width (et_repr T)) /\
  r_width (et_repr T) < 2 ^ 32 /\
  (at_repr (in_attrs inp) = None -> forall b, In b [8; 16; 32; 64] -> max_discr inp < b ->
     exists b', storage_of inp = SInt b' /\ b' <= b).
Proof.
  intros H. destruct (derive_ok _ _ _ H) as (HW & i & Hi & HG). pose proof (storage_chosen md pw inp T H) as HC.
  assert (Hw : r_width (et_repr T) = storage_bits (storage_of inp)).
  { destruct (storage_of inp); destruct HC as [-> _]; cbn; unfold a_width; lia. }
  assert (Hm : max_discr inp <= 0xFFFFFFBF) by (apply max_le, (wf_max _ HW)).
  assert (Hfit : max_discr inp < storage_bits (storage_of inp)).
  { pose proof (chosen_fits inp HW) as Hf. pose proof (chosen_storage inp HW) as Hs.
    destruct (storage_of inp); cbn [storage_bits].
    - destruct (chosen inp); cbn [ir_supported] in *; lia.
    - rewrite Hs in Hf. cbn [ir_supported] in Hf. lia. }
  split; [assumption|]. split; [|split; [|split]].
  - destruct (storage_of inp); destruct HC as [-> _]; cbn; lia.
  - intros v Hv. rewrite Hw. apply discr_In, max_ge in Hv. fold (max_discr inp) in Hv. lia.
  - rewrite Hw. pose proof (chosen_storage inp HW) as Hs. unfold storage_of in *.
    destruct (at_repr (in_attrs inp)) as [s|] eqn:Es.
    + destruct (name_bits s) as [b|] eqn:Eb; cbn [storage_bits].
      * destruct (chosen inp); cbn [ir_supported] in *; try (subst b; reflexivity). destruct Hs.
      * change (2 ^ 32) with 4294967296. lia.
    + change (2 ^ 32) with 4294967296.
      repeat match goal with |- storage_bits (if ?c then _ else _) < _ => destruct c; [reflexivity|] end.
      cbn [storage_bits]. lia.
  - intros Hn b Hb Hlt. unfold storage_of. rewrite Hn.
    destruct (N.ltb_spec (max_discr inp) 8), (N.ltb_spec (max_discr inp) 16),
      (N.ltb_spec (max_discr inp) 32), (N.ltb_spec (max_discr inp) 64);
      cbn [In] in Hb; (eexists; split; [reflexivity|]) || (exfalso; lia); lia.
Qed.

(** ** C30 *)
Lemma derive_counts md pw inp T : derive md pw inp = Ret (Ok T) ->
  es_variant_count T = N.of_nat (length (in_variants inp)) /\
  es_bit_width T = max_discr inp + 1 /\ es_bit_width T < 2 ^ 32.
Proof.
  intros H. destruct (derive_ok _ _ _ H) as (HW & i & Hi & HG). split; [|split].
  - unfold es_variant_count. destruct HG; cbn; rewrite (info_count _ _ Hi); apply wrap_small, (count_lt_u32 inp HW).
  - unfold es_bit_width. destruct HG; cbn; now rewrite (io_max _ _ Hi).
  - assert (Hm : max_discr inp <= 0xFFFFFFBF) by (apply max_le, (wf_max _ HW)).
    unfold es_bit_width. change (2 ^ 32) with 4294967296. destruct HG; cbn [et_bit_width prim_ty array_ty]; rewrite (io_max _ _ Hi); lia.
Qed.
Lemma bit_width_nonempty md pw inp T : derive md pw inp = Ret (Ok T) -> in_variants inp <> [] ->
  (exists v, variant inp v /\ es_bit_width T = discr inp v + 1) /\
  (forall v, variant inp v -> discr inp v < es_bit_width T) /\
  (es_bit_width T = es_variant_count T <-> forall i, i < es_variant_count T -> exists v, variant inp v /\ discr inp v = i).
Proof.
  intros H Hne. destruct (derive_counts md pw inp T H) as (Ec & Ew & _).
  destruct (derive_ok _ _ _ H) as (HW & i & Hi & HG).
  assert (HinM : In (max_discr inp) (discrs inp)).
  { apply max_in. intros E. apply Hne. apply length_zero_iff_nil. rewrite <- (discrs_length inp), E. reflexivity. }
  split; [|split].
  - apply In_discr in HinM. destruct HinM as (v & Hv & E). exists v. rewrite Ew, E. auto.
  - intros v Hv. apply discr_In, max_ge in Hv. fold (max_discr inp) in Hv. lia.
  - rewrite Ew, Ec. split.
    + intros E j Hj. apply In_discr.
      assert (Hincl : incl (map N.of_nat (seq 0 (length (in_variants inp)))) (discrs inp)).
      { apply NoDup_length_incl; [apply (wf_distinct _ HW)| |].
        - rewrite map_length, seq_length, discrs_length. lia.
        - intros d Hd. apply in_map_iff. exists (N.to_nat d). split; [apply N2Nat.id|]. apply in_seq.
          apply max_ge in Hd. fold (max_discr inp) in Hd. lia. }
      apply Hincl. apply in_map_iff. exists (N.to_nat j). split; [apply N2Nat.id|]. apply in_seq. lia.
    + intros Hall.
      assert (Hincl : incl (discrs inp) (map N.of_nat (seq 0 (length (in_variants inp))))).
      { apply NoDup_length_incl.
        - apply FinFun.Injective_map_NoDup; [|apply seq_NoDup]. intros x y Exy. lia.
        - rewrite map_length, seq_length, discrs_length. lia.
        - intros d Hd. apply in_map_iff in Hd. destruct Hd as (k & <- & Hk). apply in_seq in Hk.
          apply In_discr, Hall. lia. }
      apply Hincl in HinM. apply in_map_iff in HinM. destruct HinM as (k & Ek & Hk). apply in_seq in Hk.
      assert (N.of_nat (length (in_variants inp)) <= max_discr inp + 1); [|lia].
      rewrite <- (discrs_length inp). apply bounded_length; [apply (wf_distinct _ HW)|].
      intros d Hd. apply max_ge in Hd. fold (max_discr inp) in Hd. lia.
Qed.
Lemma empty_enum_width md pw inp T : derive md pw inp = Ret (Ok T) -> in_variants inp = [] ->
  es_variant_count T = 0 /\ es_bit_width T = 1.
Proof.
  intros H E. destruct (derive_counts md pw inp T H) as (-> & -> & _). rewrite E. split; [reflexivity|].
  unfold max_discr, discrs. now rewrite E.
Qed.

(** ** C42 *)
Definition sr_name (r : serde_repr) : string :=
  match r with SU8 => "u8" | SU16 => "u16" | SU32 => "u32" | SU64 => "u64" | SU128 => "u128"
             | SList => "list" | SMap => "map" | SArray => "array" end.
Lemma sr_name_inv s r : sr_of_name s = Some r -> sr_name r = s.
Proof. unfold sr_of_name. str_cases; intros H; inversion H; reflexivity. Qed.
Lemma serialization_chosen md pw inp T : derive md pw inp = Ret (Ok T) ->
  (et_serde T, serialize_name inp) = 
    match et_serde T with
    | SU8 => (SU8, "u8") | SU16 => (SU16, "u16") | SU32 => (SU32, "u32") | SU64 => (SU64, "u64")
    | SU128 => (SU128, "u128") | SList => (SList, "list") | SMap => (SMap, "map") | SArray => (SArray, "array")
    end%string /\
  et_deny_unknown T = at_deny_unknown (in_attrs inp) /\
  (forall t v, sr_ity (et_serde T) = Some t -> variant inp v -> discr inp v < ity_bits pw t).
Proof.
  intros H. destruct (derive_serde _ _ _ _ H) as (E & Ed & Hb). split; [|split; [assumption|]].
  - assert (En : serialize_name inp = sr_name (et_serde T)).
    { rewrite E. unfold serialize_name, serde_chosen, serde_attr.
      destruct (serialize_choice (in_attrs inp)) as [s|] eqn:Es.
      - destruct (derive_ok _ _ _ H) as (HW & _).
        assert (Hs : exists r, sr_of_name s = Some r).
        { assert (Hin : In s serialize_repr_names).
          { unfold serialize_choice in Es. destruct (at_as_list (in_attrs inp)); [inversion Es; unfold serialize_repr_names; cbn; tauto|].
            destruct (at_as_map (in_attrs inp)); [inversion Es; unfold serialize_repr_names; cbn; tauto|].
            now apply (wf_serialize_repr _ HW). }
          unfold serialize_repr_names in Hin. cbn [In] in Hin.
          repeat (destruct Hin as [<-|Hin]; [eexists; reflexivity|]). destruct Hin. }
        destruct Hs as [r Hr]. rewrite Hr. symmetry. now apply sr_name_inv.
      - destruct (max_discr inp <? 8), (max_discr inp <? 16), (max_discr inp <? 32), (max_discr inp <? 64), (max_discr inp <? 128); reflexivity. }
    rewrite En. now destruct (et_serde T).
  - intros t v Ht Hv. apply (sr_ity_bits pw) in Ht. apply Hb in Ht. apply discr_In, max_ge in Hv. fold (max_discr inp) in Hv. lia.
Qed.

(** ** C41 *)
Lemma supported_32_64 md pw inp T : pw = 32 \/ pw = 64 -> derive md pw inp = Ret (Ok T) -> Supported pw inp T.
Proof.
  intros Hpw H. destruct (derive_ok _ _ _ H) as (HW & _).
  assert (Hp : 2 ^ 32 <= 2 ^ pw) by (apply N.pow_le_mono_r; lia).
  constructor; eauto; try tauto.
  - intros d Hd. apply (wf_max _ HW) in Hd. eapply N.lt_le_trans; [|exact Hp]. change (2 ^ 32) with 4294967296. lia.
  - eapply N.lt_le_trans; [apply (count_lt_u32 inp HW)|exact Hp].
Qed.

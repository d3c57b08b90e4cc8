(** * Every reachable set is valid *)
From Verif Require Import Base BaseFacts LimbFacts Repr ReprLaws.
From Verif Require Import Syntax Spec Derive EnumSet Macros Serde ApiSpec DeriveFacts TyFacts SetFacts IterFacts ConvFacts MacroFacts FmtFacts SerdeFacts.

Section Reach.
Context {pw : N} {inp : derive_input} {T : EnumTy} {val : eset T -> N}
        {irel : r_iter_t (et_repr T) -> list N -> Prop}.
Context (HT : TyLaws pw (discrs inp) T val irel).
Let HR := tl_repr _ _ _ _ _ HT.
Local Notation mem := (@mem inp T val).
Local Notation Valid := (@Valid inp T val).
Local Notation Good := (@Good inp T val).

Lemma good_valid m A s : Good m A -> m = Ret s -> Valid s.
Proof. intros (s' & E & Hs & _) E'. congruence. Qed.
Lemma same_valid m m' s : Same (inp := inp) (val := val) m m' -> m = Ret s -> Valid s.
Proof. intros (s' & E & _ & Hs) E'. congruence. Qed.
Lemma checks_valid m x s : Checks (inp := inp) (val := val) m x -> m = Ret (Some s) -> Valid s.
Proof. intros [[_ (s' & E & Hs & _)]|[_ E]] E'; congruence. Qed.
Lemma expects_valid m x s : Expects (inp := inp) (val := val) m x -> m = Ret s -> Valid s.
Proof. intros [[_ (s' & E & Hs & _)]|[_ E]] E'; congruence. Qed.
Lemma unchecked_valid m x s : (exists s, m = Ret s /\ Valid s /\ val s = x) -> m = Ret s -> Valid s.
Proof. intros (s' & E & Hs & _) E'. congruence. Qed.
Lemma operand_valid (o : operand T) :
  (forall x, o = OSet x -> Valid x) -> (forall v, o = OVar v -> variant inp v) -> ovalid (inp := inp) (val := val) o.
Proof. destruct o; cbn; auto. Qed.
Lemma operands_valid (ops : list (operand T)) :
  (forall x, In (OSet x) ops -> Valid x) -> (forall v, In (OVar v) ops -> variant inp v) ->
  forall p, In p ops -> ovalid (inp := inp) (val := val) p.
Proof. intros H1 H2 [x|v] Hp; cbn; auto. Qed.

Context (HS : Supported pw inp T).

Lemma serde_int_facts t : sr_ity (et_serde T) = Some t -> serde_compiles T = true ->
  max_discr inp < ity_bits pw t /\ (et_deny_unknown T = true -> exists lit, et_all_lit T = Some lit).
Proof.
  intros Ht Hc. destruct (sup_derive _ _ _ HS) as [md Hmd]. destruct (derive_serde md pw inp T Hmd) as (_ & _ & Hb). split.
  - apply Hb. now apply sr_ity_bits.
  - intros Hd. unfold serde_compiles in Hc. rewrite Hd in Hc.
    destruct (et_serde T); cbn [sr_ity] in Ht; try discriminate; cbn [negb orb] in Hc;
      (destruct (et_all_lit T); [eauto|discriminate]).
Qed.

Lemma reachable_valid s : Reachable pw inp T s -> Valid s.
Proof.
  induction 1.
  - apply (empty_valid HT).
  - apply (empty_valid HT).
  - apply (empty_valid HT).
  - apply (all_valid HT).
  - eapply good_valid; [|eassumption]; now apply (only_spec HT).
  - eapply good_valid; [|eassumption]; now apply (only_spec HT).
  - apply (empty_valid HT).
  - destruct (insert_spec HT s v) as (x & E & Hx & _); auto. congruence.
  - destruct (remove_spec HT s v) as (x & E & Hx & _); auto. congruence.
  - eapply good_valid; [|eassumption]; now apply (union_spec HT a b).
  - eapply good_valid; [|eassumption]; now apply (intersection_spec HT a b).
  - eapply good_valid; [|eassumption]; now apply (difference_spec HT a b).
  - eapply good_valid; [|eassumption]; now apply (symmetrical_difference_spec HT a b).
  - eapply good_valid; [|eassumption]; now apply (complement_spec HT a).
  - eapply good_valid; [|eassumption]; now apply (union_spec HT a b).
  - eapply good_valid; [|eassumption]; now apply (difference_spec HT a b).
  - eapply good_valid; [apply (sub_spec HT a o)|eassumption]; auto using operand_valid.
  - eapply good_valid; [apply (bitand_spec HT a o)|eassumption]; auto using operand_valid.
  - eapply good_valid; [apply (bitor_spec HT a o)|eassumption]; auto using operand_valid.
  - eapply good_valid; [apply (bitxor_spec HT a o)|eassumption]; auto using operand_valid.
  - eapply good_valid; [apply (sub_spec HT a o)|eassumption]; auto using operand_valid.
  - eapply good_valid; [apply (bitand_spec HT a o)|eassumption]; auto using operand_valid.
  - eapply good_valid; [apply (bitor_spec HT a o)|eassumption]; auto using operand_valid.
  - eapply good_valid; [apply (bitxor_spec HT a o)|eassumption]; auto using operand_valid.
  - eapply good_valid; [|eassumption]; now apply (complement_spec HT a).
  - eapply good_valid; [apply (var_sub_spec HT u o)|eassumption]; auto using operand_valid.
  - eapply good_valid; [apply (var_bitand_spec HT u o)|eassumption]; auto using operand_valid.
  - eapply good_valid; [apply (var_bitor_spec HT u o)|eassumption]; auto using operand_valid.
  - eapply good_valid; [apply (var_bitxor_spec HT u o)|eassumption]; auto using operand_valid.
  - eapply good_valid; [apply (var_not_spec HT u)|eassumption]; auto.
  - eapply checks_valid; [|eassumption]; now apply (try_from_repr_spec HT x).
  - eapply expects_valid; [|eassumption]; now apply (from_repr_spec HT x).
  - eapply good_valid; [|eassumption]; now apply (from_repr_truncated_spec HT x).
  - unfold es_from_repr_unchecked. split; [assumption|]. intros i Hi.
    assert (Hw : i < r_width (et_repr T)).
    { destruct (N.lt_ge_cases i (r_width (et_repr T))) as [|Hge]; [assumption|].
      rewrite (testbit_high _ (r_width (et_repr T))) in Hi; [discriminate| |assumption].
      now apply (rl_val_lt _ _ _ _ _ HR). }
    apply In_discr. apply H0; [assumption|]. rewrite (rl_has_bit _ _ _ _ _ HR); [now rewrite Hi|assumption|assumption|].
    eapply N.lt_le_trans; [exact Hw|apply (tl_width_pw _ _ _ _ _ HT)].
  - eapply checks_valid; [|eassumption]; now apply (try_from_spec HT t x).
  - eapply expects_valid; [|eassumption]; now apply (from_num_spec HT t x).
  - eapply good_valid; [|eassumption]; now apply (from_truncated_spec HT t x).
  - eapply unchecked_valid; [|eassumption]; now apply (from_unchecked_spec HT t x).
  - eapply checks_valid; [|eassumption]; now apply (try_from_array_spec HT l).
  - eapply expects_valid; [|eassumption]; now apply (from_array_spec HT l).
  - eapply good_valid; [|eassumption]; now apply (from_array_truncated_spec HT l).
  - eapply unchecked_valid; [apply (from_array_unchecked_spec HT l)|eassumption]; [assumption|now apply only_words_lval].
  - eapply checks_valid; [|eassumption]; now apply (try_from_slice_spec HT l).
  - eapply expects_valid; [|eassumption]; now apply (from_slice_spec HT l).
  - eapply good_valid; [|eassumption]; now apply (from_slice_truncated_spec HT l).
  - eapply unchecked_valid; [apply (from_slice_unchecked_spec HT l)|eassumption]; [assumption|now apply only_words_lval].
  - eapply good_valid; [|eassumption]; now apply (extend_spec HT a items).
  - eapply good_valid; [|eassumption]; now apply (from_iter_spec HT items).
  - eapply good_valid; [|eassumption]; now apply (extend_sets_spec HT a items).
  - eapply good_valid; [|eassumption]; now apply (from_iter_sets_spec HT items).
  - eapply good_valid; [|eassumption]; now apply (sum_sets_spec HT items).
  - eapply good_valid; [|eassumption]; now apply (sum_spec HT items).
  - eapply same_valid; [apply (mc_enum_set_same HT ops)|eassumption]. now apply operands_valid.
  - eapply same_valid; [apply (mc_union_same HT o ops)|eassumption].
    + apply (operands_valid (o :: ops)); auto; now left.
    + intros p Hp. apply (operands_valid (o :: ops)); auto; now right.
  - eapply same_valid; [apply (mc_intersection_same HT o ops)|eassumption].
    + apply (operands_valid (o :: ops)); auto; now left.
    + intros p Hp. apply (operands_valid (o :: ops)); auto; now right.
  - eapply same_valid; [apply (mc_difference_same HT o ops)|eassumption].
    + apply (operands_valid (o :: ops)); auto; now left.
    + intros p Hp. apply (operands_valid (o :: ops)); auto; now right.
  - eapply same_valid; [apply (mc_symmetric_difference_same HT o ops)|eassumption].
    + apply (operands_valid (o :: ops)); auto; now left.
    + intros p Hp. apply (operands_valid (o :: ops)); auto; now right.
  - eapply same_valid; [apply (mc_complement_same HT o)|eassumption]. now apply operand_valid.
  - destruct (serde_int_facts t) as [Hm Hl]; auto. destruct input as [x|e]; [|discriminate].
    destruct (de_int_spec HT t x Hm (H1 x eq_refl) Hl) as [[_ E]|[_ (s' & E & Hs' & _)]]; congruence.
  - destruct input as [items|e]; [|discriminate].
    pose proof (de_list_spec HT items (fun v => H items v eq_refl)) as HD.
    destruct (all_ok items); [|congruence]. destruct HD as (s' & E & Hs' & _). congruence.
  - destruct input as [items|e]; [|discriminate].
    pose proof (de_map_spec HT items (fun v b => H items v b eq_refl)) as HD.
    destruct (all_ok items); [|congruence]. destruct HD as (s' & E & Hs' & _). congruence.
  - destruct input as [items|e]; [|discriminate].
    eapply (de_array_ok HT); [|eassumption]. intros x. now apply H0.
Qed.

(** Denotation in terms of the stored bits. *)
Lemma reachable_denotes s : Reachable pw inp T s -> Denotes inp T s (mem s).
Proof. intros H. apply (denotes_mem HT); [|reflexivity || auto]. apply (reachable_valid s H). Qed.
Lemma denotes_iff s A : Valid s -> Denotes inp T s A -> forall v, variant inp v -> mem s v = A v.
Proof. intros Hs H. apply (denotes_mem HT s A); [apply Hs|assumption]. Qed.
Lemma valid_denotes s A : Valid s -> (forall v, variant inp v -> mem s v = A v) -> Denotes inp T s A.
Proof. intros Hs H. apply (denotes_mem HT s A); [apply Hs|assumption]. Qed.
Lemma good_returns m A : Good m A -> Returns inp T m A.
Proof. intros (s & E & Hs & H). exists s. split; [assumption|]. now apply valid_denotes. Qed.
End Reach.

(** What a theorem about a reachable set needs. *)
Lemma setup pw inp T : Supported pw inp T ->
  exists val irel, TyLaws pw (discrs inp) T val irel /\
    forall s, Reachable pw inp T s -> @Valid inp T val s.
Proof.
  intros HS. destruct (supported_laws _ _ _ HS) as (val & irel & HT). exists val, irel. split; [assumption|].
  intros s. now apply (reachable_valid HT HS).
Qed.

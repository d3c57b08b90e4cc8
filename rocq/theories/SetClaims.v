(** * Claims about sets: membership, algebra, comparison *)
From Verif Require Import Base BaseFacts LimbFacts Repr ReprLaws.
From Verif Require Import Syntax Spec Derive EnumSet ApiSpec TyFacts SetFacts IterFacts ConvFacts MacroFacts ReachFacts.

Ltac start := match goal with HS : Supported _ _ _ |- _ =>
  let val := fresh "val" in let irel := fresh "irel" in let HT := fresh "HT" in let HV := fresh "HV" in
  destruct (setup _ _ _ HS) as (val & irel & HT & HV) end.
(** From the members observed by [contains] to the stored bits. *)
Ltac members s := match goal with
  | HT : TyLaws _ _ _ _ _, HV : forall s, Reachable _ _ _ s -> _, HR : Reachable _ _ _ s, HD : Denotes _ _ s _ |- _ =>
      let Hm := fresh "Hm" in
      pose proof (denotes_iff HT s _ (HV s HR) HD) as Hm; apply HV in HR; clear HD end.
Ltac ret_members := match goal with HT : TyLaws _ _ _ _ _ |- _ => apply (good_returns HT) end.

Lemma bounded_length l K : NoDup l -> (forall x, In x l -> x < K) -> N.of_nat (length l) <= K.
Proof.
  intros Hn Hb. assert (H : (length l <= length (map N.of_nat (seq 0 (N.to_nat K))))%nat).
  { apply NoDup_incl_length; [assumption|]. intros x Hx. apply in_map_iff. exists (N.to_nat x).
    split; [apply N2Nat.id|]. apply in_seq. specialize (Hb x Hx). lia. }
  rewrite map_length, seq_length in H. lia.
Qed.
Lemma count_lt_u32 inp : WellFormed inp -> N.of_nat (length (in_variants inp)) < 2 ^ 32.
Proof.
  intros HW. rewrite <- (discrs_length inp). eapply N.le_lt_trans.
  - apply (bounded_length _ (2 ^ 32 - 1)); [apply (wf_distinct _ HW)|]. intros x Hx.
    apply (wf_max _ HW) in Hx. eapply N.le_lt_trans; [exact Hx|reflexivity].
  - reflexivity.
Qed.

(** ** C01 *)
Lemma empty_members pw inp T : Supported pw inp T ->
  Denotes inp T (es_new T) (fun _ => false) /\
  Denotes inp T (es_empty T) (fun _ => false) /\
  Denotes inp T (es_default T) (fun _ => false) /\
  Denotes inp T (es_EMPTY T) (fun _ => false) /\
  (forall s, Reachable pw inp T s -> Denotes inp T (es_clear T s) (fun _ => false)).
Proof.
  intros HS. start.
  assert (H : Denotes inp T (es_empty T) (fun _ => false)).
  { apply (valid_denotes HT); [apply (empty_valid HT)|]. intros v Hv. apply (empty_mem HT v Hv). }
  repeat split; auto.
Qed.
Lemma all_members pw inp T : Supported pw inp T ->
  Denotes inp T (es_all T) (fun _ => true) /\
  Denotes inp T (es_ALL T) (fun _ => true).
Proof.
  intros HS. start. change (es_ALL T) with (es_all T).
  assert (H : Denotes inp T (es_all T) (fun _ => true)); [|now split]. apply (valid_denotes HT); [apply (all_valid HT)|]. intros v Hv. apply (all_mem HT v Hv).
Qed.
Lemma only_members pw inp T t : Supported pw inp T -> variant inp t ->
  Returns inp T (es_only T t) (fun v => (v =? t)%nat) /\
  Returns inp T (es_from T t) (fun v => (v =? t)%nat).
Proof. intros HS Ht. start. split; ret_members; now apply (only_spec HT). Qed.

(** ** C02, C03 *)
Lemma insert_members pw inp T s A v : Supported pw inp T -> Reachable pw inp T s -> Denotes inp T s A ->
  variant inp v ->
  exists s', es_insert T s v = Ret (negb (A v), s') /\
    Denotes inp T s' (fun u => if (u =? v)%nat then true else A u).
Proof.
  intros HS HR HA Hv. start. members s. destruct (insert_spec HT s v HR Hv) as (s' & E & Hs' & H).
  exists s'. rewrite E, (Hm v Hv). split; [reflexivity|]. apply (valid_denotes HT); [assumption|].
  intros u Hu. rewrite H by assumption. destruct (u =? v)%nat; [reflexivity|now apply Hm].
Qed.
Lemma remove_members pw inp T s A v : Supported pw inp T -> Reachable pw inp T s -> Denotes inp T s A ->
  variant inp v ->
  exists s', es_remove T s v = Ret (A v, s') /\
    Denotes inp T s' (fun u => if (u =? v)%nat then false else A u).
Proof.
  intros HS HR HA Hv. start. members s. destruct (remove_spec HT s v HR Hv) as (s' & E & Hs' & H).
  exists s'. rewrite E, (Hm v Hv). split; [reflexivity|]. apply (valid_denotes HT); [assumption|].
  intros u Hu. rewrite H by assumption. destruct (u =? v)%nat; [reflexivity|now apply Hm].
Qed.

(** ** C04 *)
Lemma op_members pw inp T a A b B : Supported pw inp T ->
  Reachable pw inp T a -> Denotes inp T a A -> Reachable pw inp T b -> Denotes inp T b B ->
  Returns inp T (es_union T a b) (fun v => A v || B v) /\
  Returns inp T (es_intersection T a b) (fun v => A v && B v) /\
  Returns inp T (es_difference T a b) (fun v => A v && negb (B v)) /\
  Returns inp T (es_symmetrical_difference T a b) (fun v => xorb (A v) (B v)) /\
  Returns inp T (es_complement T a) (fun v => negb (A v)).
Proof.
  intros HS Ra Da Rb Db. start. members a. members b. repeat split; ret_members.
  - eapply (good_ext (val := val)); [|now apply (union_spec HT)]. intros v Hv. cbv beta. now rewrite Hm, Hm0.
  - eapply (good_ext (val := val)); [|now apply (intersection_spec HT)]. intros v Hv. cbv beta. now rewrite Hm, Hm0.
  - eapply (good_ext (val := val)); [|now apply (difference_spec HT)]. intros v Hv. cbv beta. now rewrite Hm, Hm0.
  - eapply (good_ext (val := val)); [|now apply (symmetrical_difference_spec HT)]. intros v Hv. cbv beta. now rewrite Hm, Hm0.
  - eapply (good_ext (val := val)); [|now apply (complement_spec HT)]. intros v Hv. cbv beta. now rewrite Hm.
Qed.

(** ** C05 *)
Lemma bits_are_variants pw inp T s : Supported pw inp T -> Reachable pw inp T s ->
  (forall i, i < r_width (et_repr T) -> r_has_bit (et_repr T) s i = Ret true -> exists v, variant inp v /\ discr inp v = i) /\
  (exists ws, es_to_vec T s = Ret ws /\ only_variant_words inp ws).
Proof.
  intros HS HR. start. apply HV in HR. pose proof (tl_repr _ _ _ _ _ HT) as HL. split.
  - intros i Hi Hb. rewrite (rl_has_bit _ _ _ _ _ HL) in Hb; [|apply HR|assumption|].
    + inversion Hb. apply In_discr. now apply (valid_bits _ HR).
    + eapply N.lt_le_trans; [exact Hi|apply (tl_width_pw _ _ _ _ _ HT)].
  - eexists. split; [now apply (to_vec_spec HT)|]. intros i Hi. rewrite word_bit_limbs, andb_true_iff in Hi.
    apply In_discr. now apply (valid_bits _ HR).
Qed.

(** ** C06 *)
Lemma eq_members pw inp T a A b B : Supported pw inp T ->
  Reachable pw inp T a -> Denotes inp T a A -> Reachable pw inp T b -> Denotes inp T b B ->
  (es_eq T a b = true <-> forall v, variant inp v -> A v = B v) /\
  (a = b <-> forall v, variant inp v -> A v = B v).
Proof.
  intros HS Ra Da Rb Db. start. members a. members b.
  assert (H : (forall v, variant inp v -> SetFacts.mem (inp := inp) (val := val) a v = SetFacts.mem (inp := inp) (val := val) b v)
              <-> forall v, variant inp v -> A v = B v).
  { split; intros H v Hv; specialize (H v Hv); rewrite Hm, Hm0 in * by assumption; assumption. }
  split.
  - rewrite (eq_spec HT) by assumption. exact H.
  - rewrite <- (eq_refl_iff HT) by assumption. rewrite (eq_spec HT) by assumption. exact H.
Qed.
Lemma eq_variant_members pw inp T s A t : Supported pw inp T -> Reachable pw inp T s -> Denotes inp T s A ->
  variant inp t ->
  exists b, es_eq_var T s t = Ret b /\ var_eq_set T t s = Ret b /\
    (b = true <-> forall v, variant inp v -> A v = (v =? t)%nat).
Proof.
  intros HS HR HA Ht. start. members s.
  exists (forallb (fun u => Bool.eqb (A u) (u =? t)%nat) (variants inp)).
  assert (E : forallb (fun u => Bool.eqb (SetFacts.mem (inp := inp) (val := val) s u) (u =? t)%nat) (variants inp)
              = forallb (fun u => Bool.eqb (A u) (u =? t)%nat) (variants inp)).
  { apply (all_variants_ext (inp := inp)). intros v Hv. now rewrite Hm. }
  split; [rewrite (eq_var_spec HT) by assumption; now rewrite E|].
  split; [rewrite (var_eq_set_spec HT) by assumption; now rewrite E|].
  rewrite forallb_forall. split.
  - intros H v Hv. apply eqb_prop, H, variants_In, Hv.
  - intros H v Hv. apply variants_In in Hv. rewrite H by assumption. now destruct (v =? t)%nat.
Qed.

(** ** C07 *)
Lemma len_members pw inp T s A : Supported pw inp T -> Reachable pw inp T s -> Denotes inp T s A ->
  es_len T s = Ret (set_size inp A) /\
  (es_is_empty T s = true <-> forall v, variant inp v -> A v = false) /\
  (es_is_empty T s = true <-> es_len T s = Ret 0).
Proof.
  intros HS HR HA. start. members s.
  assert (E : es_len T s = Ret (set_size inp A)).
  { rewrite (len_spec HT) by assumption. f_equal. now apply set_size_ext. }
  assert (H : es_is_empty T s = true <-> forall v, variant inp v -> A v = false).
  { rewrite (is_empty_spec HT) by assumption. rewrite forallb_forall. split.
    - intros H v Hv. rewrite <- Hm by assumption. apply negb_true_iff, H, variants_In, Hv.
    - intros H v Hv. apply variants_In in Hv. rewrite Hm, H by assumption. reflexivity. }
  split; [assumption|]. split; [assumption|]. rewrite H, E. split.
  - intros H0. f_equal. unfold set_size. rewrite (filter_ext_in _ (fun _ => false)).
    + induction (variants inp); cbn; auto.
    + intros v Hv. apply H0, variants_In, Hv.
  - intros E0 v Hv. inversion E0 as [E1]. destruct (A v) eqn:EA; [|reflexivity].
    assert (Hin : In v (filter A (variants inp))) by (apply filter_In; split; [now apply variants_In|assumption]).
    unfold set_size in E1. destruct (filter A (variants inp)); [destruct Hin|cbn in E1; lia].
Qed.
Lemma all_len pw inp T : Supported pw inp T ->
  es_len T (es_all T) = Ret (es_variant_count T) /\ es_variant_count T = N.of_nat (length (in_variants inp)).
Proof.
  intros HS. start.
  assert (Ec : es_variant_count T = N.of_nat (length (in_variants inp))).
  { destruct (sup_derive _ _ _ HS) as [md Hmd]. destruct (derive_ok pw inp T Hmd) as (HW & i & Hi & HG). unfold es_variant_count.
    assert (Hlt : N.of_nat (length (in_variants inp)) < 2 ^ 32).
    { destruct (sup_usize _ _ _ HS) as [E|[E|E]]; subst; pose proof (sup_count _ _ _ HS).
      - eapply N.lt_trans; [eassumption|]. reflexivity.
      - assumption.
      - apply (count_lt_u32 inp HW). }
    destruct HG; cbn; rewrite (info_count _ _ Hi); now apply wrap_small. }
  split; [|assumption]. rewrite Ec, (len_spec HT) by apply (all_valid HT). f_equal.
  rewrite (set_size_ext _ _ (fun _ => true)) by (intros v Hv; now apply (all_mem HT)).
  unfold set_size, variants. f_equal.
  assert (Hf : forall l : list nat, filter (fun _ => true) l = l) by (induction l; cbn; congruence).
  rewrite Hf. apply seq_length.
Qed.

(** ** C11 *)
Lemma relation_members pw inp T a A b B : Supported pw inp T ->
  Reachable pw inp T a -> Denotes inp T a A -> Reachable pw inp T b -> Denotes inp T b B ->
  (exists r, es_is_subset T a b = Ret r /\ (r = true <-> forall v, variant inp v -> A v = true -> B v = true)) /\
  (exists r, es_is_superset T a b = Ret r /\ (r = true <-> forall v, variant inp v -> B v = true -> A v = true)) /\
  (exists r, es_is_disjoint T a b = Ret r /\ (r = true <-> ~ exists v, variant inp v /\ A v = true /\ B v = true)).
Proof.
  intros HS Ra Da Rb Db. start. members a. members b. repeat split.
  - eexists. split; [now apply (subset_spec HT)|]. rewrite forallb_forall. split.
    + intros H v Hv. specialize (H v (proj2 (variants_In _ _) Hv)). rewrite Hm, Hm0 in H by assumption.
      destruct (A v); [|discriminate]. cbn in H. auto.
    + intros H v Hv. apply variants_In in Hv. rewrite Hm, Hm0 by assumption. specialize (H v Hv). destruct (A v); cbn; auto.
  - eexists. split; [now apply (superset_spec HT)|]. rewrite forallb_forall. split.
    + intros H v Hv. specialize (H v (proj2 (variants_In _ _) Hv)). rewrite Hm, Hm0 in H by assumption.
      destruct (B v); [|discriminate]. cbn in H. auto.
    + intros H v Hv. apply variants_In in Hv. rewrite Hm, Hm0 by assumption. specialize (H v Hv). destruct (B v); cbn; auto.
  - eexists. split; [now apply (disjoint_spec HT)|]. rewrite forallb_forall. split.
    + intros H (v & Hv & E1 & E2). specialize (H v (proj2 (variants_In _ _) Hv)). rewrite Hm, Hm0, E1, E2 in H by assumption. discriminate.
    + intros H v Hv. apply variants_In in Hv. rewrite Hm, Hm0 by assumption.
      destruct (A v) eqn:E1, (B v) eqn:E2; try reflexivity. exfalso. eauto.
Qed.

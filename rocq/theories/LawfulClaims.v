(** * Claims about sets on any lawful storage *)
From Verif Require Import Base BaseFacts LimbFacts Repr ReprLaws Prim PrimFacts ArrayRepr ArrayFacts Syntax Spec Derive
  DeriveFacts TyFacts EnumSet SetFacts IterFacts ConvFacts ReachFacts ApiSpec StorageSpec StorageClaims.
Ltac Zify.zify_post_hook ::= Z.div_mod_to_equations.

(** ** From the contract to the laws *)
Section Laws.
Context {pw : N} {R : ReprTrait} {value : r_t R -> N} (HL : Lawful pw R value).

Definition pops_irel (it : r_iter_t R) (l : list N) : Prop :=
  forall ps, exists it', r_pops R ps it = Ret (fst (pops ps l), it') /\
    let k := N.of_nat (length (snd (pops ps l))) in
    (k < 2 ^ pw -> r_iter_size_hint R it' = Ret (k, Some k)).

Lemma gives_yields m f v : gives value m f -> (forall i, N.testbit v i = f i) -> yields (r_ok R) value m v.
Proof.
  intros (z & -> & Hz & Ez) Hv. exists z. repeat split; auto. apply bit_eq. intros i. now rewrite Ez, Hv.
Qed.
Lemma pops_irel_step p it l : pops_irel it l ->
  exists it', (match p with Front => r_iter_next R it | Back => r_iter_next_back R it end) = Ret (fst (pop_end p l), it') /\
    pops_irel it' (snd (pop_end p l)).
Proof.
  intros H. destruct (H [p]) as (it1 & E1 & _). cbn [r_pops pops] in E1.
  destruct (match p with Front => r_iter_next R it | Back => r_iter_next_back R it end) as [[o it']| | |] eqn:En; try discriminate E1.
  cbn [bind] in E1. destruct (pop_end p l) as [o' l'] eqn:Ep. cbn [fst snd] in *. inversion E1; subst.
  exists it1. split; [reflexivity|]. intros ps. destruct (H (p :: ps)) as (it2 & E2 & H2).
  cbn [r_pops pops] in E2, H2. rewrite En in E2. cbn [bind] in E2. rewrite Ep in E2, H2.
  destruct (pops ps l') as [os l2]. cbn [fst snd] in *.
  destruct (r_pops R ps it1) as [[os' it3]| | |]; try discriminate E2. cbn [bind] in E2. inversion E2; subst.
  exists it2. auto.
Qed.
Lemma words_limbs l k x : length l = k -> words_ok l -> words_value l = x mod 2 ^ (64 * N.of_nat k) -> l = limbs k x.
Proof.
  intros Hk Hl E. apply lval_inj.
  - exact Hl.
  - apply limbs_limbs_ok.
  - now rewrite limbs_length.
  - rewrite <- words_value_lval, E. symmetry. apply lval_limbs.
Qed.
Lemma filter_bits x : x < 2 ^ r_width R ->
  map N.of_nat (filter (fun k => N.testbit x (N.of_nat k)) (seq 0 (N.to_nat (r_width R)))) = bits_of x.
Proof.
  intros Hlt. apply bits_of_unique.
  - set (P := fun k => N.testbit x (N.of_nat k)). generalize 0%nat. induction (N.to_nat (r_width R)) as [|n IH]; intros a; cbn [seq filter]; [constructor|].
    destruct (P a); [|apply IH]. cbn [map]. constructor; [apply IH|]. apply Forall_forall. intros k Hk.
    apply in_map_iff in Hk as (j & <- & Hj). apply filter_In in Hj as [Hj _]. apply in_seq in Hj. lia.
  - intros i. rewrite in_map_iff. split.
    + intros (k & <- & Hk). now apply filter_In in Hk.
    + intros Hi. exists (N.to_nat i). split; [apply N2Nat.id|]. apply filter_In. rewrite N2Nat.id. split; [|assumption].
      apply in_seq. assert (i < r_width R); [|lia]. apply N.nle_gt. intros Hge.
      rewrite (testbit_high _ _ _ Hlt Hge) in Hi. discriminate.
Qed.
Lemma opt_yields m o : gives_option value m o -> yields_opt (r_ok R) value m o.
Proof. exact (fun H => H). Qed.

Lemma lawful_laws : ReprLaws pw R (r_ok R) value pops_irel.
Proof.
  constructor.
  - apply (lw_width _ _ _ HL).
  - apply (lw_width _ _ _ HL).
  - apply (lw_words _ _ _ HL).
  - pose proof (lw_width _ _ _ HL). pose proof (lw_words _ _ _ HL). lia.
  - apply (lw_range _ _ _ HL).
  - apply (lw_inj _ _ _ HL).
  - intros x y Hx Hy. apply eq_iff_eq_true. rewrite (lw_eq _ _ _ HL), N.eqb_eq by assumption.
    split; [now intros ->|now apply (lw_inj _ _ _ HL)].
  - apply (lw_empty _ _ _ HL).
  - intros x y Hx Hy. destruct (lw_logic _ _ _ HL x y Hx Hy) as (H & _). eapply gives_yields; [exact H|]. intros i. apply N.land_spec.
  - intros x y Hx Hy. destruct (lw_logic _ _ _ HL x y Hx Hy) as (_ & H & _). eapply gives_yields; [exact H|]. intros i. apply N.lor_spec.
  - intros x y Hx Hy. destruct (lw_logic _ _ _ HL x y Hx Hy) as (_ & _ & H & _). eapply gives_yields; [exact H|]. intros i. apply N.lxor_spec.
  - intros x Hx. destruct (lw_logic _ _ _ HL x x Hx Hx) as (_ & _ & _ & _ & H). eapply gives_yields; [exact H|]. intros i.
    apply bnot_testbit. now apply (lw_range _ _ _ HL).
  - intros x y Hx Hy. destruct (lw_logic _ _ _ HL x y Hx Hy) as (_ & _ & _ & H & _). eapply gives_yields; [exact H|]. intros i. apply N.ldiff_spec.
  - intros x Hx. apply eq_iff_eq_true. rewrite (lw_is_empty _ _ _ HL), N.eqb_eq by assumption. split.
    + intros H. apply bit_eq. intros i. now rewrite H, N.bits_0.
    + intros -> i. apply N.bits_0.
  - intros x b Hx Hb Hp. destruct (lw_bit _ _ _ HL x b Hx Hb Hp) as (_ & H & _). eapply gives_yields; [exact H|].
    intros i. rewrite N.setbit_eqb. now rewrite N.eqb_sym.
  - intros x b Hx Hb Hp. destruct (lw_bit _ _ _ HL x b Hx Hb Hp) as (_ & _ & H). eapply gives_yields; [exact H|].
    intros i. rewrite N.clearbit_eqb, N.eqb_sym. apply andb_comm.
  - intros x b Hx Hb Hp. apply (lw_bit _ _ _ HL x b Hx Hb Hp).
  - intros x Hx. destruct (lw_counts _ _ _ HL x Hx) as (H & _). rewrite H. rewrite <- bits_of_length.
    rewrite <- (filter_bits _ (lw_range _ _ _ HL x Hx)), map_length. reflexivity.
  - intros x Hx. destruct (lw_counts _ _ _ HL x Hx) as (_ & (n & -> & Hn & H1 & H2) & _). f_equal.
    pose proof (lw_range _ _ _ HL x Hx) as Hlt. unfold u_leading_zeros. pose proof (size_bound _ _ Hlt) as Hs.
    enough (N.size (value x) = r_width R - n) by lia.
    assert (Hle : N.size (value x) <= r_width R - n) by (apply size_bound, lt_pow2_of_bits; assumption).
    destruct H2 as [->|H2]; [lia|].
    destruct (N.eq_dec (value x) 0) as [E|E]; [rewrite E, N.bits_0 in H2; discriminate|].
    destruct (N.eq_dec n (r_width R)) as [->|Hne]; [lia|].
    rewrite N.size_log2 in * by assumption.
    destruct (N.lt_ge_cases (N.log2 (value x)) (r_width R - n - 1)) as [Hl|Hl]; [|lia].
    rewrite N.bits_above_log2 in H2 by assumption. discriminate.
  - intros x Hx. destruct (lw_counts _ _ _ HL x Hx) as (_ & _ & (n & -> & Hn & H1 & H2)). f_equal.
    pose proof (lw_range _ _ _ HL x Hx) as Hlt.
    destruct (N.eq_dec (value x) 0) as [E|E].
    + destruct H2 as [->|H2]; [now rewrite E|]. rewrite E, N.bits_0 in H2. discriminate.
    + destruct (ctz_spec (r_width R) (value x) E) as [C1 C2].
      assert (Hc : u_trailing_zeros (r_width R) (value x) < r_width R).
      { apply N.nle_gt. intros Hge. rewrite (testbit_high _ _ _ Hlt Hge) in C1. discriminate. }
      destruct (N.lt_trichotomy n (u_trailing_zeros (r_width R) (value x))) as [Hl|[Hl|Hl]]; [|assumption|].
      * destruct H2 as [->|H2]; [lia|]. rewrite C2 in H2 by assumption. discriminate.
      * rewrite H1 in C1 by assumption. discriminate.
  - intros x Hx. destruct (lw_iter _ _ _ HL x Hx) as (it & l & Ei & Hs & Hl & H). exists it. split; [assumption|].
    rewrite <- (bits_of_unique (value x) l Hs Hl). exact H.
  - intros it l H. exact (pops_irel_step Front it l H).
  - intros it l b H. destruct (pops_irel_step Back it _ H) as (it' & E & H'). exists it'.
    cbn [pop_end fst snd] in *. rewrite rev_app_distr in *. cbn [rev app hd_error tl] in *. rewrite rev_involutive in H'. auto.
  - intros it H. exact (pops_irel_step Back it [] H).
  - intros it l H Hk. destruct (H []) as (it' & E & H'). cbn [r_pops] in E. inversion E; subst. exact (H' Hk).
  - intros t v Hv. exact (proj1 (lw_of_int _ _ _ HL t v Hv)).
  - intros t x Hx. apply (lw_int _ _ _ HL t x Hx).
  - intros t v Hv. exact (proj2 (lw_of_int _ _ _ HL t v Hv)).
  - intros t x Hx. apply (lw_int _ _ _ HL t x Hx).
  - intros x k Hx. destruct (lw_to_words _ _ _ HL x k Hx) as (l & H1 & H2 & H3 & H4 & _). now rewrite H4, (words_limbs l k _ H1 H2 H3).
  - intros x k Hx. destruct (lw_to_words _ _ _ HL x k Hx) as (l & H1 & H2 & H3 & _ & H4 & _). now rewrite H4, (words_limbs l k _ H1 H2 H3).
  - intros l Hl. apply words_ok_limbs in Hl. rewrite <- words_value_lval. apply (lw_of_words _ _ _ HL l Hl).
  - intros l Hl. apply words_ok_limbs in Hl. rewrite <- words_value_lval. apply (lw_of_words _ _ _ HL l Hl).
  - intros x out Hx. destruct (lw_to_words _ _ _ HL x (length out) Hx) as (l & H1 & H2 & H3 & _ & _ & H4).
    rewrite (proj1 (H4 out eq_refl)). now rewrite (words_limbs l _ _ H1 H2 H3).
  - intros x out Hx. destruct (lw_to_words _ _ _ HL x (length out) Hx) as (l & H1 & H2 & H3 & _ & _ & H4).
    rewrite (proj2 (H4 out eq_refl)). now rewrite (words_limbs l _ _ H1 H2 H3).
  - intros l Hl. apply words_ok_limbs in Hl. rewrite <- words_value_lval. apply (lw_of_words _ _ _ HL l Hl).
  - intros l Hl. apply words_ok_limbs in Hl. rewrite <- words_value_lval. apply (lw_of_words _ _ _ HL l Hl).
  - apply (lw_hash _ _ _ HL).
  - apply (lw_cmp_eq _ _ _ HL).
  - apply (lw_cmp_antisym _ _ _ HL).
  - apply (lw_cmp_trans _ _ _ HL).
Qed.
End Laws.

(** ** Back: the crate's storages are lawful, and the derive implements the trait *)
Lemma laws_lawful pw R val irel : ReprLaws pw R (r_ok R) val irel -> Lawful pw R val.
Proof.
  intros HL. assert (E : forall x, val x = val x) by reflexivity.
  assert (HB := fun x y => laws_bits pw R val x y val irel E HL). cbv zeta in HB.
  assert (HN := fun x => laws_numbers pw R val x val irel E HL). cbv zeta in HN.
  assert (HC := fun x => laws_counts pw R val x val irel E HL). cbv zeta in HC.
  assert (HI := fun x => laws_iter pw R val x val irel E HL). cbv zeta in HI.
  pose proof (rl_empty _ _ _ _ _ HL) as [He _].
  constructor; cbv zeta.
  - split; [apply (rl_width_pos _ _ _ _ _ HL)|apply (rl_width_u32 _ _ _ _ _ HL)].
  - apply (rl_pref_len _ _ _ _ _ HL).
  - apply (rl_empty _ _ _ _ _ HL).
  - intros x Hx. apply (HB x x Hx Hx).
  - intros x y Hx Hy. now apply (HB x y Hx Hy).
  - intros x y Hx Hy. now apply (HB x y Hx Hy).
  - intros x y Hx Hy. now apply (HB x y Hx Hy).
  - apply (rl_cmp_eq _ _ _ _ _ HL).
  - apply (rl_cmp_antisym _ _ _ _ _ HL).
  - apply (rl_cmp_trans _ _ _ _ _ HL).
  - intros x y Hx Hy. destruct (HB x y Hx Hy) as (_ & _ & _ & H1 & H2 & H3 & H4 & H5 & _). auto.
  - intros x b Hx Hb Hb'. destruct (HB x x Hx Hx) as (_ & _ & _ & _ & _ & _ & _ & _ & H & _). now apply H.
  - intros x Hx. apply (HB x x Hx Hx).
  - intros x Hx. destruct (HC x Hx) as ((n & H1 & ->) & H2 & H3). auto.
  - exact HI.
  - intros t x Hx. destruct (HN x Hx) as (H & _). destruct (H t) as (H1 & H2 & _). auto.
  - intros t v Hv. destruct (HN _ He) as (H & _). now apply (H t).
  - intros x k Hx. destruct (HN x Hx) as (_ & H & _). apply H.
  - intros l Hl. destruct (HN _ He) as (_ & _ & H). now apply H.
Qed.
Lemma yields_gives R (value : r_t R -> N) m f v : yields (r_ok R) value m v -> (forall i, N.testbit v i = f i) -> gives value m f.
Proof. intros (z & -> & Hz & Ez) Hv. exists z. repeat split; auto. intros i. now rewrite Ez, Hv. Qed.
Lemma ty_implements pw inp T val irel : TyLaws pw (discrs inp) T val irel -> Implements pw inp T val.
Proof.
  intros HT. constructor.
  - apply (tl_pw_ok _ _ _ _ _ HT).
  - apply (tl_pw _ _ _ _ _ HT).
  - apply laws_lawful with irel, HT.
  - apply (tl_width_pw _ _ _ _ _ HT).
  - apply (tl_discrs _ _ _ _ _ HT).
  - apply (tl_variants _ _ _ _ _ HT).
  - apply (tl_nodup _ _ _ _ _ HT).
  - intros v Hv. pose proof (discr_In inp v Hv) as Hd.
    split; [now apply (tl_lt_width _ _ _ _ _ HT)|]. split; [now apply (tl_lt_pw _ _ _ _ _ HT)|now apply (tl_max _ _ _ _ _ HT)].
  - rewrite <- discrs_length. apply (tl_count_pw _ _ _ _ _ HT).
  - split; [apply (tl_all_ok _ _ _ _ _ HT)|]. split; [|apply (tl_lit _ _ _ _ _ HT)]. intros i. rewrite (tl_all _ _ _ _ _ HT). apply In_discr.
  - intros v Hv. eapply yields_gives; [apply (tl_const_only _ _ _ _ _ HT), discr_In, Hv|]. intros i. apply pow2_testbit.
  - intros x y Hx Hy. cbv zeta. split; [|split; [|split]].
    + eapply yields_gives; [now apply (tl_const_union _ _ _ _ _ HT)|]. intros i. apply N.lor_spec.
    + eapply yields_gives; [now apply (tl_const_intersection _ _ _ _ _ HT)|]. intros i. apply N.land_spec.
    + eapply yields_gives; [now apply (tl_const_symmetric_difference _ _ _ _ _ HT)|]. intros i. apply N.lxor_spec.
    + eapply yields_gives; [now apply (tl_const_complement _ _ _ _ _ HT)|]. intros i. apply N.ldiff_spec.
Qed.

Section Sets.
Context {pw : N} {inp : derive_input} {T : EnumTy} {value : eset T -> N} (HI : Implements pw inp T value).
Local Notation irel := (@pops_irel pw (et_repr T)).

Lemma implements_laws : TyLaws pw (discrs inp) T value irel.
Proof.
  assert (F : forall d, In d (discrs inp) -> d < r_width (et_repr T) /\ d < 2 ^ pw /\ d <= 0xFFFFFFBF).
  { intros d Hd. apply In_discr in Hd as (v & Hv & <-). now apply (im_fits _ _ _ _ HI). }
  destruct (im_all _ _ _ _ HI) as (A1 & A2 & A3).
  constructor.
  - apply lawful_laws, HI.
  - apply HI.
  - apply HI.
  - exact A1.
  - intros i. rewrite A2. symmetry. apply In_discr.
  - exact A3.
  - apply HI.
  - apply HI.
  - apply HI.
  - intros d Hd. now apply F.
  - intros d Hd. now apply F.
  - intros d Hd. now apply F.
  - apply HI.
  - rewrite discrs_length. apply HI.
  - intros d Hd. apply In_discr in Hd as (v & Hv & <-).
    eapply gives_yields; [now apply (im_const_only _ _ _ _ HI)|]. intros i. apply pow2_testbit.
  - intros x y Hx Hy. destruct (im_const _ _ _ _ HI x y Hx Hy) as (H & _). eapply gives_yields; [exact H|]. intros i. apply N.lor_spec.
  - intros x y Hx Hy. destruct (im_const _ _ _ _ HI x y Hx Hy) as (_ & H & _). eapply gives_yields; [exact H|]. intros i. apply N.land_spec.
  - intros x y Hx Hy. destruct (im_const _ _ _ _ HI x y Hx Hy) as (_ & _ & H & _). eapply gives_yields; [exact H|]. intros i. apply N.lxor_spec.
  - intros x Hx. destruct (im_const _ _ _ _ HI x x Hx Hx) as (_ & _ & _ & H). eapply gives_yields; [exact H|]. intros i. apply N.ldiff_spec.
Qed.

Let HT := implements_laws.
Lemma proper_valid s : proper inp value s <-> @Valid inp T value s.
Proof.
  unfold proper. rewrite only_bits_In. split; [intros [H1 H2]; now split|intros [H1 H2]; auto].
Qed.
Lemma good_makes m A : @Good inp T value m A -> makes inp value m A.
Proof. intros (s & E & Hs & H). exists s. split; [assumption|]. split; [now apply proper_valid|exact H]. Qed.
Lemma forallb_variants (f : nat -> bool) (P : nat -> Prop) : (forall v, f v = true <-> P v) ->
  forallb f (variants inp) = true <-> forall v, variant inp v -> P v.
Proof.
  intros H. rewrite forallb_forall. split; intros G v Hv; apply H, G, variants_In; assumption || (now apply variants_In).
Qed.

Lemma on_any_storage_sets a b u : proper inp value a -> proper inp value b -> variant inp u ->
  let has s v := N.testbit (value s) (discr inp v) in
  makes inp value (Ret (es_new T)) (fun _ => false) /\
  makes inp value (Ret (es_all T)) (fun _ => true) /\
  makes inp value (es_only T u) (fun v => (v =? u)%nat) /\
  es_contains T a u = Ret (has a u) /\
  (exists s, es_insert T a u = Ret (negb (has a u), s) /\ makes inp value (Ret s) (fun v => (v =? u)%nat || has a v)) /\
  (exists s, es_remove T a u = Ret (has a u, s) /\ makes inp value (Ret s) (fun v => negb (v =? u)%nat && has a v)) /\
  makes inp value (es_union T a b) (fun v => has a v || has b v) /\
  makes inp value (es_intersection T a b) (fun v => has a v && has b v) /\
  makes inp value (es_difference T a b) (fun v => has a v && negb (has b v)) /\
  makes inp value (es_symmetrical_difference T a b) (fun v => xorb (has a v) (has b v)) /\
  makes inp value (es_complement T a) (fun v => negb (has a v)) /\
  es_len T a = Ret (set_size inp (has a)) /\
  (es_is_empty T a = true <-> forall v, variant inp v -> has a v = false) /\
  (es_eq T a b = true <-> forall v, variant inp v -> has a v = has b v) /\
  (a = b <-> forall v, variant inp v -> has a v = has b v) /\
  (exists r, es_is_subset T a b = Ret r /\ (r = true <-> forall v, variant inp v -> has a v = true -> has b v = true)) /\
  (exists r, es_is_superset T a b = Ret r /\ (r = true <-> forall v, variant inp v -> has b v = true -> has a v = true)) /\
  (exists r, es_is_disjoint T a b = Ret r /\ (r = true <-> forall v, variant inp v -> has a v = true -> has b v = false)).
Proof.
  intros Ha Hb Hu. apply proper_valid in Ha, Hb. cbv zeta.
  pose proof (@good_makes) as G.
  split; [apply G, (empty_spec HT)|].
  split; [apply G; exists (es_all T); split; [reflexivity|]; split; [apply (all_valid HT)|intros v Hv; now apply (all_mem HT)]|].
  split; [now apply G, (only_spec HT)|].
  split; [apply (contains_spec HT); [apply Ha|assumption]|].
  split. { destruct (insert_spec HT a u Ha Hu) as (s & E & Hs & H). exists s. split; [exact E|]. apply G. exists s. auto. }
  split. { destruct (remove_spec HT a u Ha Hu) as (s & E & Hs & H). exists s. split; [exact E|]. apply G. exists s. auto. }
  split; [now apply G, (union_spec HT)|].
  split; [now apply G, (intersection_spec HT)|].
  split; [now apply G, (difference_spec HT)|].
  split; [now apply G, (symmetrical_difference_spec HT)|].
  split; [now apply G, (complement_spec HT)|].
  split; [now apply (len_spec HT)|].
  split. { rewrite (is_empty_spec HT) by assumption. apply forallb_variants. intros v. apply negb_true_iff. }
  split; [now apply (eq_spec HT)|].
  split. { split; [now intros ->|now apply (valid_ext HT)]. }
  split. { eexists. split; [now apply (subset_spec HT)|]. apply forallb_variants. intros v. apply implb_true_iff. }
  split. { eexists. split; [now apply (superset_spec HT)|]. apply forallb_variants. intros v. apply implb_true_iff. }
  eexists. split; [now apply (disjoint_spec HT)|]. apply forallb_variants. intros v.
  unfold mem. destruct (N.testbit (value a) (discr inp v)), (N.testbit (value b) (discr inp v)); cbn; intuition congruence.
Qed.
Lemma on_any_storage_moves a : proper inp value a ->
  let has s v := N.testbit (value s) (discr inp v) in
  (exists it l, es_iter T a = Ret it /\ lists_set inp (has a) l /\
     forall ps, exists it', es_pops T ps it = Ret (fst (pops ps l), it') /\
       let k := N.of_nat (length (snd (pops ps l))) in
       es_size_hint T it' = Ret (k, Some k) /\ es_iter_len T it' = Ret k) /\
  (forall t, es_try_as T t a = Ret (if value a <? 2 ^ ity_bits pw t then Some (value a) else None)) /\
  (forall t x, x < 2 ^ ity_bits pw t ->
     (only_variant_bits inp x -> exists s, es_try_from T t x = Ret (Some s) /\ makes inp value (Ret s) (bits_set inp x)) /\
     (~ only_variant_bits inp x -> es_try_from T t x = Ret None) /\
     makes inp value (es_from_truncated T t x) (bits_set inp x)) /\
  (exists l, es_to_vec T a = Ret l /\ words_ok l /\ words_value l = value a /\ es_try_from_slice T l = Ret (Some a)).
Proof.
  intros Ha. apply proper_valid in Ha. cbv zeta. pose proof (tl_repr _ _ _ _ _ HT) as HR.
  split; [|split; [|split]].
  - destruct (iter_spec HT a Ha) as (it & l & E & Hl & Hi). exists it, l. split; [assumption|]. split; [assumption|].
    intros ps. destruct (pops_spec HT ps it l Hi) as (it' & Ep & Hp). exists it'. split; [assumption|].
    assert (Hk : N.of_nat (length (snd (pops ps l))) < 2 ^ pw).
    { pose proof (pops_length ps l). pose proof (list_lt_pw HT _ _ Hl). lia. }
    split; [now apply (size_hint_spec HT)|now apply (iter_len_spec HT)].
  - intros t. apply (rl_to_opt _ _ _ _ _ HR), Ha.
  - intros t x Hx. split; [|split].
    + intros Ho. destruct (try_from_spec HT t x Hx) as [[_ (s & E & Hs & Ev)]|[H _]]; [|contradiction].
      exists s. split; [assumption|]. exists s. split; [reflexivity|]. split; [now apply proper_valid|].
      intros v Hv. unfold bits_set. now rewrite Ev.
    + intros Ho. destruct (try_from_spec HT t x Hx) as [[H _]|[_ H]]; [contradiction|assumption].
    + now apply good_makes, (from_truncated_spec HT).
  - assert (Hl : lval (limbs (r_preferred_array_len (et_repr T)) (value a)) = value a).
    { rewrite lval_limbs. apply wrap_small. eapply N.lt_le_trans; [apply (rl_val_lt _ _ _ _ _ HR), Ha|].
      apply N.pow_le_mono_r; [discriminate|]. apply (rl_pref_len _ _ _ _ _ HR). }
    exists (limbs (r_preferred_array_len (et_repr T)) (value a)). split; [now apply (to_vec_spec HT)|].
    split; [apply words_ok_limbs, limbs_limbs_ok|]. split; [now rewrite words_value_lval|].
    destruct (try_from_slice_spec HT (limbs (r_preferred_array_len (et_repr T)) (value a))) as [[_ (s & E & Hs & Ev)]|[H _]].
    + apply limbs_limbs_ok.
    + rewrite E. repeat f_equal. apply (valid_same_val HT); auto. congruence.
    + exfalso. apply H. rewrite Hl. now apply (valid_only_bits).
Qed.
End Sets.

(** ** C68 *)
Lemma storages_lawful pw R value : pw = 16 \/ pw = 32 \/ pw = 64 -> Storage pw R value -> Lawful pw R value.
Proof.
  intros Hp HS. destruct HS as [md w pl Hw|md n Hn Hn'].
  - apply laws_lawful with (p_irel w), prim_laws.
    cbn in Hw. repeat destruct Hw as [Hw|Hw]; try contradiction; inversion Hw; subst; unfold prim_ok; lia.
  - assert (H : Lawful pw (array_repr md pw n) lval) by (apply laws_lawful with (a_irel n), array_laws; auto; lia).
    assert (E : words_value = lval) by reflexivity. rewrite E. exact H.
Qed.
Lemma derive_implements pw inp T : Supported pw inp T ->
  exists value, Implements pw inp T value /\ forall s, Reachable pw inp T s -> proper inp value s.
Proof.
  intros HS. destruct (setup _ _ _ HS) as (val & irel & HT & HV). exists val. split; [now apply ty_implements with irel|].
  intros s Hs. now apply proper_valid, HV.
Qed.
Lemma any_storage_sets pw inp T value a b u : Implements pw inp T value -> proper inp value a -> proper inp value b -> variant inp u ->
  let has s v := N.testbit (value s) (discr inp v) in
  makes inp value (Ret (es_new T)) (fun _ => false) /\
  makes inp value (Ret (es_all T)) (fun _ => true) /\
  makes inp value (es_only T u) (fun v => (v =? u)%nat) /\
  es_contains T a u = Ret (has a u) /\
  (exists s, es_insert T a u = Ret (negb (has a u), s) /\ makes inp value (Ret s) (fun v => (v =? u)%nat || has a v)) /\
  (exists s, es_remove T a u = Ret (has a u, s) /\ makes inp value (Ret s) (fun v => negb (v =? u)%nat && has a v)) /\
  makes inp value (es_union T a b) (fun v => has a v || has b v) /\
  makes inp value (es_intersection T a b) (fun v => has a v && has b v) /\
  makes inp value (es_difference T a b) (fun v => has a v && negb (has b v)) /\
  makes inp value (es_symmetrical_difference T a b) (fun v => xorb (has a v) (has b v)) /\
  makes inp value (es_complement T a) (fun v => negb (has a v)) /\
  es_len T a = Ret (set_size inp (has a)) /\
  (es_is_empty T a = true <-> forall v, variant inp v -> has a v = false) /\
  (es_eq T a b = true <-> forall v, variant inp v -> has a v = has b v) /\
  (a = b <-> forall v, variant inp v -> has a v = has b v) /\
  (exists r, es_is_subset T a b = Ret r /\ (r = true <-> forall v, variant inp v -> has a v = true -> has b v = true)) /\
  (exists r, es_is_superset T a b = Ret r /\ (r = true <-> forall v, variant inp v -> has b v = true -> has a v = true)) /\
  (exists r, es_is_disjoint T a b = Ret r /\ (r = true <-> forall v, variant inp v -> has a v = true -> has b v = false)).
Proof. intros HI. exact (on_any_storage_sets HI a b u). Qed.
Lemma any_storage_moves pw inp T value a : Implements pw inp T value -> proper inp value a ->
  let has s v := N.testbit (value s) (discr inp v) in
  (exists it l, es_iter T a = Ret it /\ lists_set inp (has a) l /\
     forall ps, exists it', es_pops T ps it = Ret (fst (pops ps l), it') /\
       let k := N.of_nat (length (snd (pops ps l))) in
       es_size_hint T it' = Ret (k, Some k) /\ es_iter_len T it' = Ret k) /\
  (forall t, es_try_as T t a = Ret (if value a <? 2 ^ ity_bits pw t then Some (value a) else None)) /\
  (forall t x, x < 2 ^ ity_bits pw t ->
     (only_variant_bits inp x -> exists s, es_try_from T t x = Ret (Some s) /\ makes inp value (Ret s) (bits_set inp x)) /\
     (~ only_variant_bits inp x -> es_try_from T t x = Ret None) /\
     makes inp value (es_from_truncated T t x) (bits_set inp x)) /\
  (exists l, es_to_vec T a = Ret l /\ words_ok l /\ words_value l = value a /\ es_try_from_slice T l = Ret (Some a)).
Proof. intros HI. exact (on_any_storage_moves HI a). Qed.

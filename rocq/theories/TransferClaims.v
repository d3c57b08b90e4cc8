(** * Claims about sets of one enum converted to sets of another *)
From Verif Require Import Base BaseFacts LimbFacts Repr ReprLaws.
From Verif Require Import Syntax Spec Derive EnumSet ApiSpec ExtraSpec TyFacts SetFacts IterFacts ConvFacts ReachFacts.
From Verif Require Import SetClaims ConvClaims EvolveClaims ExtraClaims LawClaims.
Ltac Zify.zify_post_hook ::= Z.div_mod_to_equations.

Lemma counterparts_true inp inp' A v : counterparts inp inp' A v = true <->
  exists u, variant inp u /\ A u = true /\ discr inp u = discr inp' v.
Proof.
  unfold counterparts. rewrite existsb_exists. split.
  - intros (u & Hu & H). apply andb_true_iff in H as [HA E]. apply N.eqb_eq in E. apply variants_In in Hu. eauto.
  - intros (u & Hu & HA & E). exists u. split; [now apply variants_In|]. rewrite HA, E. apply N.eqb_refl.
Qed.
Lemma denotes_ext inp T s A B : (forall v, variant inp v -> A v = B v) -> Denotes inp T s A -> Denotes inp T s B.
Proof. intros H HA v Hv. rewrite <- H by assumption. now apply HA. Qed.

(** ** C67 *)
Lemma transfer_integer pw inp T pw' inp' T' s A t : Supported pw inp T -> Supported pw' inp' T' ->
  ity_bits pw t = ity_bits pw' t -> Reachable pw inp T s -> Denotes inp T s A ->
  (forall u, variant inp u -> A u = true -> discr inp u < ity_bits pw t) ->
  exists x, es_as T t s = Ret x /\
    Returns inp' T' (es_from_truncated T' t x) (counterparts inp inp' A) /\
    ((forall u, variant inp u -> A u = true -> exists v, variant inp' v /\ discr inp' v = discr inp u) ->
       exists s', es_from_num T' t x = Ret s' /\ es_try_from T' t x = Ret (Some s') /\
         Denotes inp' T' s' (counterparts inp inp' A) /\
         (y <- es_as T' t s' ;; es_from_num T t y) = Ret s) /\
    ((exists u, variant inp u /\ A u = true /\ forall v, variant inp' v -> discr inp' v <> discr inp u) ->
       es_try_from T' t x = Ret None).
Proof.
  intros HS HS' Hb HR HA Hfit. pose proof (sup_distinct _ _ _ HS) as HD. pose proof (sup_distinct _ _ _ HS') as HD'.
  destruct (to_integer _ _ _ _ _ t HS HR HA) as (H1 & _ & _). destruct (H1 Hfit) as [Htry Has]. clear H1.
  set (x := set_value inp A) in *. exists x. split; [exact Has|].
  assert (Hx : x < 2 ^ ity_bits pw t) by now apply set_value_lt.
  assert (Hx' : x < 2 ^ ity_bits pw' t) by now rewrite <- Hb.
  assert (Hbits : forall v, bits_set inp' x v = counterparts inp inp' A v).
  { intros v. apply eq_true_iff_eq. unfold bits_set, x. rewrite set_value_testbit, counterparts_true by assumption. reflexivity. }
  destruct (from_integer _ _ _ t x HS' Hx') as (F1 & F2 & (s0 & E0 & D0)).
  split; [exists s0; split; [assumption|]; exact (denotes_ext _ _ _ _ _ (fun v _ => Hbits v) D0)|]. split.
  - intros Hall. assert (Ho : only_variant_bits inp' x).
    { intros i. unfold x. rewrite set_value_testbit by assumption. intros (u & Hu & HAu & <-). now apply Hall. }
    destruct (F1 Ho) as (s' & Et & Ef & Ds). exists s'. split; [assumption|]. split; [assumption|].
    split; [exact (denotes_ext _ _ _ _ _ (fun v _ => Hbits v) Ds)|].
    pose proof (from_as _ _ _ _ _ _ HS' Hx' Et) as Eb. unfold es_as. rewrite Eb. cbn [bind expect].
    pose proof (as_from _ _ _ _ _ _ HS HR Htry) as Er. unfold es_from_num. rewrite Er. reflexivity.
  - intros (u & Hu & HAu & Hno). apply F2. intros Ho. destruct (Ho (discr inp u)) as (v & Hv & E); [|now apply (Hno v)].
    unfold x. rewrite set_value_testbit by assumption. eauto.
Qed.
Lemma transfer_words pw inp T pw' inp' T' s A : Supported pw inp T -> Supported pw' inp' T' ->
  Reachable pw inp T s -> Denotes inp T s A ->
  exists ws, es_to_vec T s = Ret ws /\
    Returns inp' T' (es_from_slice_truncated T' ws) (counterparts inp inp' A) /\
    ((forall u, variant inp u -> A u = true -> exists v, variant inp' v /\ discr inp' v = discr inp u) ->
       exists s', es_from_slice T' ws = Ret s' /\ es_try_from_slice T' ws = Ret (Some s') /\
         Denotes inp' T' s' (counterparts inp inp' A) /\
         (ws' <- es_to_vec T' s' ;; es_from_slice T ws') = Ret s) /\
    ((exists u, variant inp u /\ A u = true /\ forall v, variant inp' v -> discr inp' v <> discr inp u) ->
       es_try_from_slice T' ws = Ret None).
Proof.
  intros HS HS' HR HA. destruct (to_vec_lossless _ _ _ _ _ HS HR HA) as (Hlt & ws & Ev & Hlen & (Hok & Hw) & Eback & _).
  exists ws. split; [exact Ev|].
  assert (Hbits : forall v, word_bit ws (discr inp' v) = counterparts inp inp' A v).
  { intros v. apply eq_true_iff_eq. rewrite Hw, counterparts_true. split.
    - intros (u & Hu & E & HAu & _). eauto.
    - intros (u & Hu & HAu & E). exists u. rewrite <- E. auto. }
  destruct (from_words _ _ _ ws HS' Hok) as (F1 & F2 & (s0 & _ & E0 & D0)).
  split; [exists s0; split; [assumption|]; exact (denotes_ext _ _ _ _ _ (fun v _ => Hbits v) D0)|]. split.
  - intros Hall. assert (Ho : only_variant_words inp' ws).
    { intros i. rewrite Hw. intros (u & Hu & <- & HAu & _). now apply Hall. }
    destruct (F1 Ho) as (s' & _ & _ & Et & Ef & Ds). exists s'. split; [assumption|]. split; [assumption|].
    assert (Ds' : Denotes inp' T' s' (counterparts inp inp' A)) by (exact (denotes_ext _ _ _ _ _ (fun v _ => Hbits v) Ds)).
    split; [assumption|].
    assert (HR' : Reachable pw' inp' T' s') by now apply (R_try_from_slice pw' inp' T' ws).
    destruct (to_vec_lossless _ _ _ _ _ HS' HR' Ds') as (Hlt' & ws' & Ev' & _ & (Hok' & Hw') & _).
    rewrite Ev', bind_ret.
    assert (Hb' : forall i, word_bit ws' i = word_bit ws i).
    { intros i. apply eq_true_iff_eq. rewrite Hw', Hw. split.
      - intros (v & Hv & <- & Hc & _). apply counterparts_true in Hc as (u & Hu & HAu & E). exists u. rewrite <- E. auto.
      - intros (u & Hu & <- & HAu & _). destruct (Hall u Hu HAu) as (v & Hv & E). exists v. rewrite <- E.
        repeat split; auto. apply counterparts_true. eauto. }
    destruct (from_words _ _ _ ws' HS Hok') as (G1 & _ & _). destruct G1 as (s2 & _ & _ & Et2 & -> & D2).
    { intros i Hi. rewrite Hb', Hw in Hi. destruct Hi as (u & Hu & E & _). eauto. }
    f_equal. apply (same_members_eq pw inp T); auto; [now apply (R_try_from_slice pw inp T ws')|].
    intros u Hu. rewrite (D2 u Hu), (HA u Hu). f_equal. apply eq_true_iff_eq. rewrite Hb', Hw. split.
    + intros (u' & Hu' & E & HAu & _). apply (discr_inj inp u' u (sup_distinct _ _ _ HS)) in E; congruence.
    + intros HAu. exists u. auto.
  - intros (u & Hu & HAu & Hno). apply F2. intros Ho. destruct (Ho (discr inp u)) as (v & Hv & E); [|now apply (Hno v)].
    rewrite Hw. exists u. auto.
Qed.

(** * Claims about conversions *)
From Verif Require Import Base BaseFacts LimbFacts Repr ReprLaws PrimFacts.
From Verif Require Import Syntax Spec Derive EnumSet ApiSpec DeriveFacts TyFacts SetFacts IterFacts ConvFacts MacroFacts ReachFacts SetClaims.

Definition no_fit : panic := PExpect "Bitset will not fit into this type.".
Definition bad_bits : panic := PExpect "Bitset contains invalid variants.".

Lemma fits_ext inp A B n : (forall v, variant inp v -> A v = B v) -> fits (inp := inp) A n = fits (inp := inp) B n.
Proof. intros H. unfold fits. apply (all_variants_ext (inp := inp)). intros v Hv. now rewrite H. Qed.
Lemma fits_true inp A n : (forall v, variant inp v -> A v = true -> discr inp v < n) -> fits (inp := inp) A n = true.
Proof. apply fits_spec. Qed.
Lemma fits_false inp A n : (exists v, variant inp v /\ A v = true /\ n <= discr inp v) -> fits (inp := inp) A n = false.
Proof.
  intros (v & Hv & HA & Hn). apply not_true_iff_false. rewrite fits_spec. intros H. specialize (H v Hv HA). lia.
Qed.

(** ** C15 *)
Lemma to_integer pw inp T s A t : Supported pw inp T -> Reachable pw inp T s -> Denotes inp T s A ->
  ((forall v, variant inp v -> A v = true -> discr inp v < ity_bits pw t) ->
     es_try_as T t s = Ret (Some (set_value inp A)) /\ es_as T t s = Ret (set_value inp A)) /\
  ((exists v, variant inp v /\ A v = true /\ ity_bits pw t <= discr inp v) ->
     es_try_as T t s = Ret None /\ es_as T t s = Panic (PExpect "Bitset will not fit into this type.")) /\
  es_as_truncated T t s = Ret (set_value inp A mod 2 ^ ity_bits pw t).
Proof.
  intros HS HR HA. start. members s. unfold es_as. rewrite (try_as_spec HT), (as_truncated_spec HT) by assumption.
  rewrite (set_value_ext inp _ A Hm), (fits_ext inp _ A _ Hm). rewrite bind_ret. repeat split.
  - now rewrite fits_true.
  - now rewrite fits_true.
  - now rewrite fits_false.
  - now rewrite fits_false.
Qed.

(** ** C16 *)
Lemma checks_cases inp T val irel pw (HT : TyLaws pw (discrs inp) T val irel) m m' x (P : Prop) A :
  (P <-> only_variant_bits inp x) -> (forall v, variant inp v -> A v = bits_set inp x v) ->
  Checks (inp := inp) (val := val) m x -> m' = (o <- m ;; expect "Bitset contains invalid variants." o) ->
  (P -> exists s, m = Ret (Some s) /\ m' = Ret s /\ Denotes inp T s A) /\
  (~ P -> m = Ret None /\ m' = Panic (PExpect "Bitset contains invalid variants.")).
Proof.
  intros HP HA HC ->. rewrite HP. destruct HC as [[Ho (s & -> & Hs & E)]|[Ho ->]]; split; try tauto; rewrite bind_ret.
  - intros _. exists s. split; [reflexivity|]. split; [reflexivity|]. apply (valid_denotes HT); [assumption|].
    intros v Hv. rewrite HA by assumption. now apply mem_bits_set.
Qed.
Lemma from_integer pw inp T t x : Supported pw inp T -> x < 2 ^ ity_bits pw t ->
  (only_variant_bits inp x ->
     exists s, es_try_from T t x = Ret (Some s) /\ es_from_num T t x = Ret s /\ Denotes inp T s (bits_set inp x)) /\
  (~ only_variant_bits inp x ->
     es_try_from T t x = Ret None /\ es_from_num T t x = Panic (PExpect "Bitset contains invalid variants.")) /\
  Returns inp T (es_from_truncated T t x) (bits_set inp x).
Proof.
  intros HS Hx. start.
  destruct (checks_cases inp T val irel pw HT _ _ x (only_variant_bits inp x) (bits_set inp x)
    (iff_refl _) (fun _ _ => eq_refl) (try_from_spec HT t x Hx) eq_refl) as [H1 H2].
  split; [exact H1|]. split; [exact H2|]. ret_members. now apply (from_truncated_spec HT).
Qed.

(** ** C17 *)
Lemma as_from pw inp T s t x : Supported pw inp T -> Reachable pw inp T s ->
  es_try_as T t s = Ret (Some x) -> es_try_from T t x = Ret (Some s).
Proof.
  intros HS HR E. start. apply HV in HR. rewrite (try_as_spec HT) in E by assumption.
  destruct (fits _ _) eqn:Ef; [|discriminate]. injection E as Ex. rewrite <- (valid_val HT) in Ex by assumption.
  assert (Hx : x < 2 ^ ity_bits pw t) by (rewrite <- Ex; apply N.ltb_lt; now rewrite (val_lt_fits HT)).
  destruct (try_from_spec HT t x Hx) as [[Ho (s' & Es & Hs' & Ev)]|[Hn _]].
  - rewrite Es. do 2 f_equal. apply (valid_same_val HT); auto. congruence.
  - exfalso. apply Hn. rewrite <- Ex. now apply valid_only_bits.
Qed.
Lemma from_as pw inp T s t x : Supported pw inp T -> x < 2 ^ ity_bits pw t ->
  es_try_from T t x = Ret (Some s) -> es_try_as T t s = Ret (Some x).
Proof.
  intros HS Hx E. start. destruct (try_from_spec HT t x Hx) as [[Ho (s' & Es & Hs' & Ev)]|[Hn E']]; [|congruence].
  rewrite Es in E. inversion E; subst s'. rewrite (try_as_spec HT) by assumption. rewrite <- (val_lt_fits HT) by assumption.
  rewrite <- (valid_val HT) by assumption. rewrite Ev. now rewrite (proj2 (N.ltb_lt _ _) Hx).
Qed.

(** ** C18 *)
Lemma words_hold_ext inp l A B b : (forall v, variant inp v -> A v = B v) -> words_hold inp l A b -> words_hold inp l B b.
Proof.
  intros H [Hl Hb]. split; [assumption|]. intros i. rewrite Hb. split; intros (v & Hv & E & HA & Hi); exists v.
  - rewrite <- H by assumption. auto.
  - rewrite H by assumption. auto.
Qed.
Lemma to_array pw inp T s A k : Supported pw inp T -> Reachable pw inp T s -> Denotes inp T s A ->
  exists ws, length ws = k /\ words_hold inp ws A (64 * N.of_nat k) /\
    ((forall v, variant inp v -> A v = true -> discr inp v < 64 * N.of_nat k) ->
       es_try_as_array T s k = Ret (Some ws) /\ es_as_array T s k = Ret ws) /\
    ((exists v, variant inp v /\ A v = true /\ 64 * N.of_nat k <= discr inp v) ->
       es_try_as_array T s k = Ret None /\ es_as_array T s k = Panic (PExpect "Bitset will not fit into this type.")) /\
    es_as_array_truncated T s k = Ret ws.
Proof.
  intros HS HR HA. start. members s. exists (limbs k (val s)). split; [apply limbs_length|].
  split; [eapply words_hold_ext; [exact Hm|now apply (limbs_hold s k)]|].
  unfold es_as_array. rewrite (try_as_array_spec HT), (as_array_truncated_spec HT) by assumption.
  rewrite (fits_ext inp _ A _ Hm), bind_ret. repeat split.
  - now rewrite fits_true.
  - now rewrite fits_true.
  - now rewrite fits_false.
  - now rewrite fits_false.
Qed.

(** ** C19 *)
Definition words_set (inp : derive_input) (l : list N) : vset := fun v => word_bit l (discr inp v).
Lemma words_set_bits inp l v : words_ok l -> words_set inp l v = bits_set inp (lval l) v.
Proof. intros H. apply word_bit_lval, H. Qed.
Lemma from_words pw inp T l : Supported pw inp T -> words_ok l ->
  (only_variant_words inp l ->
     exists s, es_try_from_array T l = Ret (Some s) /\ es_from_array T l = Ret s /\
               es_try_from_slice T l = Ret (Some s) /\ es_from_slice T l = Ret s /\
               Denotes inp T s (fun v => word_bit l (discr inp v))) /\
  (~ only_variant_words inp l ->
     es_try_from_array T l = Ret None /\ es_from_array T l = Panic (PExpect "Bitset contains invalid variants.") /\
     es_try_from_slice T l = Ret None /\ es_from_slice T l = Panic (PExpect "Bitset contains invalid variants.")) /\
  (exists s, es_from_array_truncated T l = Ret s /\ es_from_slice_truncated T l = Ret s /\
             Denotes inp T s (fun v => word_bit l (discr inp v))).
Proof.
  intros HS Hl. start.
  destruct (checks_cases inp T val irel pw HT _ _ (lval l) (only_variant_words inp l) (words_set inp l)
    (only_words_lval inp l Hl) (fun v _ => words_set_bits inp l v Hl) (try_from_array_spec HT l Hl) eq_refl) as [A1 A2].
  destruct (checks_cases inp T val irel pw HT _ _ (lval l) (only_variant_words inp l) (words_set inp l)
    (only_words_lval inp l Hl) (fun v _ => words_set_bits inp l v Hl) (try_from_slice_spec HT l Hl) eq_refl) as [S1 S2].
  split; [|split].
  - intros Ho. destruct (try_from_array_spec HT l Hl) as [[_ (s & Es & Hs & Ev)]|[Hn _]]; [|exfalso; apply Hn; now apply only_words_lval].
    destruct (try_from_slice_spec HT l Hl) as [[_ (s' & Es' & Hs' & Ev')]|[Hn _]]; [|exfalso; apply Hn; now apply only_words_lval].
    assert (s' = s) by (apply (valid_same_val HT); congruence). subst s'.
    exists s. split; [assumption|]. split; [unfold es_from_array; now rewrite Es|]. split; [assumption|].
    split; [unfold es_from_slice; now rewrite Es'|]. apply (valid_denotes HT); [assumption|].
    intros v Hv. rewrite (mem_bits_set s _ v Ev). symmetry. now apply words_set_bits.
  - intros Hn. destruct (A2 Hn), (S2 Hn). auto.
  - destruct (good_same HT _ _ _ (from_array_truncated_spec HT l Hl) (from_slice_truncated_spec HT l Hl)) as (s & E1 & E2 & Hs).
    exists s. split; [assumption|]. split; [assumption|].
    destruct (from_array_truncated_spec HT l Hl) as (s' & E1' & _ & Hm). rewrite E1 in E1'. inversion E1'; subst s'.
    apply (valid_denotes HT); [assumption|]. intros v Hv. rewrite Hm by assumption. symmetry. now apply words_set_bits.
Qed.

(** ** C20 *)
Lemma copy_into pw inp T s A out : Supported pw inp T -> Reachable pw inp T s -> Denotes inp T s A ->
  let k := 64 * N.of_nat (length out) in
  exists ws, length ws = length out /\ words_hold inp ws A k /\
    ((forall v, variant inp v -> A v = true -> discr inp v < k) ->
       es_try_copy_into_slice T s out = Ret (Some tt, ws) /\ es_copy_into_slice T s out = Ret ws) /\
    ((exists v, variant inp v /\ A v = true /\ k <= discr inp v) ->
       es_try_copy_into_slice T s out = Ret (None, out) /\
       es_copy_into_slice T s out = Panic (PExpect "Bitset will not fit into slice.")) /\
    es_copy_into_slice_truncated T s out = Ret ws.
Proof.
  intros HS HR HA k. start. members s. exists (limbs (length out) (val s)). split; [apply limbs_length|].
  split; [eapply words_hold_ext; [exact Hm|now apply (limbs_hold s)]|].
  unfold es_copy_into_slice. rewrite (try_copy_spec HT), (copy_truncated_spec HT) by assumption.
  rewrite (fits_ext inp _ A _ Hm), bind_ret. repeat split.
  - now rewrite fits_true.
  - now rewrite fits_true.
  - now rewrite fits_false.
  - now rewrite fits_false.
Qed.

(** ** C21 *)
Lemma to_vec_lossless pw inp T s A : Supported pw inp T -> Reachable pw inp T s -> Denotes inp T s A ->
  let n := r_preferred_array_len (et_repr T) in
  (forall v, variant inp v -> discr inp v < 64 * N.of_nat n) /\
  exists ws, es_to_vec T s = Ret ws /\ length ws = n /\
    words_hold inp ws A (64 * N.of_nat n) /\
    es_try_from_slice T ws = Ret (Some s) /\
    es_as_array T s n = Ret ws /\ es_try_from_array T ws = Ret (Some s).
Proof.
  intros HS HR HA n. start. members s. split.
  { intros v Hv. pose proof (discr_lt_width HT v Hv). pose proof (pref_len_width HT). unfold n. lia. }
  exists (limbs n (val s)). split; [now apply (to_vec_spec HT)|]. split; [apply limbs_length|].
  split; [eapply words_hold_ext; [exact Hm|now apply (limbs_hold s)]|].
  assert (Ef : fits (inp := inp) (SetFacts.mem (inp := inp) (val := val) s) (64 * N.of_nat n) = true) by now apply (fits_pref HT).
  assert (El : lval (limbs n (val s)) = val s) by now apply (lval_limbs_valid HT).
  assert (Hok : words_ok (limbs n (val s))) by apply limbs_limbs_ok.
  split; [|split].
  - destruct (try_from_slice_spec HT _ Hok) as [[_ (s' & -> & Hs' & Ev)]|[Hn _]].
    + do 2 f_equal. apply (valid_same_val HT); auto. congruence.
    + exfalso. apply Hn. rewrite El. now apply valid_only_bits.
  - unfold es_as_array. rewrite (try_as_array_spec HT) by assumption. now rewrite Ef.
  - destruct (try_from_array_spec HT _ Hok) as [[_ (s' & -> & Hs' & Ev)]|[Hn _]].
    + do 2 f_equal. apply (valid_same_val HT); auto. congruence.
    + exfalso. apply Hn. rewrite El. now apply valid_only_bits.
Qed.

(** ** C40 *)
Lemma unchecked_eq pw inp T : Supported pw inp T ->
  (forall t x s, x < 2 ^ ity_bits pw t -> es_try_from T t x = Ret (Some s) -> es_from_unchecked T t x = Ret s) /\
  (forall l s, words_ok l -> es_try_from_array T l = Ret (Some s) -> es_from_array_unchecked T l = Ret s) /\
  (forall l s, words_ok l -> es_try_from_slice T l = Ret (Some s) -> es_from_slice_unchecked T l = Ret s) /\
  (forall x s, r_ok (et_repr T) x -> es_try_from_repr T x = Ret (Some s) -> es_from_repr_unchecked T x = s).
Proof.
  intros HS. start. split; [|split; [|split]].
  - intros t x s Hx E. destruct (try_from_spec HT t x Hx) as [[Ho (s' & Es & Hs' & Ev)]|[_ E']]; [|congruence].
    rewrite Es in E. inversion E; subst s'. destruct (from_unchecked_spec HT t x Hx Ho) as (u & -> & Hu & Eu).
    f_equal. apply (valid_same_val HT); auto. congruence.
  - intros l s Hl E. destruct (try_from_array_spec HT l Hl) as [[Ho (s' & Es & Hs' & Ev)]|[_ E']]; [|congruence].
    rewrite Es in E. inversion E; subst s'. destruct (from_array_unchecked_spec HT l Hl Ho) as (u & -> & Hu & Eu).
    f_equal. apply (valid_same_val HT); auto. congruence.
  - intros l s Hl E. destruct (try_from_slice_spec HT l Hl) as [[Ho (s' & Es & Hs' & Ev)]|[_ E']]; [|congruence].
    rewrite Es in E. inversion E; subst s'. destruct (from_slice_unchecked_spec HT l Hl Ho) as (u & -> & Hu & Eu).
    f_equal. apply (valid_same_val HT); auto. congruence.
  - intros x s Hx E. unfold es_from_repr_unchecked.
    destruct (try_from_repr_spec HT x Hx) as [[Ho (s' & Es & Hs' & Ev)]|[_ E']]; [|congruence].
    rewrite Es in E. inversion E; subst s'. apply (rl_inj _ _ _ _ _ (tl_repr _ _ _ _ _ HT)); auto. apply Hs'.
Qed.

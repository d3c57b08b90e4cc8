(** * Facts about the conversions *)
From Verif Require Import Base BaseFacts LimbFacts Repr ReprLaws PrimFacts.
From Verif Require Import Syntax Spec Derive EnumSet ApiSpec DeriveFacts TyFacts SetFacts.
Ltac Zify.zify_post_hook ::= Z.div_mod_to_equations.

(** ** Words *)
Lemma word_bit_lval l i : words_ok l -> word_bit l i = N.testbit (lval l) i.
Proof. intros H. symmetry. now apply lval_testbit. Qed.
Lemma only_words_lval inp l : words_ok l -> (only_variant_words inp l <-> only_variant_bits inp (lval l)).
Proof.
  intros H. unfold only_variant_words, only_variant_bits. split; intros HH i Hi; apply HH.
  - now rewrite word_bit_lval.
  - now rewrite <- word_bit_lval.
Qed.
Lemma word_bit_limbs k x i : word_bit (limbs k x) i = N.testbit x i && (i <? 64 * N.of_nat k).
Proof. rewrite word_bit_lval by apply limbs_limbs_ok. rewrite lval_limbs. apply wrap_testbit. Qed.
Lemma only_bits_In inp x : only_variant_bits inp x <-> forall i, N.testbit x i = true -> In i (discrs inp).
Proof. unfold only_variant_bits. split; intros H i Hi; apply In_discr; auto. Qed.

Lemma set_value_lt inp A n : NoDup (discrs inp) ->
  (set_value inp A < 2 ^ n <-> forall v, variant inp v -> A v = true -> discr inp v < n).
Proof.
  intros Hnd. split.
  - intros H v Hv HA. destruct (N.lt_ge_cases (discr inp v) n) as [|Hge]; [assumption|].
    apply (testbit_high _ _ _ H) in Hge. rewrite set_value_discr in Hge by assumption. congruence.
  - intros H. apply lt_pow2_of_bits. intros i Hi. destruct (N.testbit (set_value inp A) i) eqn:E; [|reflexivity].
    apply set_value_testbit in E; [|assumption]. destruct E as (v & Hv & HA & <-). specialize (H v Hv HA). lia.
Qed.
Lemma set_value_mod inp A n : NoDup (discrs inp) ->
  set_value inp A mod 2 ^ n = set_value inp (fun v => A v && (discr inp v <? n)).
Proof.
  intros Hnd. apply bit_eq. intros i. change (?a mod 2 ^ n) with (wrap n a). rewrite wrap_testbit.
  apply eq_true_iff_eq. rewrite andb_true_iff, !set_value_testbit, N.ltb_lt by assumption. split.
  - intros [(v & Hv & HA & <-) Hi]. exists v. rewrite HA, (proj2 (N.ltb_lt _ _) Hi). auto.
  - intros (v & Hv & HA & <-). apply andb_true_iff in HA. destruct HA as [HA Hi]. apply N.ltb_lt in Hi. eauto.
Qed.

Section Conv.
Context {pw : N} {inp : derive_input} {T : EnumTy} {val : eset T -> N}
        {irel : r_iter_t (et_repr T) -> list N -> Prop}.
Context (HT : TyLaws pw (discrs inp) T val irel).
Let HR := tl_repr _ _ _ _ _ HT.
Local Notation mem := (@mem inp T val).
Local Notation Valid := (@Valid inp T val).
Local Notation Good := (@Good inp T val).
Local Notation ok := (r_ok (et_repr T)).
Local Notation R := (et_repr T).

(** ** From bits to sets *)

(** [m] returns [Some s] with value [x] if [x] only has variant bits, and [None] otherwise. *)
Definition Checks (m : M (option (eset T))) (x : N) : Prop :=
  (only_variant_bits inp x /\ exists s, m = Ret (Some s) /\ Valid s /\ val s = x) \/
  (~ only_variant_bits inp x /\ m = Ret None).

Lemma only_bits_ldiff x : only_variant_bits inp x <-> N.ldiff x (val (et_all_bits T)) = 0.
Proof.
  rewrite only_bits_In. split.
  - intros H. apply bit_eq. intros i. rewrite N.ldiff_spec, N.bits_0. destruct (N.testbit x i) eqn:E; [|reflexivity].
    apply H, (tl_all _ _ _ _ _ HT) in E. now rewrite E.
  - intros H i Hi. apply (tl_all _ _ _ _ _ HT).
    apply (f_equal (fun y => N.testbit y i)) in H. rewrite N.ldiff_spec, N.bits_0, Hi in H.
    now destruct (N.testbit (val (et_all_bits T)) i).
Qed.
Lemma only_bits_lt x : only_variant_bits inp x -> x < 2 ^ r_width R.
Proof.
  intros H. apply lt_pow2_of_bits. intros i Hi. destruct (N.testbit x i) eqn:E; [|reflexivity].
  rewrite only_bits_In in H. apply H, (tl_lt_width _ _ _ _ _ HT) in E. lia.
Qed.
Lemma checked_spec x : ok x -> Checks (es_checked T x) (val x).
Proof.
  intros Hx. unfold Checks, es_checked.
  destruct (rl_and_not _ _ _ _ _ HR x (et_all_bits T) Hx (tl_all_ok _ _ _ _ _ HT)) as (y & -> & Hy & Ey).
  rewrite bind_ret, (rl_is_empty _ _ _ _ _ HR) by assumption. rewrite Ey, only_bits_ldiff.
  destruct (N.eqb_spec (N.ldiff (val x) (val (et_all_bits T))) 0) as [E|E]; [left|right]; split; auto.
  exists x. split; [reflexivity|]. split; [|reflexivity]. split; [assumption|].
  apply only_bits_In, only_bits_ldiff, E.
Qed.
Lemma checked_opt m x : yields_opt ok val m (if x <? 2 ^ r_width R then Some x else None) ->
  Checks (o <- m ;; match o with Some bits => es_checked T bits | None => Ret None end) x.
Proof.
  destruct (N.ltb_spec x (2 ^ r_width R)) as [Hlt|Hge].
  - intros (z & -> & Hz & <-). rewrite bind_ret. now apply checked_spec.
  - cbn [yields_opt]. intros ->. rewrite bind_ret. right. split; [|reflexivity].
    intros H. apply only_bits_lt in H. lia.
Qed.
Lemma try_from_spec t x : x < 2 ^ ity_bits pw t -> Checks (es_try_from T t x) x.
Proof. intros Hx. apply checked_opt, (rl_from_opt _ _ _ _ _ HR), Hx. Qed.
Lemma try_from_array_spec l : words_ok l -> Checks (es_try_from_array T l) (lval l).
Proof. intros Hl. apply checked_opt, (rl_from_array_opt _ _ _ _ _ HR), Hl. Qed.
Lemma try_from_slice_spec l : words_ok l -> Checks (es_try_from_slice T l) (lval l).
Proof. intros Hl. apply checked_opt, (rl_from_slice_opt _ _ _ _ _ HR), Hl. Qed.
Lemma try_from_repr_spec x : ok x -> Checks (es_try_from_repr T x) (val x).
Proof. intros Hx. now apply checked_spec. Qed.

(** The panicking versions. *)
Definition Expects (m : M (eset T)) (x : N) : Prop :=
  (only_variant_bits inp x /\ exists s, m = Ret s /\ Valid s /\ val s = x) \/
  (~ only_variant_bits inp x /\ m = Panic (PExpect "Bitset contains invalid variants.")).
Lemma expect_spec m x : Checks m x -> Expects (o <- m ;; expect "Bitset contains invalid variants." o) x.
Proof.
  intros [[H (s & -> & Hs & E)]|[H ->]]; [left|right]; split; auto. exists s. auto.
Qed.
Lemma from_num_spec t x : x < 2 ^ ity_bits pw t -> Expects (es_from_num T t x) x.
Proof. intros Hx. apply expect_spec, try_from_spec, Hx. Qed.
Lemma from_array_spec l : words_ok l -> Expects (es_from_array T l) (lval l).
Proof. intros Hx. apply expect_spec, try_from_array_spec, Hx. Qed.
Lemma from_slice_spec l : words_ok l -> Expects (es_from_slice T l) (lval l).
Proof. intros Hx. apply expect_spec, try_from_slice_spec, Hx. Qed.
Lemma from_repr_spec x : ok x -> Expects (es_from_repr T x) (val x).
Proof. intros Hx. apply expect_spec, try_from_repr_spec, Hx. Qed.

(** The truncating versions. *)
Lemma from_truncated_spec t x : x < 2 ^ ity_bits pw t -> Good (es_from_truncated T t x) (bits_set inp x).
Proof.
  intros Hx. unfold es_from_truncated, es_as_truncated.
  rewrite (rl_to _ _ _ _ _ HR) by apply (tl_all_ok _ _ _ _ _ HT). rewrite bind_ret.
  change (val (es_all T) mod 2 ^ ity_bits pw t) with (wrap (ity_bits pw t) (val (es_all T))).
  set (m := wrap _ _).
  assert (Hlt : N.land x m < 2 ^ ity_bits pw t) by now apply land_lt.
  assert (Hm : forall i, N.testbit (N.land x m) i = true -> In i (discrs inp)).
  { intros i. rewrite N.land_spec, andb_true_iff. intros [_ H]. unfold m in H. rewrite wrap_testbit, andb_true_iff in H.
    now apply (tl_all _ _ _ _ _ HT). }
  eapply (good_of_yields (val := val)); [apply (rl_from _ _ _ _ _ HR); exact Hlt| |].
  - intros i. rewrite N.mod_small; [apply Hm|]. apply only_bits_lt, only_bits_In, Hm.
  - intros v Hv. rewrite N.mod_small by apply only_bits_lt, only_bits_In, Hm.
    rewrite N.land_spec. unfold m, bits_set. rewrite wrap_testbit.
    pose proof (all_mem HT v Hv) as Ha. unfold SetFacts.mem in Ha. rewrite Ha. cbn [andb].
    destruct (N.ltb_spec (discr inp v) (ity_bits pw t)); [apply andb_true_r|].
    now rewrite (testbit_high x _ _ Hx).
Qed.
Lemma mod_width_testbit x v : variant inp v ->
  N.testbit (x mod 2 ^ r_width R) (discr inp v) = N.testbit x (discr inp v).
Proof.
  intros Hv. change (?a mod 2 ^ r_width R) with (wrap (r_width R) a). rewrite wrap_testbit.
  rewrite (proj2 (N.ltb_lt _ _) (discr_lt_width HT v Hv)). apply andb_true_r.
Qed.
Lemma from_array_truncated_spec l : words_ok l ->
  Good (es_from_array_truncated T l) (bits_set inp (lval l)).
Proof.
  intros Hl. eapply (good_ext (val := val)); [|apply (and_all_good HT), (rl_from_array _ _ _ _ _ HR), Hl].
  intros v Hv. cbv beta. now apply mod_width_testbit.
Qed.
Lemma from_slice_truncated_spec l : words_ok l ->
  Good (es_from_slice_truncated T l) (bits_set inp (lval l)).
Proof.
  intros Hl. eapply (good_ext (val := val)); [|apply (and_all_good HT), (rl_from_slice _ _ _ _ _ HR), Hl].
  intros v Hv. cbv beta. now apply mod_width_testbit.
Qed.
Lemma from_repr_truncated_spec x : ok x -> Good (es_from_repr_truncated T x) (bits_set inp (val x)).
Proof.
  intros Hx. change (es_from_repr_truncated T x) with (y <- Ret x ;; r_bitand R y (et_all_bits T)).
  eapply (good_ext (val := val)); [|apply (and_all_good HT)]; [|exists x; auto]. reflexivity.
Qed.

(** The unchecked versions. *)
Lemma unchecked_yields m x : only_variant_bits inp x -> yields ok val m (x mod 2 ^ r_width R) ->
  exists s, m = Ret s /\ Valid s /\ val s = x.
Proof.
  intros Ho (s & -> & Hs & E). rewrite N.mod_small in E by now apply only_bits_lt.
  exists s. split; [reflexivity|]. split; [|assumption]. split; [assumption|]. rewrite E. now apply only_bits_In.
Qed.
Lemma from_unchecked_spec t x : x < 2 ^ ity_bits pw t -> only_variant_bits inp x ->
  exists s, es_from_unchecked T t x = Ret s /\ Valid s /\ val s = x.
Proof. intros Hx Ho. apply unchecked_yields; [assumption|]. apply (rl_from _ _ _ _ _ HR), Hx. Qed.
Lemma from_array_unchecked_spec l : words_ok l -> only_variant_bits inp (lval l) ->
  exists s, es_from_array_unchecked T l = Ret s /\ Valid s /\ val s = lval l.
Proof. intros Hx Ho. apply unchecked_yields; [assumption|]. apply (rl_from_array _ _ _ _ _ HR), Hx. Qed.
Lemma from_slice_unchecked_spec l : words_ok l -> only_variant_bits inp (lval l) ->
  exists s, es_from_slice_unchecked T l = Ret s /\ Valid s /\ val s = lval l.
Proof. intros Hx Ho. apply unchecked_yields; [assumption|]. apply (rl_from_slice _ _ _ _ _ HR), Hx. Qed.

Lemma valid_same_val a b : Valid a -> Valid b -> val a = val b -> a = b.
Proof. intros Ha Hb. apply (rl_inj _ _ _ _ _ HR); [apply Ha|apply Hb]. Qed.
Lemma valid_only_bits s : Valid s -> only_variant_bits inp (val s).
Proof. intros Hs. apply only_bits_In, Hs. Qed.
Lemma mem_bits_set s x v : val s = x -> mem s v = bits_set inp x v.
Proof. now intros <-. Qed.

(** ** From sets to bits *)
Definition fits (A : vset) (n : N) : bool := forallb (fun v => implb (A v) (discr inp v <? n)) (variants inp).
Lemma fits_spec A n : fits A n = true <-> forall v, variant inp v -> A v = true -> discr inp v < n.
Proof.
  unfold fits. rewrite forallb_forall. split.
  - intros H v Hv HA. apply variants_In in Hv. apply H in Hv. rewrite HA in Hv. now apply N.ltb_lt.
  - intros H v Hv. apply variants_In in Hv. destruct (A v) eqn:E; [|reflexivity]. now apply N.ltb_lt, H.
Qed.
Lemma val_lt_fits s n : Valid s -> (val s <? 2 ^ n) = fits (mem s) n.
Proof.
  intros Hs. apply eq_true_iff_eq. rewrite N.ltb_lt, (valid_val HT) by assumption.
  rewrite set_value_lt by apply (D_nodup HT). now rewrite fits_spec.
Qed.
Lemma try_as_spec t s : Valid s ->
  es_try_as T t s = Ret (if fits (mem s) (ity_bits pw t) then Some (set_value inp (mem s)) else None).
Proof.
  intros Hs. unfold es_try_as. rewrite (rl_to_opt _ _ _ _ _ HR) by apply Hs. rewrite val_lt_fits by assumption.
  now rewrite (valid_val HT).
Qed.
Lemma as_truncated_spec t s : Valid s ->
  es_as_truncated T t s = Ret (set_value inp (mem s) mod 2 ^ ity_bits pw t).
Proof. intros Hs. unfold es_as_truncated. rewrite (rl_to _ _ _ _ _ HR) by apply Hs. now rewrite (valid_val HT). Qed.
Lemma limbs_hold s k : Valid s -> words_hold inp (limbs k (val s)) (mem s) (64 * N.of_nat k).
Proof.
  intros Hs. split; [apply limbs_limbs_ok|]. intros i. rewrite word_bit_limbs, andb_true_iff, N.ltb_lt.
  rewrite (valid_testbit s i Hs). split.
  - intros [(v & Hv & Hm & E) Hi]. exists v. auto.
  - intros (v & Hv & E & Hm & Hi). split; [|assumption]. exists v. auto.
Qed.
Lemma try_as_array_spec s k : Valid s ->
  es_try_as_array T s k = Ret (if fits (mem s) (64 * N.of_nat k) then Some (limbs k (val s)) else None).
Proof.
  intros Hs. unfold es_try_as_array. rewrite (rl_to_array_opt _ _ _ _ _ HR) by apply Hs. now rewrite val_lt_fits.
Qed.
Lemma as_array_truncated_spec s k : Valid s -> es_as_array_truncated T s k = Ret (limbs k (val s)).
Proof. intros Hs. apply (rl_to_array _ _ _ _ _ HR), Hs. Qed.
Lemma try_copy_spec s out : Valid s ->
  es_try_copy_into_slice T s out =
  Ret (if fits (mem s) (64 * N.of_nat (length out)) then (Some tt, limbs (length out) (val s)) else (None, out)).
Proof.
  intros Hs. unfold es_try_copy_into_slice. rewrite (rl_to_slice_opt _ _ _ _ _ HR) by apply Hs. now rewrite val_lt_fits.
Qed.
Lemma copy_truncated_spec s out : Valid s ->
  es_copy_into_slice_truncated T s out = Ret (limbs (length out) (val s)).
Proof. intros Hs. apply (rl_to_slice _ _ _ _ _ HR), Hs. Qed.
Lemma pref_len_width : r_width R <= 64 * N.of_nat (r_preferred_array_len R).
Proof. apply (rl_pref_len _ _ _ _ _ HR). Qed.
Lemma fits_pref A k : (r_preferred_array_len R <= k)%nat -> fits A (64 * N.of_nat k) = true.
Proof.
  intros Hk. apply fits_spec. intros v Hv _. pose proof (discr_lt_width HT v Hv). pose proof pref_len_width. lia.
Qed.
Lemma to_vec_spec s : Valid s -> es_to_vec T s = Ret (limbs (r_preferred_array_len R) (val s)).
Proof.
  intros Hs. unfold es_to_vec. rewrite (rl_to_slice _ _ _ _ _ HR) by apply Hs. now rewrite repeat_length.
Qed.
Lemma lval_limbs_valid s k : Valid s -> fits (mem s) (64 * N.of_nat k) = true -> lval (limbs k (val s)) = val s.
Proof.
  intros Hs Hf. rewrite lval_limbs. apply wrap_small. apply N.ltb_lt. now rewrite val_lt_fits.
Qed.

(** ** Words determine sets *)
Lemma words_bits_set l A b : words_hold inp l A b -> (forall v, variant inp v -> A v = true -> discr inp v < b) ->
  NoDup (discrs inp) -> forall v, variant inp v -> bits_set inp (lval l) v = A v.
Proof.
  intros [Hl Hb] Hf Hnd v Hv. unfold bits_set. rewrite <- word_bit_lval by assumption.
  apply eq_true_iff_eq. rewrite Hb. split.
  - intros (u & Hu & E & HA & _). apply discr_inj in E; auto. now subst.
  - intros HA. exists v. auto.
Qed.
End Conv.

(** * Facts about the set operations of the generated type *)
From Coq Require Import Permutation.
From Verif Require Import Base BaseFacts LimbFacts Prim ArrayRepr Repr ReprLaws PrimFacts.
From Verif Require Import Syntax Spec Derive EnumSet ApiSpec DeriveFacts TyFacts.
Ltac Zify.zify_post_hook ::= Z.div_mod_to_equations.

(** ** Discriminants *)
Lemma variant_discrs inp v : variant inp v <-> (v < length (discrs inp))%nat.
Proof. unfold variant. now rewrite discrs_length. Qed.
Lemma discr_In inp v : variant inp v -> In (discr inp v) (discrs inp).
Proof. intros H. apply variant_discrs in H. now apply nth_In. Qed.
Lemma In_discr inp i : In i (discrs inp) <-> exists v, variant inp v /\ discr inp v = i.
Proof.
  split.
  - intros H. destruct (In_nth _ _ 0 H) as (v & Hv & E). exists v. split; [now apply variant_discrs|exact E].
  - intros (v & Hv & <-). now apply discr_In.
Qed.
Lemma discr_inj inp u v : NoDup (discrs inp) -> variant inp u -> variant inp v ->
  discr inp u = discr inp v -> u = v.
Proof.
  intros Hnd Hu Hv E. apply variant_discrs in Hu, Hv.
  exact (proj1 (NoDup_nth (discrs inp) 0) Hnd u v Hu Hv E).
Qed.
Lemma variants_In inp v : In v (variants inp) <-> variant inp v.
Proof. unfold variants, variant. rewrite in_seq. lia. Qed.
Lemma variants_NoDup inp : NoDup (variants inp).
Proof. apply seq_NoDup. Qed.
Lemma map_discr_variants inp : map (discr inp) (variants inp) = discrs inp.
Proof.
  unfold variants. rewrite <- discrs_length. unfold discr. generalize (discrs inp) as l.
  induction l as [|d l IH]; cbn [length seq map nth]; [reflexivity|]. f_equal.
  rewrite <- seq_shift, map_map. rewrite <- IH at 2. apply map_ext. reflexivity.
Qed.

(** ** Sums of powers of two *)
Lemma sum_testbit (f : nat -> N) (A : nat -> bool) l i : NoDup (map f l) ->
  N.testbit (fold_right (fun v sum => (if A v then 2 ^ f v else 0) + sum) 0 l) i
  = existsb (fun v => A v && (f v =? i)) l.
Proof.
  revert i. induction l as [|v l IH]; intros i Hnd; cbn [fold_right existsb map] in *.
  - apply N.bits_0.
  - inversion Hnd as [|? ? Hnot Hnd']; subst.
    set (sum := fold_right _ 0 l) in *.
    destruct (A v); cbn [andb].
    + assert (Hz : N.land (2 ^ f v) sum = 0).
      { rewrite N.land_comm. apply N.eqb_eq. rewrite land_pow2_zero. rewrite IH by assumption.
        apply negb_true_iff. apply not_true_iff_false. intros H. apply existsb_exists in H.
        destruct H as (u & Hu & E). apply andb_true_iff in E. destruct E as [_ E]. apply N.eqb_eq in E.
        apply Hnot. rewrite <- E. now apply in_map. }
      rewrite N.add_nocarry_lxor by assumption. rewrite N.lxor_spec, pow2_testbit, IH by assumption.
      destruct (N.eqb_spec i (f v)) as [->|Hne].
      * rewrite N.eqb_refl. cbn [orb]. destruct (existsb _ l) eqn:E; [|reflexivity].
        apply (f_equal (fun y => N.testbit y (f v))) in Hz. rewrite N.land_spec, pow2_testbit, N.eqb_refl, N.bits_0 in Hz.
        rewrite IH, E in Hz by assumption. discriminate.
      * destruct (N.eqb_spec (f v) i); [congruence|]. cbn [orb]. now rewrite xorb_false_l.
    + rewrite N.add_0_l. now apply IH.
Qed.

Lemma set_value_testbit inp A i : NoDup (discrs inp) ->
  N.testbit (set_value inp A) i = true <-> exists v, variant inp v /\ A v = true /\ discr inp v = i.
Proof.
  intros Hnd. unfold set_value. rewrite sum_testbit by now rewrite map_discr_variants.
  rewrite existsb_exists. split.
  - intros (v & Hv & E). apply andb_true_iff in E. destruct E as [E1 E2]. apply N.eqb_eq in E2.
    apply variants_In in Hv. eauto.
  - intros (v & Hv & E1 & E2). exists v. split; [now apply variants_In|]. rewrite E1. now apply N.eqb_eq.
Qed.
Lemma set_value_discr inp A v : NoDup (discrs inp) -> variant inp v ->
  N.testbit (set_value inp A) (discr inp v) = A v.
Proof.
  intros Hnd Hv. apply eq_true_iff_eq. rewrite set_value_testbit by assumption. split.
  - intros (u & Hu & E1 & E2). apply discr_inj in E2; auto. now subst.
  - intros H. eauto.
Qed.
Lemma set_value_ext inp A B : (forall v, variant inp v -> A v = B v) -> set_value inp A = set_value inp B.
Proof.
  intros H. unfold set_value. assert (Hl : forall l, (forall v, In v l -> variant inp v) ->
    fold_right (fun v sum => (if A v then 2 ^ discr inp v else 0) + sum) 0 l =
    fold_right (fun v sum => (if B v then 2 ^ discr inp v else 0) + sum) 0 l).
  { induction l as [|v l IH]; intros Hin; cbn [fold_right]; [reflexivity|].
    rewrite H by (apply Hin; now left). rewrite IH; [reflexivity|]. intros u Hu. apply Hin. now right. }
  apply Hl. intros v. apply variants_In.
Qed.
Lemma set_size_ext inp A B : (forall v, variant inp v -> A v = B v) -> set_size inp A = set_size inp B.
Proof.
  intros H. unfold set_size. do 2 f_equal. apply filter_ext_in. intros v Hv. apply H. now apply variants_In.
Qed.

(** ** Element lists *)
Lemma lists_set_NoDup inp A l : lists_set inp A l -> NoDup l.
Proof.
  intros [Hs _]. induction Hs as [|v l Hs IH Hf]; constructor; auto.
  intros H. rewrite Forall_forall in Hf. apply Hf in H. unfold discr_lt in H. lia.
Qed.
Lemma lists_set_length inp A l : lists_set inp A l -> N.of_nat (length l) = set_size inp A.
Proof.
  intros Hl. unfold set_size. f_equal. apply Permutation.Permutation_length, Permutation.NoDup_Permutation.
  - eapply lists_set_NoDup; eassumption.
  - apply NoDup_filter, variants_NoDup.
  - intros v. rewrite filter_In, variants_In. apply Hl.
Qed.
Lemma sorted_map_discr inp l : StronglySorted (discr_lt inp) l <-> StronglySorted N.lt (map (discr inp) l).
Proof.
  split.
  - intros H. induction H as [|v l Hs IH Hf]; cbn [map]; constructor; auto.
    apply Forall_map. exact Hf.
  - induction l as [|v l IH]; intros H; constructor; cbn [map] in H; inversion H as [|? ? Hs Hf]; subst; auto.
    exact (proj1 (Forall_map _ _ _) Hf).
Qed.
Lemma lists_set_bits inp A l x : lists_set inp A l ->
  (forall i, N.testbit x i = true <-> exists v, variant inp v /\ A v = true /\ discr inp v = i) ->
  map (discr inp) l = bits_of x.
Proof.
  intros [Hs Hin] Hx. apply bits_of_unique; [now apply sorted_map_discr|].
  intros i. rewrite Hx, in_map_iff. split.
  - intros (v & E & Hv). apply Hin in Hv. destruct Hv. eauto.
  - intros (v & Hv & HA & E). exists v. split; [exact E|]. apply Hin. auto.
Qed.
Lemma map_discr_inj inp l l' : NoDup (discrs inp) ->
  (forall v, In v l -> variant inp v) -> (forall v, In v l' -> variant inp v) ->
  map (discr inp) l = map (discr inp) l' -> l = l'.
Proof.
  intros Hnd. revert l'. induction l as [|v l IH]; intros [|v' l'] H H' E; try discriminate; [reflexivity|].
  cbn [map] in E. inversion E. f_equal.
  - apply (discr_inj inp); auto; [apply H|apply H']; now left.
  - apply IH; auto; intros u Hu; [apply H|apply H']; now right.
Qed.
Lemma lists_set_unique inp A l l' : NoDup (discrs inp) -> lists_set inp A l -> lists_set inp A l' -> l = l'.
Proof.
  intros Hnd H H'. apply (map_discr_inj inp); auto.
  - intros v Hv. now apply H in Hv.
  - intros v Hv. now apply H' in Hv.
  - rewrite (lists_set_bits inp A l (set_value inp A)), (lists_set_bits inp A l' (set_value inp A)); auto;
      intros; now apply set_value_testbit.
Qed.
Lemma lists_set_ext inp A B l : (forall v, variant inp v -> A v = B v) -> lists_set inp A l -> lists_set inp B l.
Proof.
  intros HE [Hs Hin]. split; [exact Hs|]. intros v. rewrite Hin. split; intros [Hv H]; split; auto;
    [rewrite <- HE|rewrite HE]; auto.
Qed.
Lemma bits_variants inp lb : (forall i, In i lb -> In i (discrs inp)) ->
  exists l, map (discr inp) l = lb /\ forall v, In v l -> variant inp v.
Proof.
  induction lb as [|b lb IH]; intros H.
  - exists []. split; [reflexivity|intros ? []].
  - destruct IH as (l & E & Hl); [intros i Hi; apply H; now right|].
    assert (Hb : In b (discrs inp)) by (apply H; now left). apply In_discr in Hb. destruct Hb as (v & Hv & Ev).
    exists (v :: l). cbn [map]. rewrite E, Ev. split; [reflexivity|]. intros u [<-|Hu]; auto.
Qed.

Section Core.
Context {pw : N} {inp : derive_input} {T : EnumTy} {val : eset T -> N}
        {irel : r_iter_t (et_repr T) -> list N -> Prop}.
Context (HT : TyLaws pw (discrs inp) T val irel).
Local Notation D := (discrs inp).
Local Notation R := (et_repr T).
Local Notation ok := (r_ok (et_repr T)).
Let HR := tl_repr _ _ _ _ _ HT.

(** ** Validity and membership *)
Definition mem (s : eset T) : vset := fun v => N.testbit (val s) (discr inp v).
Record Valid (s : eset T) : Prop := {
  valid_ok : ok s;
  valid_bits : forall i, N.testbit (val s) i = true -> In i D
}.

Lemma discr_lt_width v : variant inp v -> discr inp v < r_width R.
Proof. intros Hv. apply (tl_lt_width _ _ _ _ _ HT), discr_In, Hv. Qed.
Lemma discr_lt_pw v : variant inp v -> discr inp v < 2 ^ pw.
Proof. intros Hv. apply (tl_lt_pw _ _ _ _ _ HT), discr_In, Hv. Qed.
Lemma discr_lt_32 v : variant inp v -> discr inp v < 2 ^ 32.
Proof.
  intros Hv. apply discr_In in Hv. apply (tl_max _ _ _ _ _ HT) in Hv. unfold MAXD in Hv.
  change (2 ^ 32) with 4294967296. lia.
Qed.
Lemma D_nodup : NoDup D.
Proof. exact (tl_nodup _ _ _ _ _ HT). Qed.
Lemma variants_cons v : variant inp v -> exists a l, et_variants T = a :: l.
Proof.
  intros Hv. pose proof (tl_variants _ _ _ _ _ HT) as E. apply discr_In in Hv. rewrite <- E in Hv.
  destruct (et_variants T) as [|a l]; [destruct Hv|eauto].
Qed.
Lemma variants_length : length (et_variants T) = length (in_variants inp).
Proof. rewrite <- (discrs_length inp), <- (tl_variants _ _ _ _ _ HT). now rewrite map_length. Qed.

Lemma into_u32_spec v : variant inp v -> enum_into_u32 T v = Ret (discr inp v).
Proof.
  intros Hv. unfold enum_into_u32. destruct (variants_cons v Hv) as (a & l & ->).
  rewrite (tl_discrs _ _ _ _ _ HT). apply variant_discrs in Hv as Hl.
  rewrite (nth_error_nth' _ 0 Hl). fold (discr inp v). now rewrite wrap_small by now apply discr_lt_32.
Qed.

Lemma match_arms_spec arms : forall k v, NoDup (map snd arms) -> (v < length arms)%nat ->
  match_arms arms (nth v (map snd arms) 0) k = Some (k + v)%nat.
Proof.
  induction arms as [|[n d] arms IH]; intros k v Hnd Hv; cbn [length map snd match_arms nth] in *; [lia|].
  inversion Hnd as [|? ? Hnot Hnd']; subst. destruct v as [|v].
  - rewrite N.eqb_refl. f_equal. lia.
  - destruct (N.eqb_spec (nth v (map snd arms) 0) d) as [E|E].
    + exfalso. apply Hnot. rewrite <- E. apply nth_In. rewrite map_length. lia.
    + rewrite IH by (auto; lia). f_equal. lia.
Qed.
Lemma from_u32_spec v : variant inp v -> enum_from_u32 T (discr inp v) = Ret v.
Proof.
  intros Hv. unfold enum_from_u32. pose proof variants_length as Hlen. unfold variant in Hv.
  assert (Hm : match_arms (et_variants T) (discr inp v) 0 = Some v).
  { unfold discr. rewrite <- (tl_variants _ _ _ _ _ HT). rewrite match_arms_spec; [reflexivity| |lia].
    rewrite (tl_variants _ _ _ _ _ HT). apply D_nodup. }
  destruct (et_variants T) as [|a [|b l]]; cbn [length] in Hlen; [lia| |now rewrite Hm].
  now replace v with 0%nat by lia.
Qed.

Lemma contains_spec s v : ok s -> variant inp v -> es_contains T s v = Ret (mem s v).
Proof.
  intros Hs Hv. unfold es_contains. rewrite into_u32_spec by assumption. rewrite bind_ret.
  now rewrite (rl_has_bit _ _ _ _ _ HR) by (auto using discr_lt_width, discr_lt_pw).
Qed.
Lemma denotes_mem s A : ok s -> (Denotes inp T s A <-> forall v, variant inp v -> mem s v = A v).
Proof.
  intros Hs. unfold Denotes. split; intros H v Hv; specialize (H v Hv).
  - rewrite contains_spec in H by assumption. congruence.
  - rewrite contains_spec by assumption. congruence.
Qed.
Lemma valid_ext a b : Valid a -> Valid b -> (forall v, variant inp v -> mem a v = mem b v) -> a = b.
Proof.
  intros [Ha Ba] [Hb Bb] H. apply (rl_inj _ _ _ _ _ HR); auto. apply bit_eq. intros i.
  destruct (N.testbit (val a) i) eqn:Ea.
  - pose proof (Ba _ Ea) as Hi. apply In_discr in Hi. destruct Hi as (v & Hv & <-). specialize (H v Hv). unfold mem in H. congruence.
  - destruct (N.testbit (val b) i) eqn:Eb; [|reflexivity].
    pose proof (Bb _ Eb) as Hi. apply In_discr in Hi. destruct Hi as (v & Hv & <-). specialize (H v Hv). unfold mem in H. congruence.
Qed.
Lemma valid_testbit s i : Valid s ->
  N.testbit (val s) i = true <-> exists v, variant inp v /\ mem s v = true /\ discr inp v = i.
Proof.
  intros [Hs Bs]. split.
  - intros H. pose proof (Bs _ H) as Hi. apply In_discr in Hi. destruct Hi as (v & Hv & <-). exists v. auto.
  - intros (v & Hv & Hm & <-). exact Hm.
Qed.
Lemma valid_val s : Valid s -> val s = set_value inp (mem s).
Proof.
  intros Hs. apply bit_eq. intros i. apply eq_true_iff_eq.
  rewrite valid_testbit, set_value_testbit by (auto using D_nodup). reflexivity.
Qed.

(** A computation returns a valid set with members [A]. *)
Definition Good (m : M (eset T)) (A : vset) : Prop :=
  exists s, m = Ret s /\ Valid s /\ forall v, variant inp v -> mem s v = A v.

Lemma good_of_yields m x A :
  yields ok val m x -> (forall i, N.testbit x i = true -> In i D) ->
  (forall v, variant inp v -> N.testbit x (discr inp v) = A v) -> Good m A.
Proof.
  intros (s & -> & Hok & Hv) Hb HA. exists s. split; [reflexivity|]. split.
  - split; [assumption|]. now rewrite Hv.
  - intros v Hvv. unfold mem. rewrite Hv. now apply HA.
Qed.
Lemma good_ret s : Valid s -> Good (Ret s) (mem s).
Proof. intros H. exists s. auto. Qed.
Lemma good_ext m A B : (forall v, variant inp v -> A v = B v) -> Good m A -> Good m B.
Proof.
  intros HE (s & E & Hs & HA). exists s. split; [exact E|]. split; [exact Hs|]. intros v Hv. rewrite <- HE; auto.
Qed.
Lemma good_bind m A (f : eset T -> M (eset T)) B :
  Good m A -> (forall s, Valid s -> (forall v, variant inp v -> mem s v = A v) -> Good (f s) B) -> Good (bind m f) B.
Proof. intros (s & -> & Hs & HA) Hf. rewrite bind_ret. now apply Hf. Qed.

(** ** Constructors *)
Lemma empty_spec : Good (Ret (es_empty T)) (fun _ => false).
Proof.
  destruct (rl_empty _ _ _ _ _ HR) as [Ho Hv]. apply good_of_yields with (x := 0).
  - exists (es_empty T). auto.
  - intros i. rewrite N.bits_0. discriminate.
  - intros v _. apply N.bits_0.
Qed.
Lemma empty_valid : Valid (es_empty T).
Proof. destruct empty_spec as (s & E & H & _). inversion E as [E']. rewrite E'. exact H. Qed.
Lemma empty_mem v : variant inp v -> mem (es_empty T) v = false.
Proof. destruct empty_spec as (s & E & H & HA). inversion E as [E']. rewrite E'. apply HA. Qed.
Lemma all_valid : Valid (es_all T).
Proof. split; [exact (tl_all_ok _ _ _ _ _ HT)|]. intros i. apply (tl_all _ _ _ _ _ HT). Qed.
Lemma all_mem v : variant inp v -> mem (es_all T) v = true.
Proof. intros H. apply (tl_all _ _ _ _ _ HT). now apply discr_In. Qed.

(** ** Insert and remove *)
Lemma insert_spec s v : Valid s -> variant inp v ->
  exists s', es_insert T s v = Ret (negb (mem s v), s') /\ Valid s' /\
    forall u, variant inp u -> mem s' u = (u =? v)%nat || mem s u.
Proof.
  intros Hs Hv. unfold es_insert. rewrite contains_spec by (auto; apply Hs). rewrite bind_ret.
  rewrite into_u32_spec by assumption. rewrite bind_ret.
  destruct (rl_add_bit _ _ _ _ _ HR s (discr inp v)) as (s' & -> & Hok & E);
    [apply Hs|now apply discr_lt_width|now apply discr_lt_pw|].
  rewrite bind_ret. exists s'. split; [reflexivity|]. split.
  - split; [assumption|]. intros i. rewrite E, N.setbit_eqb, orb_true_iff, N.eqb_eq.
    intros [<-|H]; [now apply discr_In|now apply Hs].
  - intros u Hu. unfold mem. rewrite E, N.setbit_eqb. f_equal.
    destruct (Nat.eqb_spec u v) as [->|Hne]; [apply N.eqb_refl|].
    apply N.eqb_neq. intros H. apply Hne. symmetry. apply (discr_inj inp); auto using D_nodup.
Qed.
Lemma remove_spec s v : Valid s -> variant inp v ->
  exists s', es_remove T s v = Ret (mem s v, s') /\ Valid s' /\
    forall u, variant inp u -> mem s' u = negb (u =? v)%nat && mem s u.
Proof.
  intros Hs Hv. unfold es_remove. rewrite contains_spec by (auto; apply Hs). rewrite bind_ret.
  rewrite into_u32_spec by assumption. rewrite bind_ret.
  destruct (rl_remove_bit _ _ _ _ _ HR s (discr inp v)) as (s' & -> & Hok & E);
    [apply Hs|now apply discr_lt_width|now apply discr_lt_pw|].
  rewrite bind_ret. exists s'. split; [reflexivity|]. split.
  - split; [assumption|]. intros i. rewrite E, N.clearbit_eqb, andb_true_iff.
    intros [H _]. now apply Hs.
  - intros u Hu. unfold mem. rewrite E, N.clearbit_eqb. rewrite andb_comm. f_equal. f_equal.
    destruct (Nat.eqb_spec u v) as [->|Hne]; [apply N.eqb_refl|].
    apply N.eqb_neq. intros H. apply Hne. symmetry. apply (discr_inj inp); auto using D_nodup.
Qed.
Lemma only_spec v : variant inp v -> Good (es_only T v) (fun u => (u =? v)%nat).
Proof.
  intros Hv. unfold es_only. destruct (insert_spec (es_new T) v empty_valid Hv) as (s & -> & Hs & Hm).
  rewrite bind_ret. exists s. split; [reflexivity|]. split; [assumption|]. intros u Hu. rewrite Hm by assumption.
  change (mem (es_new T) u) with (mem (es_empty T) u). rewrite empty_mem by assumption. apply orb_false_r.
Qed.

(** ** Set algebra *)
Lemma union_spec a b : Valid a -> Valid b -> Good (es_union T a b) (fun v => mem a v || mem b v).
Proof.
  intros Ha Hb. eapply good_of_yields; [apply (rl_bitor _ _ _ _ _ HR); [apply Ha|apply Hb]| |].
  - intros i. rewrite N.lor_spec, orb_true_iff. intros [H|H]; [now apply Ha|now apply Hb].
  - intros v _. apply N.lor_spec.
Qed.
Lemma intersection_spec a b : Valid a -> Valid b -> Good (es_intersection T a b) (fun v => mem a v && mem b v).
Proof.
  intros Ha Hb. eapply good_of_yields; [apply (rl_bitand _ _ _ _ _ HR); [apply Ha|apply Hb]| |].
  - intros i. rewrite N.land_spec, andb_true_iff. intros [H _]. now apply Ha.
  - intros v _. apply N.land_spec.
Qed.
Lemma difference_spec a b : Valid a -> Valid b -> Good (es_difference T a b) (fun v => mem a v && negb (mem b v)).
Proof.
  intros Ha Hb. eapply good_of_yields; [apply (rl_and_not _ _ _ _ _ HR); [apply Ha|apply Hb]| |].
  - intros i. rewrite N.ldiff_spec, andb_true_iff. intros [H _]. now apply Ha.
  - intros v _. apply N.ldiff_spec.
Qed.
Lemma symmetrical_difference_spec a b : Valid a -> Valid b ->
  Good (es_symmetrical_difference T a b) (fun v => xorb (mem a v) (mem b v)).
Proof.
  intros Ha Hb. eapply good_of_yields; [apply (rl_bitxor _ _ _ _ _ HR); [apply Ha|apply Hb]| |].
  - intros i. rewrite N.lxor_spec. intros H.
    destruct (N.testbit (val a) i) eqn:E; [now apply Ha|]. apply Hb. now rewrite xorb_false_l in H.
  - intros v _. apply N.lxor_spec.
Qed.
Lemma and_all_good m x : yields ok val m x ->
  Good (y <- m ;; r_bitand R y (et_all_bits T)) (fun v => N.testbit x (discr inp v)).
Proof.
  intros (y & -> & Hok & <-). rewrite bind_ret.
  eapply good_of_yields; [apply (rl_bitand _ _ _ _ _ HR); [assumption|apply all_valid]| |].
  - intros i. rewrite N.land_spec, andb_true_iff. intros [_ H]. now apply all_valid.
  - intros v Hv. rewrite N.land_spec. change (et_all_bits T) with (es_all T).
    change (N.testbit (val (es_all T)) (discr inp v)) with (mem (es_all T) v).
    rewrite all_mem by assumption. apply andb_true_r.
Qed.
Lemma complement_spec a : Valid a -> Good (es_complement T a) (fun v => negb (mem a v)).
Proof.
  intros Ha. eapply good_ext; [|apply and_all_good, (rl_not _ _ _ _ _ HR), Ha].
  intros v Hv. cbv beta. rewrite bnot_testbit by (apply (rl_val_lt _ _ _ _ _ HR), Ha).
  rewrite (proj2 (N.ltb_lt _ _) (discr_lt_width v Hv)). reflexivity.
Qed.

(** ** Operands *)
Definition omem (o : operand T) : vset := match o with OSet s => mem s | OVar v => fun u => (u =? v)%nat end.
Definition ovalid (o : operand T) : Prop := match o with OSet s => Valid s | OVar v => variant inp v end.
Lemma into_spec o : ovalid o -> Good (es_into T o) (omem o).
Proof. destruct o; intros H; [now apply good_ret|now apply only_spec]. Qed.

Lemma op_spec (f : eset T -> eset T -> M (eset T)) (g : bool -> bool -> bool) s o :
  (forall a b, Valid a -> Valid b -> Good (f a b) (fun v => g (mem a v) (mem b v))) ->
  Valid s -> ovalid o -> Good (x <- es_into T o ;; f s x) (fun v => g (mem s v) (omem o v)).
Proof.
  intros Hf Hs Ho. eapply good_bind; [now apply into_spec|]. intros x Hx Hm.
  eapply good_ext; [|apply Hf; assumption]. intros v Hv. cbv beta. now rewrite Hm.
Qed.
Lemma sub_spec s o : Valid s -> ovalid o -> Good (es_sub T s o) (fun v => mem s v && negb (omem o v)).
Proof. apply (op_spec (es_difference T) (fun x y => x && negb y)). exact difference_spec. Qed.
Lemma bitand_spec s o : Valid s -> ovalid o -> Good (es_bitand T s o) (fun v => mem s v && omem o v).
Proof. apply (op_spec (es_intersection T) andb). exact intersection_spec. Qed.
Lemma bitor_spec s o : Valid s -> ovalid o -> Good (es_bitor T s o) (fun v => mem s v || omem o v).
Proof. apply (op_spec (es_union T) orb). exact union_spec. Qed.
Lemma bitxor_spec s o : Valid s -> ovalid o -> Good (es_bitxor T s o) (fun v => xorb (mem s v) (omem o v)).
Proof. apply (op_spec (es_symmetrical_difference T) xorb). exact symmetrical_difference_spec. Qed.

Lemma var_op_spec (f : eset T -> operand T -> M (eset T)) (g : bool -> bool -> bool) u o :
  (forall a p, Valid a -> ovalid p -> Good (f a p) (fun v => g (mem a v) (omem p v))) ->
  variant inp u -> ovalid o ->
  Good (s <- es_only T u ;; x <- es_into T o ;; f s (OSet x)) (fun v => g (v =? u)%nat (omem o v)).
Proof.
  intros Hf Hu Ho. eapply good_bind; [now apply only_spec|]. intros s Hs Hms.
  eapply good_bind; [now apply into_spec|]. intros x Hx Hmx.
  eapply good_ext; [|apply Hf; [assumption|exact Hx]]. intros v Hv. cbn [omem]. now rewrite Hms, Hmx.
Qed.
Lemma var_sub_spec u o : variant inp u -> ovalid o -> Good (var_sub T u o) (fun v => (v =? u)%nat && negb (omem o v)).
Proof. apply (var_op_spec (es_sub T) (fun x y => x && negb y)). exact sub_spec. Qed.
Lemma var_bitand_spec u o : variant inp u -> ovalid o -> Good (var_bitand T u o) (fun v => (v =? u)%nat && omem o v).
Proof. apply (var_op_spec (es_bitand T) andb). exact bitand_spec. Qed.
Lemma var_bitor_spec u o : variant inp u -> ovalid o -> Good (var_bitor T u o) (fun v => (v =? u)%nat || omem o v).
Proof. apply (var_op_spec (es_bitor T) orb). exact bitor_spec. Qed.
Lemma var_bitxor_spec u o : variant inp u -> ovalid o -> Good (var_bitxor T u o) (fun v => xorb (v =? u)%nat (omem o v)).
Proof. apply (var_op_spec (es_bitxor T) xorb). exact bitxor_spec. Qed.
Lemma var_not_spec u : variant inp u -> Good (var_not T u) (fun v => negb (v =? u)%nat).
Proof.
  intros Hu. eapply good_bind; [now apply only_spec|]. intros s Hs Hm.
  eapply good_ext; [|now apply complement_spec]. intros v Hv. cbv beta. now rewrite Hm.
Qed.

(** ** Comparisons *)
Lemma eq_spec a b : Valid a -> Valid b -> es_eq T a b = true <-> forall v, variant inp v -> mem a v = mem b v.
Proof.
  intros Ha Hb. unfold es_eq. rewrite (rl_eqb _ _ _ _ _ HR) by (apply Ha || apply Hb). rewrite N.eqb_eq. split.
  - intros E v _. unfold mem. now rewrite E.
  - intros H. now rewrite (valid_ext a b Ha Hb H).
Qed.
Lemma eq_refl_iff a b : Valid a -> Valid b -> es_eq T a b = true <-> a = b.
Proof.
  intros Ha Hb. rewrite eq_spec by assumption. split; [now apply valid_ext|now intros ->].
Qed.
Lemma all_variants_ext (f g : nat -> bool) : (forall v, variant inp v -> f v = g v) ->
  forallb f (variants inp) = forallb g (variants inp).
Proof.
  intros H. apply eq_true_iff_eq. rewrite !forallb_forall. split; intros HH v Hv; specialize (HH v Hv);
    apply variants_In in Hv; specialize (H v Hv); congruence.
Qed.
Lemma eqb_forallb a b : Valid a -> Valid b ->
  es_eq T a b = forallb (fun v => Bool.eqb (mem a v) (mem b v)) (variants inp).
Proof.
  intros Ha Hb. apply eq_true_iff_eq. rewrite eq_spec, forallb_forall by assumption. split.
  - intros H v Hv. rewrite H by now apply variants_In. apply eqb_reflx.
  - intros H v Hv. apply eqb_prop. apply H. now apply variants_In.
Qed.
Lemma is_empty_spec s : Valid s -> es_is_empty T s = forallb (fun v => negb (mem s v)) (variants inp).
Proof.
  intros Hs. unfold es_is_empty. rewrite (rl_is_empty _ _ _ _ _ HR) by apply Hs.
  apply eq_true_iff_eq. rewrite N.eqb_eq, forallb_forall. split.
  - intros H v _. unfold mem. now rewrite H, N.bits_0.
  - intros H. apply bit_eq. intros i. rewrite N.bits_0. destruct (N.testbit (val s) i) eqn:E; [|reflexivity].
    apply valid_testbit in E; [|assumption]. destruct E as (v & Hv & Hm & _).
    apply variants_In in Hv. apply H in Hv. rewrite Hm in Hv. discriminate.
Qed.
Lemma disjoint_spec a b : Valid a -> Valid b ->
  es_is_disjoint T a b = Ret (forallb (fun v => negb (mem a v && mem b v)) (variants inp)).
Proof.
  intros Ha Hb. unfold es_is_disjoint. destruct (bitand_spec a (OSet b) Ha Hb) as (s & -> & Hs & Hm).
  rewrite bind_ret, is_empty_spec by assumption. f_equal. apply all_variants_ext. intros v Hv. now rewrite Hm.
Qed.
Lemma superset_spec a b : Valid a -> Valid b ->
  es_is_superset T a b = Ret (forallb (fun v => implb (mem b v) (mem a v)) (variants inp)).
Proof.
  intros Ha Hb. unfold es_is_superset. destruct (bitand_spec a (OSet b) Ha Hb) as (s & -> & Hs & Hm).
  rewrite bind_ret. fold (es_eq T s b). rewrite eqb_forallb by assumption. f_equal.
  apply all_variants_ext. intros v Hv. rewrite Hm by assumption. cbn [omem]. now destruct (mem a v), (mem b v).
Qed.
Lemma subset_spec a b : Valid a -> Valid b ->
  es_is_subset T a b = Ret (forallb (fun v => implb (mem a v) (mem b v)) (variants inp)).
Proof. intros Ha Hb. now apply superset_spec. Qed.
Lemma eq_var_spec s v : Valid s -> variant inp v ->
  es_eq_var T s v = Ret (forallb (fun u => Bool.eqb (mem s u) (u =? v)%nat) (variants inp)).
Proof.
  intros Hs Hv. unfold es_eq_var. destruct (only_spec v Hv) as (x & -> & Hx & Hm). rewrite bind_ret.
  fold (es_eq T s x). rewrite eqb_forallb by assumption. f_equal. apply all_variants_ext. intros u Hu. now rewrite Hm.
Qed.
Lemma var_eq_set_spec s v : Valid s -> variant inp v ->
  var_eq_set T v s = Ret (forallb (fun u => Bool.eqb (mem s u) (u =? v)%nat) (variants inp)).
Proof.
  intros Hs Hv. unfold var_eq_set. destruct (only_spec v Hv) as (x & -> & Hx & Hm). rewrite bind_ret.
  rewrite eqb_forallb by assumption. f_equal. apply all_variants_ext. intros u Hu. rewrite Hm by assumption.
  now destruct (mem s u), (u =? v)%nat.
Qed.
Lemma enum_eq_spec u v : variant inp u -> variant inp v -> enum_eq T u v = Ret (u =? v)%nat.
Proof.
  intros Hu Hv. unfold enum_eq. destruct (variants_cons u Hu) as (a & l & E). rewrite E.
  rewrite !into_u32_spec by assumption. rewrite !bind_ret. f_equal.
  destruct (Nat.eqb_spec u v) as [->|Hne]; [apply N.eqb_refl|].
  apply N.eqb_neq. intros H. apply Hne. apply (discr_inj inp); auto using D_nodup.
Qed.

(** ** Size *)
Lemma mem_list s : Valid s -> exists l, lists_set inp (mem s) l /\ map (discr inp) l = bits_of (val s).
Proof.
  intros Hs. destruct (bits_variants inp (bits_of (val s))) as (l & E & Hl).
  { intros i Hi. apply bits_of_In in Hi. now apply Hs. }
  exists l. split; [|exact E]. split.
  - apply sorted_map_discr. rewrite E. apply bits_of_sorted.
  - intros v. split.
    + intros Hv. split; [now apply Hl|]. apply bits_of_In. rewrite <- E. now apply in_map.
    + intros [Hv Hm]. apply bits_of_In in Hm. rewrite <- E in Hm. apply in_map_iff in Hm.
      destruct Hm as (u & Eu & Hu). apply discr_inj in Eu; auto using D_nodup. now subst.
Qed.
Lemma filter_length_le {X} (f : X -> bool) l : (length (filter f l) <= length l)%nat.
Proof. induction l as [|x l IH]; cbn [filter length]; [lia|]. destruct (f x); cbn [length]; lia. Qed.
Lemma size_le A : set_size inp A <= N.of_nat (length (in_variants inp)).
Proof.
  unfold set_size. rewrite <- (seq_length (length (in_variants inp)) 0). fold (variants inp).
  pose proof (filter_length_le A (variants inp)). lia.
Qed.
Lemma count_lt_pw A : set_size inp A < 2 ^ pw.
Proof. pose proof (size_le A). pose proof (tl_count_pw _ _ _ _ _ HT) as H'. rewrite discrs_length in H'. lia. Qed.
Lemma len_spec s : Valid s -> es_len T s = Ret (set_size inp (mem s)).
Proof.
  intros Hs. unfold es_len. rewrite (rl_count_ones _ _ _ _ _ HR) by apply Hs. rewrite bind_ret.
  destruct (mem_list s Hs) as (l & Hl & E). rewrite <- bits_of_length, <- E, map_length, (lists_set_length _ _ _ Hl).
  rewrite (tl_pw _ _ _ _ _ HT). now rewrite wrap_small by apply count_lt_pw.
Qed.

(** ** Folds *)
Lemma for_each_good {I} (items : list I) (body : I -> eset T -> M (eset T)) (F : I -> vset) s :
  (forall i a, In i items -> Valid a -> Good (body i a) (fun v => mem a v || F i v)) -> Valid s ->
  Good (for_each items s body) (fun v => mem s v || existsb (fun i => F i v) items).
Proof.
  revert s. induction items as [|i items IH]; intros s Hb Hs; cbn [for_each existsb].
  - eapply good_ext; [|now apply good_ret]. intros. cbv beta. now rewrite orb_false_r.
  - eapply good_bind; [apply Hb; [now left|assumption]|]. intros a Ha Hm.
    eapply good_ext; [|apply IH; [|exact Ha]].
    + intros v Hv. cbv beta. rewrite Hm by assumption. now rewrite orb_assoc.
    + intros j b Hj. apply Hb. now right.
Qed.
Lemma existsb_eqb_sym v items : existsb (fun i => (v =? i)%nat) items = existsb (Nat.eqb v) items.
Proof. reflexivity. Qed.
Lemma extend_spec s items : Valid s -> (forall v, In v items -> variant inp v) ->
  Good (es_extend T s items) (fun v => mem s v || existsb (Nat.eqb v) items).
Proof.
  intros Hs Hi. apply (for_each_good items _ (fun i v => (v =? i)%nat)); [|assumption].
  intros i a Hin Ha. destruct (insert_spec a i Ha (Hi i Hin)) as (s' & -> & Hs' & Hm). rewrite bind_ret.
  exists s'. split; [reflexivity|]. split; [assumption|]. intros v Hv. rewrite Hm by assumption. apply orb_comm.
Qed.
Lemma extend_sets_spec s items : Valid s -> (forall x, In x items -> Valid x) ->
  Good (es_extend_sets T s items) (fun v => mem s v || existsb (fun x => mem x v) items).
Proof.
  intros Hs Hi. apply (for_each_good items _ mem); [|assumption].
  intros i a Hin Ha. apply union_spec; auto.
Qed.
Lemma sum_spec items : (forall v, In v items -> variant inp v) ->
  Good (es_sum T items) (fun v => existsb (Nat.eqb v) items).
Proof.
  intros Hi. eapply good_ext; [|apply (for_each_good items _ (fun i v => (v =? i)%nat)); [|apply empty_valid]].
  - intros v Hv. cbv beta. now rewrite empty_mem.
  - intros i a Hin Ha. apply (bitor_spec a (OVar i)); [assumption|now apply Hi].
Qed.
Lemma sum_sets_spec items : (forall x, In x items -> Valid x) ->
  Good (es_sum_sets T items) (fun v => existsb (fun x => mem x v) items).
Proof.
  intros Hi. eapply good_ext; [|apply (for_each_good items _ mem); [|apply empty_valid]].
  - intros v Hv. cbv beta. now rewrite empty_mem.
  - intros i a Hin Ha. apply (bitor_spec a (OSet i)); [assumption|now apply Hi].
Qed.
Lemma from_iter_spec items : (forall v, In v items -> variant inp v) ->
  Good (es_from_iter T items) (fun v => existsb (Nat.eqb v) items).
Proof.
  intros Hi. eapply good_ext; [|apply extend_spec; [exact empty_valid|assumption]].
  intros v Hv. cbv beta. change (es_default T) with (es_empty T). now rewrite empty_mem.
Qed.
Lemma from_iter_sets_spec items : (forall x, In x items -> Valid x) ->
  Good (es_from_iter_sets T items) (fun v => existsb (fun x => mem x v) items).
Proof.
  intros Hi. eapply good_ext; [|apply extend_sets_spec; [exact empty_valid|assumption]].
  intros v Hv. cbv beta. change (es_default T) with (es_empty T). now rewrite empty_mem.
Qed.
End Core.

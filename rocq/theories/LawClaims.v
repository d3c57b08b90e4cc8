(** * Claims that follow from the others: counting, bitwise arithmetic of conversions *)
From Verif Require Import Base BaseFacts LimbFacts Repr ReprLaws.
From Verif Require Import Syntax Spec Derive EnumSet ApiSpec ExtraSpec TyFacts SetFacts ConvFacts ReachFacts.
From Verif Require Import SetClaims ConvClaims.
Ltac Zify.zify_post_hook ::= Z.div_mod_to_equations.

Lemma has_members pw inp T s : Supported pw inp T -> Reachable pw inp T s -> exists A, Denotes inp T s A.
Proof.
  intros HS HR. destruct (setup _ _ _ HS) as (val & irel & HT & HV). eexists. now apply (reachable_denotes HT HS).
Qed.

(** ** C56 *)
Lemma filter_counts {X} (A B : X -> bool) l :
  (length (filter (fun v => A v || B v) l) + length (filter (fun v => A v && B v) l) =
   length (filter A l) + length (filter B l))%nat /\
  (length (filter (fun v => A v && negb (B v)) l) + length (filter (fun v => A v && B v) l) = length (filter A l))%nat /\
  (length (filter (fun v => xorb (A v) (B v)) l) + 2 * length (filter (fun v => A v && B v) l) =
   length (filter A l) + length (filter B l))%nat /\
  (length (filter (fun v => negb (A v)) l) + length (filter A l) = length l)%nat.
Proof.
  induction l as [|x l IH]; cbn [filter length]; [auto|]. destruct IH as (H1 & H2 & H3 & H4).
  destruct (A x), (B x); cbn [orb andb negb xorb length]; repeat split; lia.
Qed.
Lemma filter_le {X} (A B : X -> bool) l : (forall v, In v l -> A v = true -> B v = true) ->
  (length (filter A l) <= length (filter B l))%nat /\
  (length (filter A l) = length (filter B l) -> forall v, In v l -> A v = B v).
Proof.
  induction l as [|x l IH]; intros H; cbn [filter]; [split; [lia|intros _ v []]|].
  destruct IH as [H1 H2]; [intros v Hv; apply H; now right|]. specialize (H x (or_introl eq_refl)).
  destruct (A x) eqn:EA, (B x) eqn:EB; cbn [length]; try (specialize (H eq_refl); discriminate).
  - split; [lia|]. intros E v [<-|Hv]; [congruence|]. apply H2; [lia|assumption].
  - split; [lia|]. intros E. lia.
  - split; [lia|]. intros E v [<-|Hv]; [congruence|]. apply H2; [lia|assumption].
Qed.
Lemma counting pw inp T a b : Supported pw inp T -> Reachable pw inp T a -> Reachable pw inp T b ->
  exists na nb nu ni nd nx nc,
    es_len T a = Ret na /\ es_len T b = Ret nb /\
    (s <- es_union T a b ;; es_len T s) = Ret nu /\
    (s <- es_intersection T a b ;; es_len T s) = Ret ni /\
    (s <- es_difference T a b ;; es_len T s) = Ret nd /\
    (s <- es_symmetrical_difference T a b ;; es_len T s) = Ret nx /\
    (s <- es_complement T a ;; es_len T s) = Ret nc /\
    nu + ni = na + nb /\ nd + ni = na /\ nx + 2 * ni = na + nb /\ nc + na = es_variant_count T /\
    (es_is_disjoint T a b = Ret true <-> nu = na + nb) /\
    (es_is_subset T a b = Ret true <-> ni = na) /\
    (es_is_superset T a b = Ret true <-> ni = nb) /\
    (a = b <-> nx = 0).
Proof.
  intros HS Ra Rb. destruct (has_members _ _ _ _ HS Ra) as [A Da]. destruct (has_members _ _ _ _ HS Rb) as [B Db].
  destruct (op_members _ _ _ _ _ _ _ HS Ra Da Rb Db) as ((u & Eu & Du) & (i & Ei & Di) & (d & Ed & Dd) & (x & Ex & Dx) & (c & Ec & Dc)).
  pose proof (R_union _ _ _ _ _ _ Ra Rb Eu) as Ru. pose proof (R_intersection _ _ _ _ _ _ Ra Rb Ei) as Ri.
  pose proof (R_difference _ _ _ _ _ _ Ra Rb Ed) as Rd. pose proof (R_symmetrical_difference _ _ _ _ _ _ Ra Rb Ex) as Rx.
  pose proof (R_complement _ _ _ _ _ Ra Ec) as Rc.
  exists (set_size inp A), (set_size inp B), (set_size inp (fun v => A v || B v)), (set_size inp (fun v => A v && B v)),
    (set_size inp (fun v => A v && negb (B v))), (set_size inp (fun v => xorb (A v) (B v))), (set_size inp (fun v => negb (A v))).
  rewrite Eu, Ei, Ed, Ex, Ec, !bind_ret.
  rewrite (proj1 (len_members _ _ _ _ _ HS Ra Da)), (proj1 (len_members _ _ _ _ _ HS Rb Db)), (proj1 (len_members _ _ _ _ _ HS Ru Du)),
    (proj1 (len_members _ _ _ _ _ HS Ri Di)), (proj1 (len_members _ _ _ _ _ HS Rd Dd)), (proj1 (len_members _ _ _ _ _ HS Rx Dx)),
    (proj1 (len_members _ _ _ _ _ HS Rc Dc)), (proj2 (all_len _ _ _ HS)).
  destruct (filter_counts A B (variants inp)) as (H1 & H2 & H3 & H4).
  assert (Hn : length (variants inp) = length (in_variants inp)) by apply seq_length.
  destruct (relation_members _ _ _ _ _ _ _ HS Ra Da Rb Db) as ((r1 & E1 & F1) & (r2 & E2 & F2) & (r3 & E3 & F3)).
  destruct (eq_members _ _ _ _ _ _ _ HS Ra Da Rb Db) as [_ Heq].
  pose proof (filter_le (fun v => A v && B v) A (variants inp)) as L1.
  pose proof (filter_le (fun v => A v && B v) B (variants inp)) as L2.
  unfold set_size.
  split; [reflexivity|]. split; [reflexivity|]. split; [reflexivity|]. split; [reflexivity|]. split; [reflexivity|].
  split; [reflexivity|]. split; [reflexivity|]. split; [lia|]. split; [lia|]. split; [lia|]. split; [lia|].
  destruct L1 as [_ L1]; [intros v _; destruct (A v); auto|]. destruct L2 as [_ L2]; [intros v _; destruct (A v), (B v); auto|].
  assert (Z : forall F : nat -> bool, length (filter F (variants inp)) = 0%nat <-> forall v, variant inp v -> F v = false).
  { intros F. split.
    - intros E v Hv. destruct (F v) eqn:EF; [|reflexivity]. assert (Hin : In v (filter F (variants inp))) by (apply filter_In; split; [now apply variants_In|assumption]).
      destruct (filter F (variants inp)); [destruct Hin|discriminate].
    - intros H. destruct (filter F (variants inp)) as [|v l] eqn:EF; [reflexivity|]. assert (Hin : In v (filter F (variants inp))) by (rewrite EF; now left).
      apply filter_In in Hin. destruct Hin as [Hin HF]. rewrite H in HF; [discriminate|now apply variants_In]. }
  repeat split.
  - rewrite E3. intros E. injection E as E. apply F3 in E.
    assert (length (filter (fun v => A v && B v) (variants inp)) = 0%nat); [|lia]. apply Z. intros v Hv. destruct (A v) eqn:EA, (B v) eqn:EB; try reflexivity. exfalso. eauto.
  - intros E. rewrite E3. f_equal. apply F3. intros (v & Hv & EA & EB).
    assert (E0 : length (filter (fun v => A v && B v) (variants inp)) = 0%nat) by lia. apply Z with (v := v) in E0; [|assumption]. now rewrite EA, EB in E0.
  - rewrite E1. intros E. injection E as E. rewrite F1 in E. do 2 f_equal. apply filter_ext_in. intros v Hv. apply variants_In in Hv.
    specialize (E v Hv). destruct (A v); [now rewrite E|reflexivity].
  - intros E. rewrite E1. f_equal. apply F1. intros v Hv EA. rewrite <- variants_In in Hv. assert (E' : A v && B v = A v) by (apply L1; [lia|assumption]).
    now rewrite EA in E'.
  - rewrite E2. intros E. injection E as E. rewrite F2 in E. do 2 f_equal. apply filter_ext_in. intros v Hv. apply variants_In in Hv.
    specialize (E v Hv). destruct (B v); [now rewrite E|now rewrite andb_false_r].
  - intros E. rewrite E2. f_equal. apply F2. intros v Hv EB. rewrite <- variants_In in Hv. assert (E' : A v && B v = B v) by (apply L2; [lia|assumption]).
    rewrite EB in E'. now apply andb_true_iff in E'.
  - intros E. pose proof (proj1 Heq E) as E'.
    assert (length (filter (fun v => xorb (A v) (B v)) (variants inp)) = 0%nat); [|lia]. apply Z. intros v Hv. rewrite E' by assumption. now destruct (B v).
  - intros E. apply (proj2 Heq). intros v Hv. assert (E0 : length (filter (fun v => xorb (A v) (B v)) (variants inp)) = 0%nat) by lia.
    apply Z with (v := v) in E0; [|assumption]. now destruct (A v), (B v).
Qed.

(** ** C57 *)
Lemma set_value_bit inp A i : NoDup (discrs inp) -> (forall v, variant inp v -> discr inp v <> i) ->
  N.testbit (set_value inp A) i = false.
Proof.
  intros Hnd H. destruct (N.testbit (set_value inp A) i) eqn:E; [|reflexivity]. apply set_value_testbit in E; [|assumption].
  destruct E as (v & Hv & _ & E). now apply H in E.
Qed.
Lemma discr_or_not inp i : (exists v, variant inp v /\ discr inp v = i) \/ forall v, variant inp v -> discr inp v <> i.
Proof.
  destruct (in_dec N.eq_dec i (discrs inp)) as [H|H].
  - left. now apply In_discr.
  - right. intros v Hv E. apply H. rewrite In_discr. eauto.
Qed.
Lemma set_value_ops inp A B : NoDup (discrs inp) ->
  set_value inp (fun v => A v || B v) = N.lor (set_value inp A) (set_value inp B) /\
  set_value inp (fun v => A v && B v) = N.land (set_value inp A) (set_value inp B) /\
  set_value inp (fun v => A v && negb (B v)) = N.ldiff (set_value inp A) (set_value inp B) /\
  set_value inp (fun v => xorb (A v) (B v)) = N.lxor (set_value inp A) (set_value inp B) /\
  set_value inp (fun v => negb (A v)) = N.ldiff (set_value inp (fun _ => true)) (set_value inp A).
Proof.
  intros Hnd. repeat split; apply bit_eq; intros i;
    rewrite ?N.lor_spec, ?N.land_spec, ?N.ldiff_spec, ?N.lxor_spec;
    (destruct (discr_or_not inp i) as [(v & Hv & <-)|H]; [rewrite !set_value_discr by assumption|rewrite !set_value_bit by assumption]); reflexivity.
Qed.
Lemma mod_bitwise n x y :
  N.lor x y mod 2 ^ n = N.lor (x mod 2 ^ n) (y mod 2 ^ n) /\
  N.land x y mod 2 ^ n = N.land (x mod 2 ^ n) (y mod 2 ^ n) /\
  N.ldiff x y mod 2 ^ n = N.ldiff (x mod 2 ^ n) (y mod 2 ^ n) /\
  N.lxor x y mod 2 ^ n = N.lxor (x mod 2 ^ n) (y mod 2 ^ n).
Proof.
  repeat split; apply bit_eq; intros i; change (?a mod 2 ^ n) with (wrap n a);
    rewrite ?N.lor_spec, ?N.land_spec, ?N.ldiff_spec, ?N.lxor_spec, !wrap_testbit, ?N.lor_spec, ?N.land_spec, ?N.ldiff_spec, ?N.lxor_spec;
    destruct (i <? n), (N.testbit x i), (N.testbit y i); reflexivity.
Qed.
Lemma supported_nodup pw inp T : Supported pw inp T -> NoDup (discrs inp).
Proof. intros HS. destruct (setup _ _ _ HS) as (val & irel & HT & HV). exact (D_nodup HT). Qed.

Lemma to_integer_bitwise pw inp T a b t : Supported pw inp T -> Reachable pw inp T a -> Reachable pw inp T b ->
  exists x y m,
    es_as_truncated T t a = Ret x /\ es_as_truncated T t b = Ret y /\ es_as_truncated T t (es_all T) = Ret m /\
    (s <- es_union T a b ;; es_as_truncated T t s) = Ret (N.lor x y) /\
    (s <- es_intersection T a b ;; es_as_truncated T t s) = Ret (N.land x y) /\
    (s <- es_difference T a b ;; es_as_truncated T t s) = Ret (N.ldiff x y) /\
    (s <- es_symmetrical_difference T a b ;; es_as_truncated T t s) = Ret (N.lxor x y) /\
    (s <- es_complement T a ;; es_as_truncated T t s) = Ret (N.ldiff m x).
Proof.
  intros HS Ra Rb. destruct (has_members _ _ _ _ HS Ra) as [A Da]. destruct (has_members _ _ _ _ HS Rb) as [B Db].
  destruct (op_members _ _ _ _ _ _ _ HS Ra Da Rb Db) as ((u & Eu & Du) & (i & Ei & Di) & (d & Ed & Dd) & (x & Ex & Dx) & (c & Ec & Dc)).
  pose proof (R_union _ _ _ _ _ _ Ra Rb Eu) as Ru. pose proof (R_intersection _ _ _ _ _ _ Ra Rb Ei) as Ri.
  pose proof (R_difference _ _ _ _ _ _ Ra Rb Ed) as Rd. pose proof (R_symmetrical_difference _ _ _ _ _ _ Ra Rb Ex) as Rx.
  pose proof (R_complement _ _ _ _ _ Ra Ec) as Rc.
  assert (H : forall s S, Reachable pw inp T s -> Denotes inp T s S -> es_as_truncated T t s = Ret (set_value inp S mod 2 ^ ity_bits pw t)).
  { intros s S Rs Ds. apply (to_integer _ _ _ _ _ t HS Rs Ds). }
  pose proof (supported_nodup _ _ _ HS) as Hnd.
  destruct (set_value_ops inp A B Hnd) as (S1 & S2 & S3 & S4 & S5).
  rewrite Eu, Ei, Ed, Ex, Ec, !bind_ret.
  rewrite (H _ _ Ra Da), (H _ _ Rb Db), (H _ _ Ru Du), (H _ _ Ri Di), (H _ _ Rd Dd), (H _ _ Rx Dx), (H _ _ Rc Dc).
  rewrite (H _ _ (R_all _ _ _) (proj1 (all_members _ _ _ HS))).
  do 3 eexists. do 3 (split; [reflexivity|]). rewrite S1, S2, S3, S4, S5.
  destruct (mod_bitwise (ity_bits pw t) (set_value inp A) (set_value inp B)) as (M1 & M2 & M3 & M4).
  destruct (mod_bitwise (ity_bits pw t) (set_value inp (fun _ => true)) (set_value inp A)) as (_ & _ & M5 & _).
  rewrite M1, M2, M3, M4, M5. repeat split.
Qed.

Lemma from_integer_bitwise pw inp T t x y : Supported pw inp T -> x < 2 ^ ity_bits pw t -> y < 2 ^ ity_bits pw t ->
  exists a b, es_from_truncated T t x = Ret a /\ es_from_truncated T t y = Ret b /\
    Agree T (es_from_truncated T t (N.lor x y)) (es_union T a b) /\
    Agree T (es_from_truncated T t (N.land x y)) (es_intersection T a b) /\
    Agree T (es_from_truncated T t (N.ldiff x y)) (es_difference T a b) /\
    Agree T (es_from_truncated T t (N.lxor x y)) (es_symmetrical_difference T a b).
Proof.
  intros HS Hx Hy.
  assert (H : forall z, z < 2 ^ ity_bits pw t -> exists s, es_from_truncated T t z = Ret s /\ Reachable pw inp T s /\ Denotes inp T s (bits_set inp z)).
  { intros z Hz. destruct (from_integer _ _ _ t z HS Hz) as (_ & _ & (s & E & D)). exists s. split; [assumption|]. split; [|assumption].
    eapply R_from_truncated; eassumption. }
  destruct (H x Hx) as (a & Ea & Ra & Da). destruct (H y Hy) as (b & Eb & Rb & Db).
  exists a, b. split; [assumption|]. split; [assumption|].
  destruct (op_members _ _ _ _ _ _ _ HS Ra Da Rb Db) as ((u & Eu & Du) & (i & Ei & Di) & (d & Ed & Dd) & (s & Es & Ds) & _).
  pose proof (R_union _ _ _ _ _ _ Ra Rb Eu) as Ru. pose proof (R_intersection _ _ _ _ _ _ Ra Rb Ei) as Ri.
  pose proof (R_difference _ _ _ _ _ _ Ra Rb Ed) as Rd. pose proof (R_symmetrical_difference _ _ _ _ _ _ Ra Rb Es) as Rs.
  assert (K : forall z (m : M (eset T)) s S, z < 2 ^ ity_bits pw t -> m = Ret s -> Reachable pw inp T s -> Denotes inp T s S ->
    (forall v, variant inp v -> bits_set inp z v = S v) -> Agree T (es_from_truncated T t z) m).
  { intros z m s0 S Hz Em R0 D0 HE. destruct (H z Hz) as (s1 & E1 & R1 & D1). exists s1. split; [assumption|]. rewrite Em. f_equal.
    apply (proj2 (eq_members _ _ _ _ _ _ _ HS R0 D0 R1 D1)). intros v Hv. symmetry. now apply HE. }
  assert (L : forall z, (forall i, N.testbit z i = true -> N.testbit x i = true \/ N.testbit y i = true) -> z < 2 ^ ity_bits pw t).
  { intros z Hz. apply lt_pow2_of_bits. intros j Hj. destruct (N.testbit z j) eqn:E; [|reflexivity]. destruct (Hz j E) as [E'|E'].
    - now rewrite (testbit_high _ _ _ Hx Hj) in E'.
    - now rewrite (testbit_high _ _ _ Hy Hj) in E'. }
  repeat split.
  - eapply (K _ _ _ _ _ Eu Ru Du). intros v Hv. unfold bits_set. apply N.lor_spec.
  - eapply (K _ _ _ _ _ Ei Ri Di). intros v Hv. unfold bits_set. apply N.land_spec.
  - eapply (K _ _ _ _ _ Ed Rd Dd). intros v Hv. unfold bits_set. apply N.ldiff_spec.
  - eapply (K _ _ _ _ _ Es Rs Ds). intros v Hv. unfold bits_set. apply N.lxor_spec.
  Unshelve.
  all: apply L; intros j; rewrite ?N.lor_spec, ?N.land_spec, ?N.ldiff_spec, ?N.lxor_spec; destruct (N.testbit x j), (N.testbit y j); auto.
Qed.

Lemma combine_map_seq {X Y Z} (f : X -> Y) (g : X -> Z) l : combine (map f l) (map g l) = map (fun i => (f i, g i)) l.
Proof. induction l; cbn; congruence. Qed.
Lemma limbs_zip (f : N -> N -> N) (g : bool -> bool -> bool) k x y : (forall a b i, N.testbit (f a b) i = g (N.testbit a i) (N.testbit b i)) ->
  g false false = false -> limbs k (f x y) = zip_words f (limbs k x) (limbs k y).
Proof.
  intros Hf Hg. unfold zip_words, limbs. rewrite combine_map_seq, map_map. apply map_ext. intros i. cbn [fst snd].
  apply bit_eq. intros j. rewrite Hf, !limb_testbit, Hf. destruct (j <? 64); rewrite ?andb_true_r, ?andb_false_r; auto.
Qed.

Lemma to_words_bitwise pw inp T a b k : Supported pw inp T -> Reachable pw inp T a -> Reachable pw inp T b ->
  exists x y m,
    es_as_array_truncated T a k = Ret x /\ es_as_array_truncated T b k = Ret y /\ es_as_array_truncated T (es_all T) k = Ret m /\
    (s <- es_union T a b ;; es_as_array_truncated T s k) = Ret (zip_words N.lor x y) /\
    (s <- es_intersection T a b ;; es_as_array_truncated T s k) = Ret (zip_words N.land x y) /\
    (s <- es_difference T a b ;; es_as_array_truncated T s k) = Ret (zip_words N.ldiff x y) /\
    (s <- es_symmetrical_difference T a b ;; es_as_array_truncated T s k) = Ret (zip_words N.lxor x y) /\
    (s <- es_complement T a ;; es_as_array_truncated T s k) = Ret (zip_words N.ldiff m x).
Proof.
  intros HS Ra Rb. destruct (has_members _ _ _ _ HS Ra) as [A Da]. destruct (has_members _ _ _ _ HS Rb) as [B Db].
  destruct (op_members _ _ _ _ _ _ _ HS Ra Da Rb Db) as ((u & Eu & Du) & (i & Ei & Di) & (d & Ed & Dd) & (x & Ex & Dx) & (c & Ec & Dc)).
  pose proof (R_union _ _ _ _ _ _ Ra Rb Eu) as Ru. pose proof (R_intersection _ _ _ _ _ _ Ra Rb Ei) as Ri.
  pose proof (R_difference _ _ _ _ _ _ Ra Rb Ed) as Rd. pose proof (R_symmetrical_difference _ _ _ _ _ _ Ra Rb Ex) as Rx.
  pose proof (R_complement _ _ _ _ _ Ra Ec) as Rc.
  assert (H : forall s S, Reachable pw inp T s -> Denotes inp T s S -> es_as_array_truncated T s k = Ret (limbs k (set_value inp S))).
  { destruct (setup _ _ _ HS) as (val & irel & HT & HV). intros s S Rs Ds. rewrite (as_array_truncated_spec HT) by now apply HV.
    rewrite (valid_val HT) by now apply HV. do 2 f_equal. apply set_value_ext. apply (denotes_iff HT); [now apply HV|assumption]. }
  pose proof (supported_nodup _ _ _ HS) as Hnd.
  destruct (set_value_ops inp A B Hnd) as (S1 & S2 & S3 & S4 & S5).
  rewrite Eu, Ei, Ed, Ex, Ec, !bind_ret.
  rewrite (H _ _ Ra Da), (H _ _ Rb Db), (H _ _ Ru Du), (H _ _ Ri Di), (H _ _ Rd Dd), (H _ _ Rx Dx), (H _ _ Rc Dc).
  rewrite (H _ _ (R_all _ _ _) (proj1 (all_members _ _ _ HS))).
  do 3 eexists. do 3 (split; [reflexivity|]). rewrite S1, S2, S3, S4, S5.
  rewrite (limbs_zip N.lor orb), (limbs_zip N.land andb), !(limbs_zip N.ldiff (fun a b => a && negb b)), (limbs_zip N.lxor xorb);
    auto using N.lor_spec, N.land_spec, N.ldiff_spec, N.lxor_spec.
Qed.

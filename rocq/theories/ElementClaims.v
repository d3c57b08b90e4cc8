(** * Claims about sets and the lists of their elements *)
From Verif Require Import Base BaseFacts LimbFacts Repr ReprLaws.
From Verif Require Import Syntax Spec Derive EnumSet IterMethods ApiSpec ExtraSpec TyFacts SetFacts IterFacts ReachFacts.
From Verif Require Import SetClaims MiscClaims ExtraClaims LawClaims IterMethodClaims.
Ltac Zify.zify_post_hook ::= Z.div_mod_to_equations.

Lemma existsb_In v l : existsb (Nat.eqb v) l = true <-> In v l.
Proof.
  rewrite existsb_exists. split; [|intros H; exists v; now rewrite Nat.eqb_refl].
  intros (u & Hu & E). now apply Nat.eqb_eq in E as ->.
Qed.

(** ** C25 *)
Lemma extend_from_iter pw inp T s A b B : Supported pw inp T -> Reachable pw inp T s -> Denotes inp T s A ->
  Reachable pw inp T b -> Denotes inp T b B ->
  exists it l, es_iter T b = Ret it /\ lists_set inp B l /\
  forall ps, exists os it1 s' it2, es_pops T ps it = Ret (os, it1) /\
    es_extend_iter T s it1 = Ret (s', it2) /\ Reachable pw inp T s' /\
    Denotes inp T s' (fun v => A v || existsb (Nat.eqb v) (snd (pops ps l))) /\
    it_yields T it2 [].
Proof.
  intros HS HR HA HRb HB. start.
  assert (Vs := HV s HR). assert (Vb := HV b HRb). pose proof (denotes_iff HT s A Vs HA) as Hm. pose proof (denotes_iff HT b B Vb HB) as HmB.
  destruct (iter_spec HT b Vb) as (it & l & E & Hl & Hi). exists it, l. split; [assumption|].
  split; [eapply lists_set_ext; eassumption|]. intros ps.
  destruct (pops_spec HT ps it l Hi) as (it1 & E1 & Hi1). set (r := snd (pops ps l)) in *.
  assert (Hlen : (length r < S (length (et_variants T)))%nat).
  { pose proof (pops_length ps l) as H. fold r in H. pose proof (list_length_le HT _ _ Hl). lia. }
  destruct (extend_iter_spec HT r _ s it1 Hi1 Vs Hlen) as (s' & it2 & E2 & Hs' & Hm' & Hi2).
  do 4 eexists. split; [exact E1|]. split; [exact E2|].
  assert (Hr : forall v, In v r -> variant inp v) by (intros v Hv; apply Hi1, Hv).
  split; [|split; [|now apply (rel_yields HT)]].
  - destruct (extend_spec HT s r Vs Hr) as (s1 & Es1 & Hs1 & Hms1).
    replace s' with s1; [now apply (R_extend pw inp T s r)|].
    apply (valid_ext HT); auto. intros v Hv. now rewrite Hm', Hms1.
  - apply (valid_denotes HT); [assumption|]. intros v Hv. rewrite Hm', Hm by assumption. reflexivity.
Qed.

(** ** C66 *)
Lemma rebuild pw inp T s A : Supported pw inp T -> Reachable pw inp T s -> Denotes inp T s A ->
  exists l, es_collect T s = Ret l /\
  (forall items, (forall v, In v items <-> In v l) ->
     es_from_iter T items = Ret s /\ es_sum T items = Ret s /\
     (forall b, Reachable pw inp T b -> es_extend T b items = es_union T b s)) /\
  (forall p, Returns inp T (es_from_iter T (filter p l)) (fun v => A v && p v)).
Proof.
  intros HS HR HA. start. members s.
  destruct (mem_list HT s HR) as (l & Hl & _). exists l. split; [now apply (collect_spec HT)|].
  assert (Hin : forall v, In v l <-> variant inp v /\ mem (inp := inp) (val := val) s v = true) by apply Hl.
  split.
  - intros items Hi.
    assert (Hv : forall v, In v items -> variant inp v) by (intros v Hv; apply Hi in Hv; now apply Hin in Hv).
    assert (Hex : forall v, variant inp v -> existsb (Nat.eqb v) items = mem (inp := inp) (val := val) s v).
    { intros v Hv'. apply eq_true_iff_eq. rewrite existsb_In, Hi, Hin. tauto. }
    split; [|split].
    + destruct (from_iter_spec HT items Hv) as (x & -> & Hx & Hmx). f_equal. apply (valid_ext HT); auto.
      intros v Hv'. now rewrite Hmx, Hex.
    + destruct (sum_spec HT items Hv) as (x & -> & Hx & Hmx). f_equal. apply (valid_ext HT); auto.
      intros v Hv'. now rewrite Hmx, Hex.
    + intros b Hb. apply HV in Hb. destruct (extend_spec HT b items Hb Hv) as (x & -> & Hx & Hmx).
      destruct (union_spec HT b s Hb HR) as (y & -> & Hy & Hmy). f_equal. apply (valid_ext HT); auto.
      intros v Hv'. now rewrite Hmx, Hmy, Hex.
  - intros p. apply (good_returns HT). eapply (good_ext (val := val)); [|apply (from_iter_spec HT)].
    + intros v Hv. cbv beta. rewrite <- Hm by assumption. apply eq_true_iff_eq.
      rewrite existsb_In, filter_In, Hin, andb_true_iff. tauto.
    + intros v Hv. apply filter_In in Hv as [Hv _]. now apply Hin in Hv.
Qed.

Section Partition.
Context {pw : N} {inp : derive_input} {T : EnumTy} {val : eset T -> N}
        {irel : r_iter_t (et_repr T) -> list N -> Prop}.
Context (HT : TyLaws pw (discrs inp) T val irel).
Local Notation mem := (@mem inp T val).
Lemma partition_spec p l : forall fuel a b it, it_rel (inp := inp) (irel := irel) it l ->
  @Valid inp T val a -> @Valid inp T val b -> (length l < fuel)%nat ->
  Reachable pw inp T a -> Reachable pw inp T b ->
  exists a' b', es_partition_loop T fuel p a b it = Ret (a', b') /\
    @Valid inp T val a' /\ @Valid inp T val b' /\ Reachable pw inp T a' /\ Reachable pw inp T b' /\
    forall v, variant inp v ->
      mem a' v = mem a v || existsb (Nat.eqb v) (filter p l) /\
      mem b' v = mem b v || existsb (Nat.eqb v) (filter (fun x => negb (p x)) l).
Proof.
  induction l as [|x l IH]; intros [|fuel] a b it Hi Ha Hb Hf Ra Rb; cbn [length] in Hf; try lia; cbn [es_partition_loop];
    destruct (next_spec HT _ _ Hi) as (it1 & -> & H1); cbn [hd_error tl] in *; rewrite bind_ret.
  - exists a, b. do 5 (split; [auto|]). intros v Hv. cbn. now rewrite !orb_false_r.
  - assert (Hx : forall v, In v [x] -> variant inp v) by (intros v [<-|[]]; apply Hi; now left).
    destruct (p x) eqn:Ep; cbn [filter]; rewrite Ep; cbn [negb].
    + destruct (extend_spec HT a [x] Ha Hx) as (a1 & E1 & Ha1 & Hm1). rewrite E1, bind_ret.
      destruct (IH fuel a1 b it1) as (a' & b' & E & Va & Vb & Ra' & Rb' & Hm); auto; [lia|now apply (R_extend pw inp T a [x])|].
      exists a', b'. do 5 (split; [auto|]). intros v Hv. destruct (Hm v Hv) as [-> ->]. rewrite Hm1 by assumption.
      cbn [existsb]. now rewrite orb_false_r, orb_assoc.
    + destruct (extend_spec HT b [x] Hb Hx) as (b1 & E1 & Hb1 & Hm1). rewrite E1, bind_ret.
      destruct (IH fuel a b1 it1) as (a' & b' & E & Va & Vb & Ra' & Rb' & Hm); auto; [lia|now apply (R_extend pw inp T b [x])|].
      exists a', b'. do 5 (split; [auto|]). intros v Hv. destruct (Hm v Hv) as [-> ->]. rewrite Hm1 by assumption.
      cbn [existsb]. now rewrite orb_false_r, orb_assoc.
Qed.
End Partition.

Lemma partitioned pw inp T s A p : Supported pw inp T -> Reachable pw inp T s -> Denotes inp T s A ->
  exists it a b, es_iter T s = Ret it /\ es_partition T p it = Ret (a, b) /\
    Reachable pw inp T a /\ Denotes inp T a (fun v => A v && p v) /\
    Reachable pw inp T b /\ Denotes inp T b (fun v => A v && negb (p v)) /\
    es_union T a b = Ret s /\ es_is_disjoint T a b = Ret true /\
    es_difference T s a = Ret b /\ es_difference T s b = Ret a.
Proof.
  intros HS HR HA. start. members s.
  destruct (iter_spec HT s HR) as (it & l & E & Hl & Hi).
  assert (Hin : forall v, In v l <-> variant inp v /\ mem (inp := inp) (val := val) s v = true) by apply Hl.
  assert (Rd : Reachable pw inp T (es_default T)) by constructor.
  destruct (partition_spec HT p l (S (length (et_variants T))) _ _ it Hi (HV _ Rd) (HV _ Rd)) as (a & b & Ep & Va & Vb & Ra & Rb & Hab); auto.
  { pose proof (list_length_le HT _ _ Hl). lia. }
  assert (Hma : forall v, variant inp v -> mem (inp := inp) (val := val) a v = A v && p v).
  { intros v Hv. rewrite (proj1 (Hab v Hv)). change (es_default T) with (es_empty T). rewrite (empty_mem HT) by assumption. cbn [orb].
    rewrite <- Hm by assumption. apply eq_true_iff_eq. rewrite existsb_In, filter_In, Hin, andb_true_iff. tauto. }
  assert (Hmb : forall v, variant inp v -> mem (inp := inp) (val := val) b v = A v && negb (p v)).
  { intros v Hv. rewrite (proj2 (Hab v Hv)). change (es_default T) with (es_empty T). rewrite (empty_mem HT) by assumption. cbn [orb].
    rewrite <- Hm by assumption. apply eq_true_iff_eq. rewrite existsb_In, filter_In, Hin, andb_true_iff. tauto. }
  assert (Da : Denotes inp T a (fun v => A v && p v)) by now apply (valid_denotes HT).
  assert (Db : Denotes inp T b (fun v => A v && negb (p v))) by now apply (valid_denotes HT).
  exists it, a, b. do 6 (split; [auto|]).
  destruct (union_spec HT a b Va Vb) as (u & Eu & Vu & Hu).
  destruct (difference_spec HT s a HR Va) as (d & Ed & Vd & Hd).
  destruct (difference_spec HT s b HR Vb) as (d' & Ed' & Vd' & Hd').
  split; [|split; [|split]].
  - rewrite Eu. f_equal. apply (valid_ext HT); auto. intros v Hv. rewrite Hu, Hma, Hmb, Hm by assumption. now destruct (A v), (p v).
  - rewrite (disjoint_spec HT) by assumption. f_equal. apply forallb_forall. intros v Hv. apply variants_In in Hv.
    rewrite Hma, Hmb by assumption. now destruct (A v), (p v).
  - rewrite Ed. f_equal. apply (valid_ext HT); auto. intros v Hv. rewrite Hd, Hma, Hmb, Hm by assumption. now destruct (A v), (p v).
  - rewrite Ed'. f_equal. apply (valid_ext HT); auto. intros v Hv. rewrite Hd', Hma, Hmb, Hm by assumption. now destruct (A v), (p v).
Qed.

(** * Claims about the collection of all sets of an enum, sizes, order *)
From Verif Require Import Base BaseFacts LimbFacts Repr ReprLaws.
From Verif Require Import Syntax Spec Derive EnumSet ApiSpec TyFacts SetFacts IterFacts ConvFacts MacroFacts ReachFacts.
From Verif Require Import SetClaims MiscClaims.
From Verif Require DeriveClaims.
Ltac Zify.zify_post_hook ::= Z.div_mod_to_equations.

(** ** C47 *)
Lemma each_set_reachable pw inp T A : Supported pw inp T -> exists s, Reachable pw inp T s /\ Denotes inp T s A.
Proof.
  intros HS.
  assert (Hi : forall v, In v (filter A (variants inp)) -> variant inp v).
  { intros v Hv. apply filter_In in Hv as [Hv _]. now apply variants_In. }
  destruct (collect_variants pw inp T (es_empty T) (fun _ => false) (filter A (variants inp)) HS) as (_ & (s & E & Hs) & _).
  - constructor.
  - apply (empty_members pw inp T HS).
  - exact Hi.
  - exists s. split; [now apply R_from_iter with (items := filter A (variants inp))|].
    intros v Hv. rewrite (Hs v Hv). f_equal. apply eq_true_iff_eq. rewrite existsb_exists. split.
    + intros (u & Hu & Euv). apply Nat.eqb_eq in Euv as ->. now apply filter_In in Hu.
    + intros Hv'. exists v. rewrite Nat.eqb_refl. split; [|reflexivity]. apply filter_In. split; [now apply variants_In|assumption].
Qed.
Lemma same_members_eq pw inp T s s' : Supported pw inp T -> Reachable pw inp T s -> Reachable pw inp T s' ->
  (forall v, variant inp v -> es_contains T s v = es_contains T s' v) -> s = s'.
Proof.
  intros HS Hs Hs' H. start. apply HV in Hs. apply HV in Hs'. apply (valid_ext HT); auto.
  intros v Hv. specialize (H v Hv). rewrite !(contains_spec HT) in H by first [assumption|exact (valid_ok _ Hs)|exact (valid_ok _ Hs')]. congruence.
Qed.

Fixpoint bool_lists (n : nat) : list (list bool) :=
  match n with
  | O => [[]]
  | S n => map (cons true) (bool_lists n) ++ map (cons false) (bool_lists n)
  end.
Lemma bool_lists_length n : N.of_nat (length (bool_lists n)) = 2 ^ N.of_nat n.
Proof.
  induction n as [|n IH]; [reflexivity|].
  cbn [bool_lists]. rewrite app_length, !map_length, Nat2N.inj_add, IH, Nat2N.inj_succ, N.pow_succ_r'. lia.
Qed.
Lemma bool_lists_In n l : In l (bool_lists n) <-> length l = n.
Proof.
  revert l. induction n as [|n IH]; intros l; cbn [bool_lists].
  - destruct l; cbn; split; [auto|auto|intros [H|[]]; discriminate H|discriminate].
  - rewrite in_app_iff, !in_map_iff. split.
    + intros [(x & <- & H)|(x & <- & H)]; apply IH in H; cbn; congruence.
    + destruct l as [|b l]; [discriminate|]. intros [= H]. apply IH in H. destruct b; [left|right]; eauto.
Qed.
Lemma bool_lists_NoDup n : NoDup (bool_lists n).
Proof.
  induction n as [|n IH]; cbn [bool_lists]; [repeat constructor; intros []|].
  assert (Hm : forall b, NoDup (map (cons b) (bool_lists n))).
  { intros b. apply FinFun.Injective_map_NoDup; [|exact IH]. intros x y [= ->]. reflexivity. }
  assert (Ha : forall (l l' : list (list bool)), NoDup l -> NoDup l' -> (forall x, In x l -> ~ In x l') -> NoDup (l ++ l')).
  { clear. induction l as [|a l IHl]; intros l' H H' Hd; [exact H'|]. inversion H; subst. cbn. constructor.
    - rewrite in_app_iff. intros [Hx|Hx]; [contradiction|]. apply (Hd a); [now left|assumption].
    - apply IHl; auto. intros x Hx. apply Hd. now right. }
  apply Ha; auto. intros x Hx Hx'. apply in_map_iff in Hx as (y & <- & _). apply in_map_iff in Hx' as (z & E & _). discriminate E.
Qed.

Lemma sets_of_enum pw inp T : Supported pw inp T ->
  (forall A, exists s, Reachable pw inp T s /\ Denotes inp T s A) /\
  (forall s s' A, Reachable pw inp T s -> Reachable pw inp T s' -> Denotes inp T s A -> Denotes inp T s' A -> s = s') /\
  (exists l, NoDup l /\ N.of_nat (length l) = 2 ^ N.of_nat (length (in_variants inp)) /\
     forall s, In s l <-> Reachable pw inp T s).
Proof.
  intros HS. split; [intros A; now apply each_set_reachable|]. split.
  { intros s s' A H H' D D'. apply (same_members_eq pw inp T s s' HS H H'). intros v Hv. now rewrite D, D'. }
  set (n := length (in_variants inp)).
  assert (Hl : forall L, exists l : list (eset T),
    Forall2 (fun bs s => Reachable pw inp T s /\ Denotes inp T s (fun v => nth v bs false)) L l).
  { induction L as [|bs L (l & IH)]; [exists []; constructor|].
    destruct (each_set_reachable pw inp T (fun v => nth v bs false) HS) as (s & Hs). exists (s :: l). now constructor. }
  destruct (Hl (bool_lists n)) as (l & HF). exists l.
  assert (HIn : forall L l, Forall2 (fun bs s => Reachable pw inp T s /\ Denotes inp T s (fun v => nth v bs false)) L l ->
    (forall s, In s l -> exists bs, In bs L /\ Reachable pw inp T s /\ Denotes inp T s (fun v => nth v bs false)) /\
    (forall bs, In bs L -> exists s, In s l /\ Reachable pw inp T s /\ Denotes inp T s (fun v => nth v bs false))).
  { induction 1 as [|bs s L' l' H _ [IH1 IH2]]; [split; intros ? []|]. split.
    - intros x [<-|Hx]; [exists bs; split; [now left|assumption]|]. destruct (IH1 x Hx) as (b & Hb & H'). exists b. split; [now right|assumption].
    - intros x [<-|Hx]; [exists s; split; [now left|assumption]|]. destruct (IH2 x Hx) as (b & Hb & H'). exists b. split; [now right|assumption]. }
  repeat split.
  - assert (HN : forall L l, NoDup L -> (forall bs, In bs L -> length bs = n) ->
      Forall2 (fun bs s => Reachable pw inp T s /\ Denotes inp T s (fun v => nth v bs false)) L l -> NoDup l).
    { intros L l' HL Hn HF'. revert HL Hn. induction HF' as [|bs s L' l' [Hs HD] HF' IH]; intros HL Hn; [constructor|].
      inversion HL; subst. constructor; [|apply IH; auto; intros; apply Hn; now right].
      intros Hin. destruct (proj1 (HIn L' l' HF') s Hin) as (bs' & Hb' & _ & HD').
      assert (E : bs = bs'); [|congruence].
      apply nth_ext with (d := false) (d' := false).
      - rewrite (Hn bs), (Hn bs'); auto; [now right|now left].
      - intros v Hv. rewrite (Hn bs) in Hv by now left. specialize (HD v Hv). specialize (HD' v Hv). congruence. }
    apply (HN (bool_lists n) l); [apply bool_lists_NoDup|intros bs; apply bool_lists_In|exact HF].
  - rewrite <- bool_lists_length. f_equal. symmetry.
    clear - HF. induction HF; cbn; congruence.
  - intros Hs. destruct (proj1 (HIn _ _ HF) s Hs) as (bs & _ & H & _). exact H.
  - intros Hs. start. pose proof (HV s Hs) as Vs.
    set (bs := map (SetFacts.mem (inp := inp) (val := val) s) (seq 0 n)).
    assert (Hbs : In bs (bool_lists n)) by (apply bool_lists_In; unfold bs; now rewrite map_length, seq_length).
    destruct (proj2 (HIn _ _ HF) bs Hbs) as (s' & Hin & Hs' & HD').
    assert (E : s = s'); [|now subst].
    apply (same_members_eq pw inp T s s' HS Hs Hs'). intros v Hv.
    rewrite (contains_spec HT) by first [assumption|exact (valid_ok _ Vs)]. rewrite (HD' v Hv). f_equal.
    unfold bs. rewrite nth_indep with (d' := SetFacts.mem (inp := inp) (val := val) s 0%nat) by (rewrite map_length, seq_length; exact Hv).
    rewrite map_nth, seq_nth by exact Hv. reflexivity.
Qed.

(** ** C48 *)
Lemma size_counts (A B : vset) l :
  let n f := N.of_nat (length (filter f l)) in
  n (fun v => A v || B v) + n (fun v => A v && B v) = n A + n B /\
  n (fun v => A v && negb (B v)) + n (fun v => A v && B v) = n A /\
  n (fun v => xorb (A v) (B v)) + 2 * n (fun v => A v && B v) = n A + n B /\
  n (fun v => negb (A v)) + n A = N.of_nat (length l).
Proof.
  cbv zeta. induction l as [|v l (H1 & H2 & H3 & H4)]; [repeat split; reflexivity|].
  cbn [filter]. destruct (A v), (B v); cbn [orb andb negb xorb length]; rewrite ?Nat2N.inj_succ; repeat split; lia.
Qed.
Lemma size_mono (A B : vset) l : (forall v, In v l -> A v = true -> B v = true) ->
  (length (filter A l) <= length (filter B l))%nat /\
  (length (filter A l) = length (filter B l) -> forall v, In v l -> A v = B v).
Proof.
  induction l as [|u l IH]; intros H; [split; [reflexivity|intros _ ? []]|].
  destruct IH as [H1 H2]; [intros v Hv; apply H; now right|].
  pose proof (H u (or_introl eq_refl)) as Hu. cbn [filter].
  destruct (A u) eqn:EA, (B u) eqn:EB; cbn [length]; try (specialize (Hu eq_refl); discriminate Hu).
  - split; [lia|]. intros E v [<-|Hv]; [congruence|]. apply H2; [lia|assumption].
  - split; [lia|]. intros E. exfalso. lia.
  - split; [lia|]. intros E v [<-|Hv]; [congruence|]. apply H2; [lia|assumption].
Qed.
Lemma sizes pw inp T a b : Supported pw inp T -> Reachable pw inp T a -> Reachable pw inp T b ->
  exists u i d x c na nb nu ni nd nx nc,
    es_union T a b = Ret u /\ es_intersection T a b = Ret i /\ es_difference T a b = Ret d /\
    es_symmetrical_difference T a b = Ret x /\ es_complement T a = Ret c /\
    es_len T a = Ret na /\ es_len T b = Ret nb /\ es_len T u = Ret nu /\ es_len T i = Ret ni /\
    es_len T d = Ret nd /\ es_len T x = Ret nx /\ es_len T c = Ret nc /\
    nu + ni = na + nb /\ nd + ni = na /\ nx + 2 * ni = na + nb /\ nc + na = es_variant_count T /\
    (es_is_subset T a b = Ret true -> na <= nb /\ (na = nb -> a = b)).
Proof.
  intros HS Ra Rb. pose proof HS as HS'. start.
  set (A := SetFacts.mem (inp := inp) (val := val) a). set (B := SetFacts.mem (inp := inp) (val := val) b).
  assert (DA : Denotes inp T a A) by (apply (valid_denotes HT); [now apply HV|reflexivity]).
  assert (DB : Denotes inp T b B) by (apply (valid_denotes HT); [now apply HV|reflexivity]).
  destruct (op_members pw inp T a A b B HS' Ra DA Rb DB) as ((u & Eu & Du) & (i & Ei & Di) & (d & Ed & Dd) & (x & Ex & Dx) & (c & Ec & Dc)).
  exists u, i, d, x, c.
  do 7 eexists. do 5 (split; [eassumption|]).
  split; [exact (proj1 (len_members pw inp T a A HS' Ra DA))|].
  split; [exact (proj1 (len_members pw inp T b B HS' Rb DB))|].
  split; [exact (proj1 (len_members pw inp T u _ HS' (R_union _ _ _ _ _ _ Ra Rb Eu) Du))|].
  split; [exact (proj1 (len_members pw inp T i _ HS' (R_intersection _ _ _ _ _ _ Ra Rb Ei) Di))|].
  split; [exact (proj1 (len_members pw inp T d _ HS' (R_difference _ _ _ _ _ _ Ra Rb Ed) Dd))|].
  split; [exact (proj1 (len_members pw inp T x _ HS' (R_symmetrical_difference _ _ _ _ _ _ Ra Rb Ex) Dx))|].
  split; [exact (proj1 (len_members pw inp T c _ HS' (R_complement _ _ _ _ _ Ra Ec) Dc))|].
  destruct (size_counts A B (variants inp)) as (H1 & H2 & H3 & H4).
  unfold set_size. split; [exact H1|]. split; [exact H2|]. split; [exact H3|]. split.
  { rewrite H4. unfold variants. rewrite seq_length. symmetry. apply (all_len pw inp T HS'). }
  intros Hsub. destruct (relation_members pw inp T a A b B HS' Ra DA Rb DB) as ((r & Er & Hr) & _).
  assert (Hle : forall v, In v (variants inp) -> A v = true -> B v = true).
  { intros v Hv. apply Hr; [congruence|now apply variants_In]. }
  destruct (size_mono A B (variants inp) Hle) as [HL HE]. split; [lia|].
  intros E. apply (eq_members pw inp T a A b B HS' Ra DA Rb DB). intros v Hv. apply HE; [lia|now apply variants_In].
Qed.

(** ** C51: the order extends inclusion *)
Lemma testbit_le x y : (forall i, N.testbit x i = true -> N.testbit y i = true) -> x <= y.
Proof.
  intros H. assert (E : y = x + N.ldiff y x).
  { rewrite N.add_nocarry_lxor.
    - apply bit_eq. intros i. rewrite N.lxor_spec, N.ldiff_spec. specialize (H i).
      destruct (N.testbit x i), (N.testbit y i); try reflexivity. now discriminate H.
    - apply bit_eq. intros i. rewrite N.land_spec, N.ldiff_spec, N.bits_0. now destruct (N.testbit x i), (N.testbit y i). }
  rewrite E. lia.
Qed.
Lemma lex_subset l : forall l', length l = length l' -> (forall k, nth k l 0 <= nth k l' 0) -> lex_compare l l' <> Gt.
Proof.
  induction l as [|x l IH]; intros [|y l'] HL H; try discriminate; cbn [lex_compare].
  pose proof (H 0%nat) as H0. cbn [nth] in H0. destruct (N.compare_spec x y); [|discriminate|lia].
  apply IH; [cbn in HL; lia|]. intros k. apply (H (S k)).
Qed.
Lemma subset_order pw inp T a b : Supported pw inp T -> Reachable pw inp T a -> Reachable pw inp T b ->
  es_is_subset T a b = Ret true -> es_cmp T a b <> Gt /\ (a <> b -> es_cmp T a b = Lt).
Proof.
  intros HS Ra Rb Hsub. pose proof HS as HS'. start.
  set (A := SetFacts.mem (inp := inp) (val := val) a). set (B := SetFacts.mem (inp := inp) (val := val) b).
  pose proof (HV a Ra) as Va. pose proof (HV b Rb) as Vb.
  assert (DA : Denotes inp T a A) by (apply (valid_denotes HT); auto; reflexivity).
  assert (DB : Denotes inp T b B) by (apply (valid_denotes HT); auto; reflexivity).
  destruct (relation_members pw inp T a A b B HS' Ra DA Rb DB) as ((r & Er & Hr) & _).
  assert (Hle : forall v, variant inp v -> A v = true -> B v = true) by (apply Hr; congruence).
  assert (HD : NoDup (discrs inp)) by apply (D_nodup HT).
  assert (Hb : forall i, N.testbit (set_value inp A) i = true -> N.testbit (set_value inp B) i = true).
  { intros i. rewrite !set_value_testbit by assumption. intros (v & Hv & HAv & E). eauto. }
  assert (HNG : es_cmp T a b <> Gt).
  { pose proof (cmp_order pw inp T a A b B HS' Ra DA Rb DB) as HC. destruct (storage_of inp) as [w|n] eqn:ES.
    - rewrite HC. pose proof (testbit_le _ _ Hb) as Hab. destruct (N.compare_spec (set_value inp A) (set_value inp B)); [discriminate|discriminate|lia].
    - set (wa := limbs (N.to_nat n) (set_value inp A)). set (wb := limbs (N.to_nat n) (set_value inp B)).
      rewrite (HC wa wb); [|apply limbs_length|apply limbs_length| |].
      + apply lex_subset; [unfold wa, wb; now rewrite !limbs_length|]. intros k. unfold wa, wb. rewrite !limbs_nth.
        destruct (Nat.ltb k (N.to_nat n)); [|lia]. apply testbit_le. intros i. rewrite !limb_testbit.
        intros H. apply andb_true_iff in H as [H1 H2]. now rewrite (Hb _ H1), H2.
      + unfold wa, A. rewrite <- (valid_val HT a Va). pose proof (limbs_hold a (N.to_nat n) Va) as H. now rewrite N2Nat.id in H.
      + unfold wb, B. rewrite <- (valid_val HT b Vb). pose proof (limbs_hold b (N.to_nat n) Vb) as H. now rewrite N2Nat.id in H. }
  split; [exact HNG|]. intros Hne. destruct (es_cmp T a b) eqn:E; [|reflexivity|congruence].
  exfalso. apply Hne. apply (eq_members pw inp T a A b B HS' Ra DA Rb DB). now apply (cmp_total pw inp T a A b B HS' Ra DA Rb DB).
Qed.

(** ** C50: the condition of the unsafe constructors is needed *)
Lemma match_arms_none arms : forall d k, ~ In d (map snd arms) -> match_arms arms d k = None.
Proof.
  induction arms as [|[n e] arms IH]; intros d k H; [reflexivity|]. cbn [match_arms map snd In] in *.
  destruct (N.eqb_spec d e) as [->|_]; [exfalso; apply H; now left|]. apply IH. intros Hd. apply H. now right.
Qed.
Lemma first_unknown (D l : list N) d : In d l -> ~ In d D ->
  exists l1 b l2, l = l1 ++ b :: l2 /\ (forall e, In e l1 -> In e D) /\ ~ In b D.
Proof.
  induction l as [|a l IH]; intros Hd Hn; [destruct Hd|].
  destruct (in_dec N.eq_dec a D) as [Ha|Ha].
  - destruct Hd as [->|Hd]; [contradiction|]. destruct (IH Hd Hn) as (l1 & b & l2 & -> & H1 & H2).
    exists (a :: l1), b, l2. repeat split; auto. intros e [<-|He]; auto.
  - exists [], a, l. repeat split; auto. intros e [].
Qed.
Lemma unchecked_condition pw inp T x i : Supported pw inp T -> r_ok (et_repr T) x ->
  i < r_width (et_repr T) -> r_has_bit (et_repr T) x i = Ret true -> (forall v, variant inp v -> discr inp v <> i) ->
  let s := es_from_repr_unchecked T x in
  match length (in_variants inp) with
  | O => es_collect T s = Panic (PExplicit "is uninhabited.")
  | S O => exists it n it', es_iter T s = Ret it /\ (0 < n)%nat /\
             (es_contains T s 0 = Ret true -> (1 < n)%nat) /\
             es_pops T (repeat Front (S n)) it = Ret (repeat (Some 0%nat) n ++ [None], it')
  | _ => es_collect T s = UB
  end.
Proof.
  intros HS Hx Hi Hb Hn. cbv zeta. unfold es_from_repr_unchecked. start. pose proof (tl_repr _ _ _ _ _ HT) as HL.
  rewrite (rl_has_bit _ _ _ _ _ HL x i Hx Hi) in Hb
    by (eapply N.lt_le_trans; [exact Hi|apply (tl_width_pw _ _ _ _ _ HT)]).
  injection Hb as Hb. apply bits_of_In in Hb.
  assert (HnD : ~ In i (discrs inp)) by (intros H; apply In_discr in H as (v & Hv & E); now apply (Hn v Hv)).
  destruct (first_unknown (discrs inp) (bits_of (val x)) i Hb HnD) as (l1 & b & l2 & El & Hl1 & HbD).
  destruct (rl_iter _ _ _ _ _ HL x Hx) as (it & Ei & Hit).
  pose proof (variants_length HT) as Hlen.
  assert (Hl1n : (length l1 <= length (in_variants inp))%nat).
  { rewrite <- (discrs_length inp). apply NoDup_incl_length; [|exact Hl1].
    pose proof (bits_of_sorted (val x)) as Hs. rewrite El in Hs. apply sorted_app_inv in Hs as (Hs & _).
    clear - Hs. induction Hs as [|a l Hs IH Ha]; constructor; auto.
    intros H. rewrite Forall_forall in Ha. specialize (Ha a H). lia. }
  assert (Hgen : forall fail : M (list nat), (forall g : nat -> M (option nat * es_iter_t T), exists m, bind (enum_from_u32 T b) g = m /\
       forall h, bind m h = fail) -> (forall v, bind fail (fun rest => Ret (v :: rest)) = fail) ->
     forall fuel l1 it, irel it (l1 ++ b :: l2) -> (forall e, In e l1 -> In e (discrs inp)) ->
     (length l1 < fuel)%nat -> es_drain T fuel it = fail).
  { intros fail Hf1 Hf2. induction fuel as [|fuel IH]; intros k1 it0 Hit0 Hk1 Hf; [lia|]. cbn [es_drain]. unfold es_next.
    destruct (rl_next _ _ _ _ _ HL _ _ Hit0) as (it1 & E1 & Hit1). rewrite E1, bind_ret.
    destruct k1 as [|e k1]; cbn [app hd_error tl es_map_item] in *.
    - destruct (Hf1 (fun v => Ret (Some v, it1))) as (m & Em & Hm).
      replace (bind (bind (enum_from_u32 T b) (fun v => Ret (Some v))) (fun o' => Ret (o', it1))) with m; [apply Hm|].
      rewrite <- Em. now destruct (enum_from_u32 T b).
    - destruct (proj1 (In_discr inp e)) as (v & Hv & <-); [apply Hk1; now left|].
      rewrite (from_u32_spec HT) by assumption. rewrite !bind_ret.
      rewrite (IH k1 it1 Hit1) by (try (intros; apply Hk1; now right); cbn in Hf; lia). apply Hf2. }
  assert (Hcol : forall fail : M (list nat), (forall g : nat -> M (option nat * es_iter_t T), exists m, bind (enum_from_u32 T b) g = m /\
       forall h, bind m h = fail) -> (forall v, bind fail (fun rest => Ret (v :: rest)) = fail) -> es_collect T x = fail).
  { intros fail Hf1 Hf2. unfold es_collect, es_iter. rewrite Ei, bind_ret. apply (Hgen fail Hf1 Hf2 _ l1); auto.
    - now rewrite <- El.
    - rewrite Hlen. lia. }
  pose proof (match_arms_none (et_variants T) b 0) as Hma. rewrite (tl_variants _ _ _ _ _ HT) in Hma. specialize (Hma HbD).
  destruct (in_variants inp) as [|v0 [|v1 vs]] eqn:EV; cbn [length] in Hlen |- *.
  - apply Hcol; [|reflexivity]. intros g. unfold enum_from_u32. destruct (et_variants T); [|discriminate Hlen].
    eexists. split; reflexivity.
  - assert (Hpops : forall l it, irel it l -> exists it', es_pops T (repeat Front (S (length l))) it = Ret (repeat (Some 0%nat) (length l) ++ [None], it')).
    { induction l as [|e l IH]; intros it0 Hit0; destruct (rl_next _ _ _ _ _ HL _ _ Hit0) as (it1 & E1 & Hit1).
      - cbn [length repeat es_pops app]. unfold es_next. rewrite E1, bind_ret. eexists. reflexivity.
      - destruct (IH it1 Hit1) as (it2 & E2). exists it2.
        change (repeat Front (S (length (e :: l)))) with (Front :: repeat Front (S (length l))). cbn [es_pops].
        unfold es_next at 1. rewrite E1, bind_ret. cbn [hd_error es_map_item]. unfold enum_from_u32 at 1.
        destruct (et_variants T) as [|a0 [|a1 al]]; cbn [length] in Hlen; try lia.
        rewrite !bind_ret. cbn iota beta. rewrite E2. reflexivity. }
    destruct (Hpops _ _ Hit) as (it' & E'). exists it, (length (bits_of (val x))), it'. split; [exact Ei|]. split; [|split].
    + rewrite El, app_length. cbn. lia.
    + intros H0. assert (Hv0 : variant inp 0) by (unfold variant; rewrite EV; cbn; lia).
      rewrite (contains_spec HT) in H0 by assumption. injection H0 as H0. unfold mem in H0. apply bits_of_In in H0.
      destruct (bits_of (val x)) as [|e [|e' l]]; [destruct H0| |cbn; lia]. exfalso.
      destruct H0 as [E0|[]], Hb as [E|[]]. apply (Hn 0%nat Hv0). congruence.
    + exact E'.
  - apply Hcol; [|reflexivity]. intros g. unfold enum_from_u32. destruct (et_variants T) as [|a0 [|a1 al]]; cbn [length] in Hlen; try lia.
    rewrite Hma. eexists. split; reflexivity.
Qed.

Lemma read_enum_none l : forall x k, ~ In x l -> read_enum l x k = UB.
Proof.
  induction l as [|d l IH]; intros x k H; [reflexivity|]. cbn [read_enum In] in *.
  destruct (N.eqb_spec x d) as [->|_]; [exfalso; apply H; now left|]. apply IH. intros Hd. apply H. now right.
Qed.
Lemma match_arms_none_inv arms : forall d k, match_arms arms d k = None -> ~ In d (map snd arms).
Proof.
  induction arms as [|[n e] arms IH]; intros d k H; [intros []|]. cbn [match_arms map snd In] in *.
  destruct (N.eqb_spec d e) as [->|Hne]; [discriminate|]. intros [E|Hd]; [congruence|]. now apply (IH d (S k)).
Qed.
Lemma width_of_size pw inp T size : Supported pw inp T -> 1 <= size ->
  (forall v, variant inp v -> discr inp v < 2 ^ (8 * size)) -> r_width (et_repr T) <= 2 ^ (8 * size).
Proof.
  intros [_ [md HD] _ _] Hs Hd. destruct (DeriveClaims.storage_holds md pw inp T HD) as (-> & _).
  assert (Hm : max_discr inp < 2 ^ (8 * size)).
  { assert (Hp : 0 < 2 ^ (8 * size)) by (apply N.neq_0_lt_0, N.pow_nonzero; lia).
    assert (H : forall d, In d (discrs inp) -> d < 2 ^ (8 * size)).
    { intros d Hi. apply In_discr in Hi as (v & Hv & <-). now apply Hd. }
    unfold max_discr. revert H. induction (discrs inp) as [|d l IH]; intros H; cbn [fold_right]; [exact Hp|].
    apply N.max_lub_lt; [apply H; now left|apply IH; intros; apply H; now right]. }
  assert (H256 : 2 ^ (8 * size) = 256 * 2 ^ (8 * (size - 1))).
  { change 256 with (2 ^ 8). rewrite <- N.pow_add_r. f_equal. lia. }
  assert (Hp : 0 < 2 ^ (8 * (size - 1))) by (apply N.neq_0_lt_0, N.pow_nonzero; lia).
  rewrite H256 in *. set (q := 2 ^ (8 * (size - 1))) in *. clearbody q.
  assert (Hw : 64 * (max_discr inp / 64 + 1) <= 256 * q) by lia.
  unfold storage_of. destruct (at_repr (in_attrs inp)) as [name|].
  - destruct (name_bits name) as [b|] eqn:E; cbn [storage_bits]; [|exact Hw].
    unfold name_bits in E. repeat match type of E with (if ?c then _ else _) = _ => destruct c end; inversion E; lia.
  - repeat match goal with |- context [if ?c then _ else _] => destruct c end; cbn [storage_bits]; lia.
Qed.
Lemma reinterpretation pw inp T size i : Supported pw inp T -> 1 <= size ->
  (forall v, variant inp v -> discr inp v < 2 ^ (8 * size)) -> i < r_width (et_repr T) ->
  enum_from_u32_sized T size i = enum_from_u32 T i.
Proof.
  intros HS Hs Hd Hi. pose proof (width_of_size pw inp T size HS Hs Hd) as Hw. start.
  unfold enum_from_u32_sized, enum_from_u32. destruct (et_variants T) as [|a0 [|a1 al]] eqn:EV; try reflexivity.
  destruct (match_arms (a0 :: a1 :: al) i 0) eqn:E; [reflexivity|].
  apply match_arms_none_inv in E. rewrite <- EV, (tl_variants _ _ _ _ _ HT) in E.
  destruct (existsb _ _); [|reflexivity]. unfold wrap. rewrite N.mod_small by lia.
  rewrite (tl_discrs _ _ _ _ _ HT). now apply read_enum_none.
Qed.
Lemma read_enum_nth l : NoDup l -> forall v k, (v < length l)%nat -> read_enum l (nth v l 0) k = Ret (k + v)%nat.
Proof.
  induction l as [|d l IH]; intros Hnd v k Hv; cbn [length read_enum nth] in *; [lia|].
  inversion Hnd as [|? ? Hnot Hnd']; subst. destruct v as [|v].
  - rewrite N.eqb_refl. f_equal. lia.
  - destruct (N.eqb_spec (nth v l 0) d) as [E|E].
    + exfalso. apply Hnot. rewrite <- E. apply nth_In. lia.
    + rewrite IH by (auto; lia). f_equal. lia.
Qed.
Lemma any_u32 pw inp T size i : Supported pw inp T -> In size [1; 2; 4; 8; 16] ->
  (forall v, variant inp v -> discr inp v < 2 ^ (8 * size)) -> (2 <= length (in_variants inp))%nat ->
  (forall v, variant inp v -> i mod 2 ^ (8 * size) = discr inp v -> enum_from_u32_sized T size i = Ret v) /\
  ((forall v, variant inp v -> i mod 2 ^ (8 * size) <> discr inp v) -> enum_from_u32_sized T size i = UB).
Proof.
  intros HS Hs Hd Hn. start. pose proof (variants_length HT) as Hlen.
  assert (Hmod : forall v, variant inp v -> discr inp v mod 2 ^ (8 * size) = discr inp v) by (intros; now apply N.mod_small, Hd).
  assert (E : existsb (N.eqb size) [1; 2; 4; 8; 16] = true) by (apply existsb_exists; exists size; split; [exact Hs|apply N.eqb_refl]).
  assert (F : forall v, variant inp v -> enum_from_u32_sized T size (discr inp v) = Ret v).
  { intros v Hv. rewrite <- (from_u32_spec HT v Hv). unfold enum_from_u32_sized, enum_from_u32.
    pose proof (from_u32_spec HT v Hv) as HF. unfold enum_from_u32 in HF.
    destruct (et_variants T) as [|a0 [|a1 al]]; try reflexivity.
    destruct (match_arms (a0 :: a1 :: al) (discr inp v) 0); [reflexivity|discriminate HF]. }
  assert (G : (forall v, variant inp v -> i <> discr inp v) ->
    enum_from_u32_sized T size i = read_enum (discrs inp) (i mod 2 ^ (8 * size)) 0).
  { intros Hno. unfold enum_from_u32_sized.
    destruct (et_variants T) as [|a0 [|a1 al]] eqn:EV; cbn [length] in Hlen; [lia|lia|].
    destruct (match_arms (a0 :: a1 :: al) i 0) as [u|] eqn:EM.
    - exfalso. assert (Hi : In i (discrs inp)).
      { rewrite <- (tl_variants _ _ _ _ _ HT), EV. revert EM. generalize 0%nat. generalize (a0 :: a1 :: al). clear.
        intros arms. induction arms as [|[n d] arms IH]; intros k EM; [discriminate|]. cbn [match_arms map snd In] in *.
        destruct (N.eqb_spec i d) as [->|]; [now left|]. right. eauto. }
      apply In_discr in Hi as (v & Hv & Ei). now apply (Hno v Hv).
    - rewrite E. unfold wrap. now rewrite (tl_discrs _ _ _ _ _ HT). }
  assert (dec : (exists v, variant inp v /\ i = discr inp v) \/ forall v, variant inp v -> i <> discr inp v).
  { destruct (in_dec N.eq_dec i (discrs inp)) as [Hi|Hi].
    - left. apply In_discr in Hi as (v & Hv & <-). eauto.
    - right. intros v Hv ->. apply Hi, In_discr. eauto. }
  split.
  - intros v Hv Ev. destruct dec as [(u & Hu & ->)|Hno].
    + rewrite Hmod in Ev by assumption. rewrite Ev. now apply F.
    + rewrite (G Hno), Ev. unfold discr. rewrite read_enum_nth; [reflexivity|apply (D_nodup HT)|].
      now apply variant_discrs.
  - intros Hno'. destruct dec as [(u & Hu & ->)|Hno].
    + exfalso. apply (Hno' u Hu). now apply Hmod.
    + rewrite (G Hno). apply read_enum_none. intros Hi. apply In_discr in Hi as (v & Hv & Ev). now apply (Hno' v Hv).
Qed.

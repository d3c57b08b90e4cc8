(** * Claims about the comparison operators, [max], [min] and [clamp] *)
From Verif Require Import Base BaseFacts LimbFacts Prim ArrayRepr Repr ReprLaws PrimFacts ArrayFacts.
From Verif Require Import Syntax Spec Derive EnumSet CmpMethods ApiSpec DeriveFacts TyFacts SetFacts ReachFacts SetClaims MiscClaims LawClaims ExtraClaims.

Section Order.
Context (pw : N) (inp : derive_input) (T : EnumTy) (HS : Supported pw inp T).
Lemma cmp_facts a b : Reachable pw inp T a -> Reachable pw inp T b ->
  (es_cmp T a b = Eq <-> a = b) /\ es_cmp T b a = CompOpp (es_cmp T a b) /\ es_partial_cmp T a b = Some (es_cmp T a b) /\
  (es_eq T a b = true <-> a = b) /\
  (forall c r, Reachable pw inp T c -> es_cmp T a b = r -> es_cmp T b c = r -> es_cmp T a c = r).
Proof.
  intros Ra Rb. destruct (has_members pw inp T a HS Ra) as [A HA]. destruct (has_members pw inp T b HS Rb) as [B HB].
  destruct (cmp_total pw inp T a A b B HS Ra HA Rb HB) as (H1 & H2 & H3 & H4 & H5).
  destruct (eq_members pw inp T a A b B HS Ra HA Rb HB) as [He He'].
  repeat split; auto; try (intros H; apply He', H1, H); try (intros H; apply H1, He', H).
  - intros H. apply He', He, H.
  - intros H. apply He, He', H.
Qed.
End Order.

Lemma order_operators pw inp T a b : Supported pw inp T -> Reachable pw inp T a -> Reachable pw inp T b ->
  (es_lt T a b = true <-> es_cmp T a b = Lt) /\
  (es_ne T a b = true <-> a <> b) /\
  (es_le T a b = true <-> es_lt T a b = true \/ a = b) /\
  es_gt T a b = es_lt T b a /\ es_ge T a b = es_le T b a /\ es_le T a b = negb (es_lt T b a) /\
  (es_le T a b = true -> es_le T b a = true -> a = b) /\
  (forall c, Reachable pw inp T c -> es_le T a b = true -> es_le T b c = true -> es_le T a c = true) /\
  (es_is_subset T a b = Ret true -> es_le T a b = true).
Proof.
  intros HS Ra Rb. destruct (cmp_facts pw inp T HS a b Ra Rb) as (H1 & H2 & H3 & H4 & H5).
  destruct (cmp_facts pw inp T HS b a Rb Ra) as (_ & _ & H3' & _ & _).
  unfold es_lt, es_ne, es_le, es_gt, es_ge. rewrite H3, H3', H2.
  split; [destruct (es_cmp T a b); split; congruence|].
  split; [destruct (es_eq T a b); cbn; split; try congruence; [intros Hn; exfalso; apply Hn, H4; reflexivity|intros _ E; apply H4 in E; congruence]|].
  split. { destruct (es_cmp T a b); split; auto; try congruence.
    - intros _. right. now apply H1.
    - intros [E|E]; [discriminate|]. apply H1 in E. discriminate. }
  split; [now destruct (es_cmp T a b)|]. split; [now destruct (es_cmp T a b)|]. split; [now destruct (es_cmp T a b)|].
  split. { destruct (es_cmp T a b); cbn; try discriminate. intros _ _. now apply H1. }
  split.
  - intros c Rc. destruct (cmp_facts pw inp T HS b c Rb Rc) as (H1c & _ & H3c & _). destruct (cmp_facts pw inp T HS a c Ra Rc) as (_ & _ & H3d & _).
    rewrite H3c, H3d. destruct (es_cmp T a b) eqn:E1; try discriminate.
    + assert (a = b) by now apply H1. subst b. auto.
    + destruct (es_cmp T b c) eqn:E2; try discriminate.
      * assert (b = c) by now apply H1c. subst c. now rewrite E1.
      * intros _ _. rewrite (H5 c Lt Rc); auto.
  - intros Hs. destruct (subset_order pw inp T a b HS Ra Rb Hs) as [Hn _]. destruct (es_cmp T a b); congruence.
Qed.
Lemma max_min pw inp T a b : Supported pw inp T -> Reachable pw inp T a -> Reachable pw inp T b ->
  (es_max T a b = a \/ es_max T a b = b) /\ es_le T a (es_max T a b) = true /\ es_le T b (es_max T a b) = true /\
  (es_min T a b = a \/ es_min T a b = b) /\ es_le T (es_min T a b) a = true /\ es_le T (es_min T a b) b = true /\
  es_max T a b = es_max T b a /\ es_min T a b = es_min T b a /\
  (es_is_subset T a b = Ret true -> es_min T a b = a /\ es_max T a b = b).
Proof.
  intros HS Ra Rb. destruct (cmp_facts pw inp T HS a b Ra Rb) as (H1 & H2 & H3 & _).
  assert (Hrefl : forall c, Reachable pw inp T c -> es_le T c c = true).
  { intros c Rc. destruct (cmp_facts pw inp T HS c c Rc Rc) as (Hc & _ & Hp & _). unfold es_le. rewrite Hp.
    now rewrite (proj2 Hc eq_refl). }
  assert (Hle : es_cmp T a b <> Gt -> es_le T a b = true).
  { unfold es_le. rewrite H3. destruct (es_cmp T a b); congruence. }
  assert (Hge : es_cmp T a b = Gt -> es_le T b a = true).
  { destruct (cmp_facts pw inp T HS b a Rb Ra) as (_ & _ & H3' & _). unfold es_le. rewrite H3', H2. intros ->. reflexivity. }
  assert (Hsub : es_is_subset T a b = Ret true -> es_cmp T a b <> Gt).
  { intros Hs. now apply (subset_order pw inp T a b HS Ra Rb Hs). }
  unfold es_max, es_min. rewrite H2. destruct (es_cmp T a b) eqn:E; cbn [CompOpp].
  - assert (a = b) by now apply H1. subst b. rewrite (Hrefl a Ra). repeat split; auto.
  - rewrite (Hrefl a Ra), (Hrefl b Rb). rewrite Hle by discriminate. repeat split; auto.
  - rewrite (Hrefl a Ra), (Hrefl b Rb). rewrite Hge by reflexivity. repeat split; auto; exfalso; apply Hsub; auto.
Qed.
Lemma clamp_between pw inp T x lo hi : Supported pw inp T ->
  Reachable pw inp T x -> Reachable pw inp T lo -> Reachable pw inp T hi ->
  (es_le T lo hi = false -> es_clamp T x lo hi = Panic (PExplicit "assertion failed: min <= max")) /\
  (es_le T lo hi = true -> exists c, es_clamp T x lo hi = Ret c /\
     es_le T lo c = true /\ es_le T c hi = true /\
     (es_le T lo x = true -> es_le T x hi = true -> c = x) /\
     (es_lt T x lo = true -> c = lo) /\ (es_lt T hi x = true -> c = hi)).
Proof.
  intros HS Rx Rl Rh. unfold es_clamp. split; intros E; rewrite E; cbn [negb]; [reflexivity|]. eexists. split; [reflexivity|].
  destruct (order_operators pw inp T x lo HS Rx Rl) as (_ & _ & Lxl & _ & _ & Nxl & _).
  destruct (order_operators pw inp T lo x HS Rl Rx) as (_ & _ & _ & _ & _ & Nlx & _ & Tlx & _).
  destruct (order_operators pw inp T x hi HS Rx Rh) as (_ & _ & _ & Gxh & _ & Nxh & _).
  destruct (order_operators pw inp T hi x HS Rh Rx) as (_ & _ & Lhx & _).
  destruct (max_min pw inp T lo lo HS Rl Rl) as (_ & Hl & _). destruct (max_min pw inp T hi hi HS Rh Rh) as (_ & Hh & _).
  assert (Em : forall c, es_max T c c = c) by (intros c; unfold es_max; now destruct (es_cmp T c c)). rewrite Em in Hl, Hh.
  rewrite Gxh. destruct (es_lt T x lo) eqn:E1.
  - rewrite Nlx. cbn [negb]. repeat split; auto; try discriminate. intros E2. exfalso.
    (* hi < x < lo <= hi *)
    destruct (order_operators pw inp T hi lo HS Rh Rl) as (_ & _ & _ & _ & _ & _ & Ahl & _ & _).
    destruct (order_operators pw inp T hi x HS Rh Rx) as (_ & _ & _ & _ & _ & _ & _ & Thx & _).
    assert (H : es_le T hi lo = true).
    { apply (Thx lo Rl); [apply Lhx; auto|apply Lxl; auto]. }
    specialize (Ahl H E). subst hi. rewrite Nlx in Tlx. rewrite E2 in *.
    destruct (order_operators pw inp T x lo HS Rx Rl) as (C1 & _ & _ & _ & _ & _ & _ & _ & _).
    destruct (order_operators pw inp T lo x HS Rl Rx) as (C2 & _).
    destruct (cmp_facts pw inp T HS x lo Rx Rl) as (_ & Hop & _). apply C1 in E1. apply C2 in E2. rewrite E1 in Hop. cbn in Hop. congruence.
  - rewrite Nlx, Nxh. cbn [negb]. destruct (es_lt T hi x) eqn:E2.
    + repeat split; auto; try discriminate.
    + repeat split; auto; try discriminate.
Qed.

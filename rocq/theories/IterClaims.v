(** * Claims about iterators *)
From Verif Require Import Base BaseFacts LimbFacts Repr ReprLaws.
From Verif Require Import Syntax Spec Derive EnumSet ApiSpec TyFacts SetFacts IterFacts ConvFacts MacroFacts ReachFacts SetClaims.

(** ** C08 *)
Lemma iteration pw inp T s A : Supported pw inp T -> Reachable pw inp T s -> Denotes inp T s A ->
  exists l, es_collect T s = Ret l /\ es_collect_rev T s = Ret (rev l) /\ lists_set inp A l.
Proof.
  intros HS HR HA. start. members s. destruct (mem_list HT s HR) as (l & Hl & _).
  exists l. split; [now apply (collect_spec HT)|]. split; [now apply (collect_rev_spec HT)|].
  eapply lists_set_ext; eassumption.
Qed.

(** ** C09, C10 *)
Lemma deque pw inp T s A : Supported pw inp T -> Reachable pw inp T s -> Denotes inp T s A ->
  exists it l, es_iter T s = Ret it /\ es_into_iter T s = Ret it /\ lists_set inp A l /\
    forall ps, exists it', es_pops T ps it = Ret (fst (pops ps l), it').
Proof.
  intros HS HR HA. start. members s. destruct (iter_spec HT s HR) as (it & l & E & Hl & Hi).
  exists it, l. split; [assumption|]. split; [assumption|]. split; [eapply lists_set_ext; eassumption|].
  intros ps. destruct (pops_spec HT ps it l Hi) as (it' & E' & _). eauto.
Qed.
Lemma size_hint_exact pw inp T s A : Supported pw inp T -> Reachable pw inp T s -> Denotes inp T s A ->
  exists it l, es_iter T s = Ret it /\ lists_set inp A l /\
    forall ps, exists os it', es_pops T ps it = Ret (os, it') /\
      let k := N.of_nat (length (snd (pops ps l))) in
      es_size_hint T it' = Ret (k, Some k) /\ es_iter_len T it' = Ret k.
Proof.
  intros HS HR HA. start. members s. destruct (iter_spec HT s HR) as (it & l & E & Hl & Hi).
  exists it, l. split; [assumption|]. split; [eapply lists_set_ext; eassumption|].
  intros ps. destruct (pops_spec HT ps it l Hi) as (it' & E' & Hi'). do 2 eexists. split; [exact E'|].
  assert (Hk : N.of_nat (length (snd (pops ps l))) < 2 ^ pw).
  { pose proof (pops_length ps l). pose proof (list_lt_pw HT _ _ Hl). lia. }
  split; [now apply (size_hint_spec HT)|now apply (iter_len_spec HT)].
Qed.

(** Exhausted iterators. *)
Lemma pop_end_length p (l : list nat) : length (snd (pop_end p l)) = pred (length l).
Proof.
  destruct p; cbn [pop_end snd]; [now destruct l|]. rewrite rev_length, <- (rev_length l). now destruct (rev l).
Qed.
Lemma pops_left ps : forall l : list nat, length (snd (pops ps l)) = (length l - length ps)%nat.
Proof.
  induction ps as [|p ps IH]; intros l; cbn [pops length]; [cbn [snd]; lia|].
  pose proof (pop_end_length p l). destruct (pop_end p l) as [o l1]. cbn [snd] in *.
  specialize (IH l1). destruct (pops ps l1). cbn [snd] in *. lia.
Qed.
Lemma pops_nil ps : pops ps (@nil nat) = (repeat None (length ps), []).
Proof. induction ps as [|p ps IH]; cbn [pops]; [reflexivity|]. destruct p; cbn [pop_end hd_error tl rev]; rewrite IH; reflexivity. Qed.
Lemma es_pops_app T ps : forall qs it, es_pops T (ps ++ qs) it =
  ('(os, it) <- es_pops T ps it ;; '(os', it) <- es_pops T qs it ;; Ret (os ++ os', it)).
Proof.
  induction ps as [|p ps IH]; intros qs it; cbn [es_pops app].
  - rewrite bind_ret. destruct (es_pops T qs it) as [[os it']| | |]; reflexivity.
  - destruct (match p with Front => es_next T it | Back => es_next_back T it end) as [[o it1]| | |]; cbn [bind]; try reflexivity.
    rewrite IH. destruct (es_pops T ps it1) as [[os it2]| | |]; cbn [bind]; try reflexivity.
    destruct (es_pops T qs it2) as [[os' it3]| | |]; reflexivity.
Qed.
Lemma fused pw inp T s A : Supported pw inp T -> Reachable pw inp T s -> Denotes inp T s A ->
  exists it, es_iter T s = Ret it /\
    forall ps, set_size inp A <= N.of_nat (length ps) ->
      exists os it1, es_pops T ps it = Ret (os, it1) /\
        forall qs, exists it2, es_pops T qs it1 = Ret (repeat None (length qs), it2).
Proof.
  intros HS HR HA. start. members s. destruct (iter_spec HT s HR) as (it & l & E & Hl & Hi).
  exists it. split; [assumption|]. intros ps Hps.
  destruct (pops_spec HT ps it l Hi) as (it1 & E1 & H1). do 2 eexists. split; [exact E1|].
  assert (Hn : snd (pops ps l) = []).
  { apply length_zero_iff_nil. rewrite pops_left. apply lists_set_ext with (B := A) in Hl; [|assumption].
    apply lists_set_length in Hl. lia. }
  rewrite Hn in H1. intros qs. destruct (pops_spec HT qs it1 [] H1) as (it2 & E2 & _).
  rewrite pops_nil in E2. eauto.
Qed.

(** The bits handed to the unsafe conversion are discriminants of variants. *)
Lemma conversion_safe pw inp T s : Supported pw inp T -> Reachable pw inp T s ->
  exists it, es_iter T s = Ret it /\
    forall ps os it', es_pops T ps it = Ret (os, it') ->
      (forall b it2, r_iter_next (et_repr T) it' = Ret (Some b, it2) -> exists v, variant inp v /\ discr inp v = b) /\
      (forall b it2, r_iter_next_back (et_repr T) it' = Ret (Some b, it2) -> exists v, variant inp v /\ discr inp v = b).
Proof.
  intros HS HR. start. apply HV in HR. destruct (iter_spec HT s HR) as (it & l & E & Hl & Hi).
  exists it. split; [assumption|]. intros ps os it' Ep.
  destruct (pops_spec HT ps it l Hi) as (it1 & E1 & [H1 Hv]). rewrite E1 in Ep. inversion Ep; subst.
  pose proof (tl_repr _ _ _ _ _ HT) as HL. set (r := snd (pops ps l)) in *. split; intros b it2 Eb.
  - destruct (rl_next _ _ _ _ _ HL _ _ H1) as (it3 & E3 & _). rewrite E3 in Eb. inversion Eb as [[Eh Et]].
    destruct r as [|v r']; [discriminate|]. cbn in Eh. inversion Eh. exists v. split; [apply Hv; now left|reflexivity].
  - destruct r as [|v r' _] using rev_ind.
    + destruct (rl_next_back_nil _ _ _ _ _ HL _ H1) as (it3 & E3 & _). rewrite E3 in Eb. discriminate.
    + rewrite map_app in H1. destruct (rl_next_back _ _ _ _ _ HL _ _ _ H1) as (it3 & E3 & _). rewrite E3 in Eb. inversion Eb.
      exists v. split; [apply Hv, in_app_iff; right; now left|reflexivity].
Qed.

(** * Claims about serialized data and enums that change *)
From Verif Require Import Base BaseFacts LimbFacts Repr ReprLaws.
From Verif Require Import Syntax Spec Derive EnumSet Serde ApiSpec ExtraSpec TyFacts SetFacts IterFacts ConvFacts MacroFacts ReachFacts.
From Verif Require Import DeriveFacts SetClaims SerdeClaims.
Ltac Zify.zify_post_hook ::= Z.div_mod_to_equations.

Lemma serde_ity_bits pw pw' T t : sr_ity (et_serde T) = Some t -> ity_bits pw t = ity_bits pw' t.
Proof. destruct (et_serde T); cbn [sr_ity]; intros [= <-]; reflexivity. Qed.
Lemma sup_distinct pw inp T : Supported pw inp T -> NoDup (discrs inp).
Proof. intros HS. start. apply (D_nodup HT). Qed.

Section Evolve.
Context (inp inp' : derive_input) (f : nat -> nat).
Context (HD : NoDup (discrs inp)) (HD' : NoDup (discrs inp')) (HE : embeds inp inp' f).

Lemma embed_inj u v : variant inp' u -> variant inp v -> discr inp' u = discr inp v -> u = f v.
Proof.
  intros Hu Hv E. apply (discr_inj inp' _ _ HD'); auto; [now apply (emb_variant _ _ _ HE)|].
  now rewrite (emb_discr _ _ _ HE).
Qed.
Lemma value_embed A v : variant inp v -> N.testbit (set_value inp A) (discr inp' (f v)) = A v.
Proof. intros Hv. rewrite (emb_discr _ _ _ HE) by assumption. now apply set_value_discr. Qed.
Lemma value_embed_new A u : newcomer inp inp' f u -> N.testbit (set_value inp A) (discr inp' u) = false.
Proof.
  intros [Hu Hn]. apply not_true_is_false. rewrite set_value_testbit by assumption. intros (v & Hv & _ & E).
  apply (Hn v Hv). symmetry. now apply embed_inj.
Qed.
Lemma value_embed_only A : only_variant_bits inp' (set_value inp A).
Proof.
  intros i. rewrite set_value_testbit by assumption. intros (v & Hv & _ & <-). exists (f v).
  split; [now apply (emb_variant _ _ _ HE)|now apply (emb_discr _ _ _ HE)].
Qed.
Lemma value_back A v : variant inp v -> N.testbit (set_value inp' A) (discr inp v) = A (f v).
Proof.
  intros Hv. rewrite <- (emb_discr _ _ _ HE v Hv). apply set_value_discr; [assumption|]. now apply (emb_variant _ _ _ HE).
Qed.
(** Members of a set of the larger enum that the smaller enum does not have. *)
Lemma known_dec u : variant inp' u -> (exists v, variant inp v /\ f v = u) \/ newcomer inp inp' f u.
Proof.
  intros Hu. destruct (existsb (fun v => (f v =? u)%nat) (variants inp)) eqn:E.
  - left. apply existsb_exists in E as (v & Hv & E). exists v. split; [now apply variants_In|now apply Nat.eqb_eq].
  - right. split; [assumption|]. intros v Hv Ev. assert (H : existsb (fun v => (f v =? u)%nat) (variants inp) = true); [|congruence].
    apply existsb_exists. exists v. split; [now apply variants_In|now apply Nat.eqb_eq].
Qed.
Lemma value_back_only A : only_variant_bits inp (set_value inp' A) <->
  forall u, newcomer inp inp' f u -> A u = false.
Proof.
  split.
  - intros H u [Hu Hn]. apply not_true_is_false. intros HA.
    destruct (H (discr inp' u)) as (v & Hv & E); [now rewrite set_value_discr|].
    apply (Hn v Hv). symmetry. now apply embed_inj.
  - intros H i. rewrite set_value_testbit by assumption. intros (u & Hu & HA & <-).
    destruct (known_dec u Hu) as [(v & Hv & <-)|Hn]; [|rewrite (H u Hn) in HA; discriminate].
    exists v. split; [assumption|]. now rewrite (emb_discr _ _ _ HE).
Qed.
End Evolve.

(** ** C49 *)
Lemma int_evolution pw inp T pw' inp' T' f t : Supported pw inp T -> Supported pw' inp' T' -> embeds inp inp' f ->
  sr_ity (et_serde T) = Some t -> sr_ity (et_serde T') = Some t ->
  serde_compiles T = true -> serde_compiles T' = true ->
  (* written by the old program, read by the new one *)
  (forall s A, Reachable pw inp T s -> Denotes inp T s A -> exists x,
     (forall W (emit : sevent -> W -> bool * W) w, es_serialize T emit s w = Ret (emit (EvInt t x) w)) /\
     forall src, src_int src t = Ok x -> exists s', es_deserialize T' src = Ret (Ok s') /\
       (forall v, variant inp v -> es_contains T' s' (f v) = Ret (A v)) /\
       (forall u, newcomer inp inp' f u -> es_contains T' s' u = Ret false)) /\
  (* written by the new program, read by the old one *)
  (forall s' A', Reachable pw' inp' T' s' -> Denotes inp' T' s' A' -> exists x,
     (forall W (emit : sevent -> W -> bool * W) w, es_serialize T' emit s' w = Ret (emit (EvInt t x) w)) /\
     forall src, src_int src t = Ok x ->
       (et_deny_unknown T = true -> (exists u, newcomer inp inp' f u /\ A' u = true) ->
          es_deserialize T src = Ret (Err (DeCustom "enumset contains unknown bits"))) /\
       (et_deny_unknown T = false \/ (forall u, newcomer inp inp' f u -> A' u = false) ->
          exists s, es_deserialize T src = Ret (Ok s) /\ Denotes inp T s (fun v => A' (f v)))).
Proof.
  intros HS HS' HE Ht Ht' Hc Hc'.
  pose proof (sup_distinct _ _ _ HS) as HD. pose proof (sup_distinct _ _ _ HS') as HD'.
  split.
  - intros s A Hs HA. destruct (int_format pw inp T s A t HS Hs HA Ht) as (Hx & Hw & _).
    exists (set_value inp A). split; [exact Hw|]. intros src Hsrc.
    pose proof (int_input pw' inp' T' t src HS' Ht' Hc') as HI. rewrite Hsrc in HI.
    rewrite (serde_ity_bits pw pw' T t Ht) in Hx. destruct (HI Hx) as [_ H].
    destruct H as (s' & E & Hs'); [right; now apply (value_embed_only _ _ _ HD HE)|].
    exists s'. split; [exact E|]. split.
    + intros v Hv. rewrite (Hs' (f v)) by now apply (emb_variant _ _ _ HE). f_equal. now apply value_embed.
    + intros u Hu. rewrite (Hs' u) by apply Hu. f_equal. now apply (value_embed_new inp inp' f).
  - intros s' A' Hs HA. destruct (int_format pw' inp' T' s' A' t HS' Hs HA Ht') as (Hx & Hw & _).
    exists (set_value inp' A'). split; [exact Hw|]. intros src Hsrc.
    pose proof (int_input pw inp T t src HS Ht Hc) as HI. rewrite Hsrc in HI.
    rewrite <- (serde_ity_bits pw pw' T t Ht) in Hx. destruct (HI Hx) as [H1 H2]. split.
    + intros Hd (u & Hu & HAu). apply H1; [assumption|]. rewrite (value_back_only inp inp' f HD' HE).
      intros H. rewrite (H u Hu) in HAu. discriminate.
    + intros H. destruct H2 as (s & E & Hs2).
      * destruct H as [H|H]; [now left|right]. now apply (value_back_only inp inp' f HD' HE).
      * exists s. split; [exact E|]. intros v Hv. rewrite (Hs2 v Hv). f_equal. now apply value_back.
Qed.

Lemma word_bit_firstn n ws i : word_bit (firstn n ws) i = word_bit ws i && (i <? 64 * N.of_nat n).
Proof.
  unfold word_bit. destruct (N.ltb_spec i (64 * N.of_nat n)).
  - rewrite andb_true_r. f_equal. assert (Hk : (N.to_nat (i / 64) < n)%nat) by lia.
    revert Hk. generalize (N.to_nat (i / 64)) as k. intros k. revert n ws H. clear.
    intros n ws _ Hk. revert ws k Hk. induction n as [|n IH]; intros [|w ws] k Hk; try lia; [now destruct k|].
    destruct k as [|k]; [reflexivity|]. cbn [firstn nth]. apply IH. lia.
  - rewrite andb_false_r. rewrite nth_overflow; [apply N.bits_0|]. pose proof (firstn_le_length n ws). rewrite firstn_length. lia.
Qed.

Lemma array_evolution pw inp T pw' inp' T' f : Supported pw inp T -> Supported pw' inp' T' -> embeds inp inp' f ->
  et_serde T = SArray -> et_serde T' = SArray ->
  (* written by the old program, read by the new one *)
  (forall s A, Reachable pw inp T s -> Denotes inp T s A -> exists ws,
     (forall W (emit : sevent -> W -> bool * W) w,
        es_serialize T emit s w = Ret (perform emit (EvSeq (N.of_nat (length ws)) :: map EvLimb ws ++ [EvSeqEnd]) w)) /\
     forall src, SourceOk pw' inp' src -> src_words src = Ok (map Ok ws) -> exists s', es_deserialize T' src = Ret (Ok s') /\
       (forall v, variant inp v -> es_contains T' s' (f v) = Ret (A v)) /\
       (forall u, newcomer inp inp' f u -> es_contains T' s' u = Ret false)) /\
  (* written by the new program, read by the old one *)
  (forall s' A', Reachable pw' inp' T' s' -> Denotes inp' T' s' A' -> exists ws,
     (forall W (emit : sevent -> W -> bool * W) w,
        es_serialize T' emit s' w = Ret (perform emit (EvSeq (N.of_nat (length ws)) :: map EvLimb ws ++ [EvSeqEnd]) w)) /\
     forall src, SourceOk pw inp src -> src_words src = Ok (map Ok ws) ->
       ((exists u, newcomer inp inp' f u /\ A' u = true /\ discr inp' u < 64 * storage_words (storage_of inp)) ->
          es_deserialize T src = Panic (PExpect "Bitset contains invalid variants.")) /\
       ((forall u, newcomer inp inp' f u -> A' u = true -> 64 * storage_words (storage_of inp) <= discr inp' u) ->
          exists s, es_deserialize T src = Ret (Ok s) /\ Denotes inp T s (fun v => A' (f v)))).
Proof.
  intros HS HS' HE Ht Ht'.
  pose proof (sup_distinct _ _ _ HS) as HD. pose proof (sup_distinct _ _ _ HS') as HD'.
  assert (Hall : forall (ws : list N), all_ok (map Ok ws) = Ok ws :> result (list N) de_error).
  { induction ws as [|x ws IH]; cbn; [reflexivity|]. now rewrite IH. }
  split.
  - intros s A Hs HA. destruct (array_format pw inp T s A HS Hs HA Ht) as (ws & [Hok Hh] & Hf & _ & Hw & _).
    exists ws. split; [exact Hw|]. intros src HO Hsrc.
    pose proof (array_input pw' inp' T' src HS' HO Ht') as HI. rewrite Hsrc in HI. cbn iota in HI. rewrite Hall in HI.
    destruct HI as [HI _]. destruct HI as (s' & E & Hs').
    + intros i. rewrite word_bit_firstn. intros H. apply andb_true_iff in H as [H _]. apply Hh in H as (v & Hv & <- & _).
      exists (f v). split; [now apply (emb_variant _ _ _ HE)|now apply (emb_discr _ _ _ HE)].
    + exists s'. split; [exact E|]. split.
      * intros v Hv. rewrite (Hs' (f v)) by now apply (emb_variant _ _ _ HE). f_equal.
        rewrite (emb_discr _ _ _ HE) by assumption. apply eq_true_iff_eq. rewrite Hh. split.
        -- intros (u & Hu & Eu & HAu & _). now rewrite <- (discr_inj inp u v HD Hu Hv Eu).
        -- intros HAv. exists v. repeat split; auto.
      * intros u [Hu Hn]. rewrite (Hs' u Hu). f_equal. apply not_true_is_false. rewrite Hh. intros (v & Hv & Ev & _).
        apply (Hn v Hv). symmetry. now apply (embed_inj inp inp' f HD' HE).
  - intros s' A' Hs HA. destruct (array_format pw' inp' T' s' A' HS' Hs HA Ht') as (ws & [Hok Hh] & Hf & _ & Hw & _).
    exists ws. split; [exact Hw|]. intros src HO Hsrc.
    pose proof (array_input pw inp T src HS HO Ht) as HI. rewrite Hsrc in HI. cbn iota in HI. rewrite Hall in HI.
    destruct HI as [H1 H2]. split.
    + intros (u & [Hu Hn] & HAu & Hlt). apply H2. intros HC. destruct (HC (discr inp' u)) as (v & Hv & Ev).
      * rewrite word_bit_firstn, N2Nat.id. apply andb_true_iff. split; [|now apply N.ltb_lt]. apply Hh. exists u. repeat split; auto.
      * apply (Hn v Hv). symmetry. now apply (embed_inj inp inp' f HD' HE).
    + intros H. destruct H1 as (s & E & Hs2).
      * intros i. rewrite word_bit_firstn, N2Nat.id. intros Hi. apply andb_true_iff in Hi as [Hi Hlt]. apply N.ltb_lt in Hlt.
        apply Hh in Hi as (u & Hu & <- & HAu & _).
        destruct (known_dec inp inp' f u Hu) as [(v & Hv & <-)|Hn].
        -- exists v. split; [assumption|]. symmetry. now apply (emb_discr _ _ _ HE).
        -- specialize (H u Hn HAu). lia.
      * exists s. split; [exact E|]. intros v Hv. rewrite (Hs2 v Hv). f_equal. apply eq_true_iff_eq. rewrite Hh. split.
        -- intros (u & Hu & Eu & HAu & _). now rewrite <- (embed_inj inp inp' f HD' HE u v Hu Hv Eu).
        -- intros HAv. exists (f v). pose proof (emb_variant _ _ _ HE v Hv) as Hfv. rewrite <- (emb_discr _ _ _ HE v Hv). repeat split; auto.
Qed.

Lemma list_evolution pw inp T pw' inp' T' f : Supported pw inp T -> Supported pw' inp' T' -> embeds inp inp' f ->
  forall s A, Reachable pw inp T s -> Denotes inp T s A ->
  (et_serde T = SList -> et_serde T' = SList -> exists l,
     (forall W (emit : sevent -> W -> bool * W) w,
        es_serialize T emit s w = Ret (perform emit (EvSeq (N.of_nat (length l)) :: map EvElem l ++ [EvSeqEnd]) w)) /\
     forall src, SourceOk pw' inp' src -> src_list src = Ok (map (fun v => Ok (f v)) l) ->
       exists s', es_deserialize T' src = Ret (Ok s') /\
         (forall v, variant inp v -> es_contains T' s' (f v) = Ret (A v)) /\
         (forall u, newcomer inp inp' f u -> es_contains T' s' u = Ret false)) /\
  (et_serde T = SMap -> et_serde T' = SMap -> exists l,
     (forall W (emit : sevent -> W -> bool * W) w,
        es_serialize T emit s w = Ret (perform emit (EvMap (N.of_nat (length l)) :: map (fun v => EvEntry v true) l ++ [EvMapEnd]) w)) /\
     forall src, SourceOk pw' inp' src -> src_map src = Ok (map (fun v => Ok (f v, true)) l) ->
       exists s', es_deserialize T' src = Ret (Ok s') /\
         (forall v, variant inp v -> es_contains T' s' (f v) = Ret (A v)) /\
         (forall u, newcomer inp inp' f u -> es_contains T' s' u = Ret false)).
Proof.
  intros HS HS' HE s A Hs HA.
  pose proof (sup_distinct _ _ _ HS) as HD. pose proof (sup_distinct _ _ _ HS') as HD'.
  assert (Hok : forall {X} (g : nat -> X) l, all_ok (map (fun v => Ok (g v)) l) = Ok (map g l) :> result (list X) de_error).
  { intros X g. induction l as [|x l IH]; cbn; [reflexivity|]. now rewrite IH. }
  assert (Hin : forall l, lists_set inp A l -> forall v, variant inp v -> (existsb (Nat.eqb (f v)) (map f l) = A v)).
  { intros l [_ Hl] v Hv. apply eq_true_iff_eq. rewrite existsb_exists. split.
    - intros (y & Hy & Ey). apply Nat.eqb_eq in Ey. subst y. apply in_map_iff in Hy as (w & Ew & Hw).
      apply Hl in Hw as [Hw HAw]. assert (w = v); [|now subst].
      apply (discr_inj inp w v HD Hw Hv). rewrite <- !(emb_discr _ _ _ HE) by assumption. now rewrite Ew.
    - intros HAv. exists (f v). rewrite Nat.eqb_refl. split; [|reflexivity]. apply in_map, Hl. auto. }
  assert (Hnew : forall l, lists_set inp A l -> forall u, newcomer inp inp' f u -> existsb (Nat.eqb u) (map f l) = false).
  { intros l [_ Hl] u [Hu Hn]. apply not_true_is_false. rewrite existsb_exists. intros (y & Hy & Ey). apply Nat.eqb_eq in Ey. subst y.
    apply in_map_iff in Hy as (w & Ew & Hw). apply Hl in Hw as [Hw _]. now apply (Hn w Hw). }
  split; intros Ht Ht'.
  - destruct (list_format pw inp T s A HS Hs HA Ht) as (l & Hl & Hw & _). exists l.
    rewrite (lists_set_length _ _ _ Hl). split; [exact Hw|]. intros src HO Hsrc.
    pose proof (list_input pw' inp' T' src HS' HO Ht') as HI. rewrite Hsrc in HI. cbn iota in HI. rewrite Hok in HI.
    destruct HI as (s' & E & Hs'). exists s'. split; [exact E|]. split.
    + intros v Hv. rewrite (Hs' (f v)) by now apply (emb_variant _ _ _ HE). f_equal. now apply Hin.
    + intros u Hu. rewrite (Hs' u) by apply Hu. f_equal. now apply Hnew.
  - destruct (map_format pw inp T s A HS Hs HA Ht) as (l & Hl & Hw & _). exists l.
    rewrite (lists_set_length _ _ _ Hl). split; [exact Hw|]. intros src HO Hsrc.
    pose proof (map_input pw' inp' T' src HS' HO Ht') as HI. rewrite Hsrc in HI. cbn iota in HI.
    rewrite (Hok _ (fun v => (f v, true))) in HI.
    assert (Ex : forall u, existsb (fun e => (u =? fst e)%nat && snd e) (map (fun v => (f v, true)) l) = existsb (Nat.eqb u) (map f l)).
    { intros u. induction l as [|x l' IH]; [reflexivity|]. cbn [map existsb fst snd]. rewrite andb_true_r. f_equal. clear - u.
      induction l' as [|x l' IH]; [reflexivity|]. cbn [map existsb fst snd]. now rewrite andb_true_r, IH. }
    destruct HI as (s' & E & Hs'). exists s'. split; [exact E|]. split.
    + intros v Hv. rewrite (Hs' (f v)) by now apply (emb_variant _ _ _ HE). f_equal. cbv beta. rewrite Ex. now apply Hin.
    + intros u Hu. rewrite (Hs' u) by apply Hu. f_equal. cbv beta. rewrite Ex. now apply Hnew.
Qed.

Lemma seen_items inp inp' f {X Er} (item : nat -> X) l : (forall u, In u l -> variant inp' u) -> forall items : list (result X Er),
  Forall2 (seen_as inp inp' f item) l items ->
  (exists vs, all_ok items = Ok (map item vs) /\ map f vs = l /\ forall v, In v vs -> variant inp v) \/
  (exists n u e, nth_error l n = Some u /\ newcomer inp inp' f u /\ nth_error items n = Some (Err e) /\
     (forall m w, (m < n)%nat -> nth_error l m = Some w -> ~ newcomer inp inp' f w) /\ all_ok items = Err e).
Proof.
  intros Hl items H. induction H as [|u r l items [H1 H2] Hf IH].
  - left. exists []. repeat split. intros v [].
  - destruct (known_dec inp inp' f u (Hl u (or_introl eq_refl))) as [(v & Hv & Ev)|Hn].
    + rewrite (H1 v Hv Ev). destruct IH as [(vs & E & Em & Hvs)|(n & w & e & E1 & E2 & E3 & E4 & E5)].
      * intros x Hx. apply Hl. now right.
      * left. exists (v :: vs). cbn. rewrite E, Em, Ev. repeat split. intros x [<-|Hx]; auto.
      * right. exists (S n), w, e. cbn. rewrite E5. repeat split; auto.
        -- apply E2.
        -- apply E2.
        -- intros [|m] x Hm Hx; cbn in Hx; [|apply (E4 m); [lia|assumption]]. inversion Hx; subst x.
           intros [_ Hc]. now apply (Hc v Hv).
    + destruct (H2 Hn) as [e ->]. right. exists O, u, e. cbn. repeat split; try apply Hn. intros m x Hm. lia.
Qed.

(** Written by the new program, read by the old one *)
Lemma list_rollback pw inp T pw' inp' T' f : Supported pw inp T -> Supported pw' inp' T' -> embeds inp inp' f ->
  forall s' A', Reachable pw' inp' T' s' -> Denotes inp' T' s' A' ->
  (et_serde T = SList -> et_serde T' = SList -> exists l,
     (forall W (emit : sevent -> W -> bool * W) w,
        es_serialize T' emit s' w = Ret (perform emit (EvSeq (N.of_nat (length l)) :: map EvElem l ++ [EvSeqEnd]) w)) /\
     forall src items, SourceOk pw inp src -> src_list src = Ok items ->
       Forall2 (seen_as inp inp' f (fun v => v)) l items ->
       ((forall u, newcomer inp inp' f u -> A' u = false) ->
          exists s, es_deserialize T src = Ret (Ok s) /\ Denotes inp T s (fun v => A' (f v))) /\
       ((exists u, newcomer inp inp' f u /\ A' u = true) ->
          exists n u e, nth_error l n = Some u /\ newcomer inp inp' f u /\ nth_error items n = Some (Err e) /\
            (forall m w, (m < n)%nat -> nth_error l m = Some w -> ~ newcomer inp inp' f w) /\
            es_deserialize T src = Ret (Err e))) /\
  (et_serde T = SMap -> et_serde T' = SMap -> exists l,
     (forall W (emit : sevent -> W -> bool * W) w,
        es_serialize T' emit s' w = Ret (perform emit (EvMap (N.of_nat (length l)) :: map (fun v => EvEntry v true) l ++ [EvMapEnd]) w)) /\
     forall src items, SourceOk pw inp src -> src_map src = Ok items ->
       Forall2 (seen_as inp inp' f (fun v => (v, true))) l items ->
       ((forall u, newcomer inp inp' f u -> A' u = false) ->
          exists s, es_deserialize T src = Ret (Ok s) /\ Denotes inp T s (fun v => A' (f v))) /\
       ((exists u, newcomer inp inp' f u /\ A' u = true) ->
          exists n u e, nth_error l n = Some u /\ newcomer inp inp' f u /\ nth_error items n = Some (Err e) /\
            (forall m w, (m < n)%nat -> nth_error l m = Some w -> ~ newcomer inp inp' f w) /\
            es_deserialize T src = Ret (Err e))).
Proof.
  intros HS HS' HE s' A' Hs HA.
  pose proof (sup_distinct _ _ _ HS) as HD. pose proof (sup_distinct _ _ _ HS') as HD'.
  assert (Hknown : forall l vs, lists_set inp' A' l -> map f vs = l -> (forall v, In v vs -> variant inp v) ->
    (forall v, variant inp v -> existsb (Nat.eqb v) vs = A' (f v)) /\ forall u, newcomer inp inp' f u -> A' u <> true).
  { intros l vs [_ Hl] Em Hvs. split.
    - intros v Hv. apply eq_true_iff_eq. rewrite existsb_exists. split.
      + intros (y & Hy & Ey). apply Nat.eqb_eq in Ey. subst y. apply Hl. rewrite <- Em. now apply in_map.
      + intros HAv. assert (Hin : In (f v) l) by (apply Hl; split; [now apply (emb_variant _ _ _ HE)|assumption]).
        rewrite <- Em in Hin. apply in_map_iff in Hin as (w & Ew & Hw). exists w. split; [assumption|]. apply Nat.eqb_eq.
        apply (discr_inj inp v w HD Hv (Hvs w Hw)). rewrite <- !(emb_discr _ _ _ HE) by auto. now rewrite Ew.
    - intros u [Hu Hn] HAu. assert (Hin : In u l) by (apply Hl; auto).
      rewrite <- Em in Hin. apply in_map_iff in Hin as (w & Ew & Hw). exact (Hn w (Hvs w Hw) Ew). }
  assert (Hmem : forall l n u, lists_set inp' A' l -> nth_error l n = Some u -> A' u = true).
  { intros l n u [_ Hl] Hn. apply nth_error_In, Hl in Hn. tauto. }
  split; intros Ht Ht'.
  - destruct (list_format pw' inp' T' s' A' HS' Hs HA Ht') as (l & Hl & Hw & _). exists l.
    rewrite (lists_set_length _ _ _ Hl). split; [exact Hw|]. intros src items HO Hsrc Hit.
    pose proof (list_input pw inp T src HS HO Ht) as HI. rewrite Hsrc in HI. cbn iota in HI.
    destruct (seen_items inp inp' f _ l (fun u Hu => proj1 (proj1 (proj2 Hl u) Hu)) items Hit)
      as [(vs & E & Em & Hvs)|(n & u & e & E1 & E2 & E3 & E4 & E5)].
    + rewrite E, map_id in HI. destruct (Hknown l vs Hl Em Hvs) as [K1 K2]. destruct HI as (s & Es & Hd). split.
      * intros _. exists s. split; [exact Es|]. intros v Hv. rewrite (Hd v Hv). f_equal. now apply K1.
      * intros (u & Hu & HAu). destruct (K2 u Hu HAu).
    + rewrite E5 in HI. split.
      * intros Hno. apply (Hmem l n u Hl) in E1. rewrite (Hno u E2) in E1. discriminate.
      * intros _. exists n, u, e. auto.
  - destruct (map_format pw' inp' T' s' A' HS' Hs HA Ht') as (l & Hl & Hw & _). exists l.
    rewrite (lists_set_length _ _ _ Hl). split; [exact Hw|]. intros src items HO Hsrc Hit.
    pose proof (map_input pw inp T src HS HO Ht) as HI. rewrite Hsrc in HI. cbn iota in HI.
    destruct (seen_items inp inp' f _ l (fun u Hu => proj1 (proj1 (proj2 Hl u) Hu)) items Hit)
      as [(vs & E & Em & Hvs)|(n & u & e & E1 & E2 & E3 & E4 & E5)].
    + rewrite E in HI. destruct (Hknown l vs Hl Em Hvs) as [K1 K2]. destruct HI as (s & Es & Hd).
      assert (Ex : forall u, existsb (fun e => (u =? fst e)%nat && snd e) (map (fun v => (v, true)) vs) = existsb (Nat.eqb u) vs).
      { intros u. clear. induction vs as [|x l' IH]; [reflexivity|]. cbn [map existsb fst snd]. now rewrite andb_true_r, IH. }
      split.
      * intros _. exists s. split; [exact Es|]. intros v Hv. rewrite (Hd v Hv). f_equal. rewrite Ex. now apply K1.
      * intros (u & Hu & HAu). destruct (K2 u Hu HAu).
    + rewrite E5 in HI. split.
      * intros Hno. apply (Hmem l n u Hl) in E1. rewrite (Hno u E2) in E1. discriminate.
      * intros _. exists n, u, e. auto.
Qed.

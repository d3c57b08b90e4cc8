(** * Facts about the iterators *)
From Verif Require Import Base BaseFacts Repr ReprLaws.
From Verif Require Import Syntax Spec Derive EnumSet Fmt ApiSpec DeriveFacts TyFacts SetFacts.
Ltac Zify.zify_post_hook ::= Z.div_mod_to_equations.

Section Iter.
Context {pw : N} {inp : derive_input} {T : EnumTy} {val : eset T -> N}
        {irel : r_iter_t (et_repr T) -> list N -> Prop}.
Context (HT : TyLaws pw (discrs inp) T val irel).
Let HR := tl_repr _ _ _ _ _ HT.
Local Notation mem := (@mem inp T val).
Local Notation Valid := (@Valid inp T val).

(** The iterator [it] has the variants [l] still to yield. *)
Definition it_rel (it : es_iter_t T) (l : list nat) : Prop :=
  irel it (map (discr inp) l) /\ (forall v, In v l -> variant inp v).

Lemma iter_spec s : Valid s ->
  exists it l, es_iter T s = Ret it /\ lists_set inp (mem s) l /\ it_rel it l.
Proof.
  intros Hs. destruct (mem_list HT s Hs) as (l & Hl & E).
  destruct (rl_iter _ _ _ _ _ HR s (valid_ok _ Hs)) as (it & Ei & Hi).
  exists it, l. split; [exact Ei|]. split; [exact Hl|]. split.
  - rewrite E. exact Hi.
  - intros v Hv. now apply Hl in Hv.
Qed.

Lemma next_spec it l : it_rel it l ->
  exists it', es_next T it = Ret (hd_error l, it') /\ it_rel it' (tl l).
Proof.
  intros [Hi Hv]. destruct (rl_next _ _ _ _ _ HR _ _ Hi) as (it' & E & Hi').
  unfold es_next. rewrite E, bind_ret. exists it'.
  destruct l as [|v l]; cbn [map hd_error tl es_map_item] in *.
  - rewrite bind_ret. split; [reflexivity|]. now split.
  - rewrite (from_u32_spec HT) by (apply Hv; now left). rewrite !bind_ret. split; [reflexivity|].
    split; [exact Hi'|]. intros u Hu. apply Hv. now right.
Qed.
Lemma next_back_spec it l v : it_rel it (l ++ [v]) ->
  exists it', es_next_back T it = Ret (Some v, it') /\ it_rel it' l.
Proof.
  intros [Hi Hv]. rewrite map_app in Hi. destruct (rl_next_back _ _ _ _ _ HR _ _ _ Hi) as (it' & E & Hi').
  unfold es_next_back. rewrite E, bind_ret. exists it'. cbn [es_map_item].
  rewrite (from_u32_spec HT) by (apply Hv, in_app_iff; right; now left). rewrite !bind_ret. split; [reflexivity|].
  split; [exact Hi'|]. intros u Hu. apply Hv, in_app_iff. now left.
Qed.
Lemma next_back_nil it : it_rel it [] -> exists it', es_next_back T it = Ret (None, it') /\ it_rel it' [].
Proof.
  intros [Hi Hv]. destruct (rl_next_back_nil _ _ _ _ _ HR _ Hi) as (it' & E & Hi').
  unfold es_next_back. rewrite E, bind_ret. exists it'. split; [reflexivity|]. split; [exact Hi'|intros ? []].
Qed.
Lemma pop_spec p it l : it_rel it l ->
  exists it', (match p with Front => es_next T it | Back => es_next_back T it end) = Ret (fst (pop_end p l), it') /\
    it_rel it' (snd (pop_end p l)).
Proof.
  intros H. destruct p; cbn [pop_end fst snd].
  - now apply next_spec.
  - destruct l as [|v l _] using rev_ind.
    + now apply next_back_nil.
    + rewrite rev_app_distr. cbn [rev app hd_error tl]. rewrite rev_involutive. now apply next_back_spec.
Qed.
Lemma pops_spec ps : forall it l, it_rel it l ->
  exists it', es_pops T ps it = Ret (fst (pops ps l), it') /\ it_rel it' (snd (pops ps l)).
Proof.
  induction ps as [|p ps IH]; intros it l H; cbn [es_pops pops].
  - exists it. auto.
  - destruct (pop_spec p it l H) as (it1 & E1 & H1). rewrite E1, bind_ret.
    destruct (pop_end p l) as [o l1]. cbn [fst snd] in *.
    destruct (IH it1 l1 H1) as (it2 & E2 & H2). rewrite E2, bind_ret.
    destruct (pops ps l1) as [os l2]. cbn [fst snd] in *. exists it2. auto.
Qed.

(** Lists of distinct variants are short enough for usize. *)
Lemma size_hint_spec it l : it_rel it l -> N.of_nat (length l) < 2 ^ pw ->
  es_size_hint T it = Ret (N.of_nat (length l), Some (N.of_nat (length l))).
Proof.
  intros [Hi _] Hl. unfold es_size_hint.
  rewrite (rl_size_hint _ _ _ _ _ HR _ _ Hi) by now rewrite map_length. now rewrite map_length.
Qed.
Lemma iter_len_spec it l : it_rel it l -> N.of_nat (length l) < 2 ^ pw ->
  es_iter_len T it = Ret (N.of_nat (length l)).
Proof.
  intros H Hl. unfold es_iter_len. rewrite (size_hint_spec it l) by assumption. rewrite bind_ret. now rewrite N.eqb_refl.
Qed.
Lemma pop_length p (l : list nat) : (length (snd (pop_end p l)) <= length l)%nat.
Proof.
  destruct p; cbn [pop_end snd].
  - destruct l; cbn [tl length]; lia.
  - rewrite rev_length. rewrite <- (rev_length l). destruct (rev l); cbn [tl length]; lia.
Qed.
Lemma pops_length ps : forall l : list nat, (length (snd (pops ps l)) <= length l)%nat.
Proof.
  induction ps as [|p ps IH]; intros l; cbn [pops]; [cbn [snd]; lia|].
  pose proof (pop_length p l). destruct (pop_end p l) as [o l1]. cbn [snd] in *.
  specialize (IH l1). destruct (pops ps l1). cbn [snd] in *. lia.
Qed.
Lemma list_lt_pw A l : lists_set inp A l -> N.of_nat (length l) < 2 ^ pw.
Proof. intros H. rewrite (lists_set_length _ _ _ H). apply (count_lt_pw HT). Qed.
Lemma list_length_le A l : lists_set inp A l -> (length l <= length (et_variants T))%nat.
Proof.
  intros H. rewrite (variants_length HT). pose proof (size_le (inp := inp) A) as H'. rewrite <- (lists_set_length _ _ _ H) in H'. lia.
Qed.

(** ** Running to the end *)
Lemma drain_spec l : forall fuel it, it_rel it l -> (length l < fuel)%nat -> es_drain T fuel it = Ret l.
Proof.
  induction l as [|v l IH]; intros [|fuel] it H Hf; cbn [length] in Hf; try lia; cbn [es_drain];
    destruct (next_spec _ _ H) as (it' & E & H'); rewrite E, bind_ret; cbn [hd_error tl] in *; [reflexivity|].
  rewrite (IH fuel it' H') by lia. reflexivity.
Qed.
Lemma drain_back_spec l : forall fuel it, it_rel it l -> (length l < fuel)%nat -> es_drain_back T fuel it = Ret (rev l).
Proof.
  induction l as [|v l IH] using rev_ind; intros [|fuel] it H Hf; rewrite ?app_length in Hf; cbn [length] in Hf; try lia; cbn [es_drain_back].
  - destruct (next_back_nil _ H) as (it' & E & H'). rewrite E. reflexivity.
  - destruct (next_back_spec _ _ _ H) as (it' & E & H'). rewrite E, bind_ret, (IH fuel it' H') by lia.
    rewrite bind_ret, rev_app_distr. reflexivity.
Qed.
Lemma collect_spec s l : Valid s -> lists_set inp (mem s) l -> es_collect T s = Ret l.
Proof.
  intros Hs Hl. destruct (iter_spec s Hs) as (it & l' & E & Hl' & Hi).
  rewrite (lists_set_unique _ _ _ _ (D_nodup HT) Hl Hl') in *. unfold es_collect. rewrite E, bind_ret.
  apply drain_spec; [assumption|]. pose proof (list_length_le _ _ Hl'). lia.
Qed.
Lemma collect_rev_spec s l : Valid s -> lists_set inp (mem s) l -> es_collect_rev T s = Ret (rev l).
Proof.
  intros Hs Hl. destruct (iter_spec s Hs) as (it & l' & E & Hl' & Hi).
  rewrite (lists_set_unique _ _ _ _ (D_nodup HT) Hl Hl') in *. unfold es_collect_rev. rewrite E, bind_ret.
  apply drain_back_spec; [assumption|]. pose proof (list_length_le _ _ Hl'). lia.
Qed.
(** A [for] loop over the iterator is a loop over the remaining variants. *)
Lemma es_for_spec {St B} (body : nat -> St -> M (ctrl St B)) l : forall fuel it s, it_rel it l -> (length l < fuel)%nat ->
  es_for T fuel it s body = for_ctrl l s body.
Proof.
  induction l as [|v l IH]; intros [|fuel] it s H Hf; cbn [length] in Hf; try lia; cbn [es_for for_ctrl];
    destruct (next_spec _ _ H) as (it' & E & H'); rewrite E, bind_ret; cbn [hd_error tl] in *; [reflexivity|].
  destruct (body v s) as [c| | |]; cbn [bind]; auto. destruct c; auto. apply IH; [assumption|lia].
Qed.
Lemma es_for_iter {St B} (body : nat -> St -> M (ctrl St B)) s l st : Valid s -> lists_set inp (mem s) l ->
  (it <- es_iter T s ;; es_for T (es_for_fuel T) it st body) = for_ctrl l st body.
Proof.
  intros Hs Hl. destruct (iter_spec s Hs) as (it & l' & E & Hl' & Hi).
  rewrite (lists_set_unique _ _ _ _ (D_nodup HT) Hl Hl') in *. rewrite E, bind_ret.
  apply es_for_spec; [assumption|]. unfold es_for_fuel. pose proof (list_length_le _ _ Hl'). lia.
Qed.
End Iter.

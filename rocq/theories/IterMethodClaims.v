(** * Claims about the provided iterator methods *)
From Verif Require Import Base BaseFacts LimbFacts Repr ReprLaws.
From Verif Require Import Syntax Spec Derive EnumSet IterMethods ApiSpec ExtraSpec TyFacts SetFacts IterFacts ReachFacts SetClaims IterClaims.
Ltac Zify.zify_post_hook ::= Z.div_mod_to_equations.

Lemma cadd_ok md w a b : a + b < 2 ^ w -> @cadd md w a b = Ret (a + b).
Proof. intros H. unfold cadd. now rewrite (proj2 (N.ltb_lt _ _) H). Qed.

Section Methods.
Context {pw : N} {inp : derive_input} {T : EnumTy}.
(** An abstract view of one end: [rel it l] means that repeated steps yield [l]. *)
Context (step : es_iter_t T -> M (option nat * es_iter_t T)) (rel : es_iter_t T -> list nat -> Prop).
Context (Hstep : forall it l, rel it l -> exists it', step it = Ret (hd_error l, it') /\ rel it' (tl l)).

Lemma advance_spec n : forall it l, rel it l ->
  exists it', es_advance T step n it = Ret ((n <=? length l)%nat, it') /\ rel it' (skipn n l).
Proof.
  induction n as [|n IH]; intros it l H; cbn [es_advance skipn]; [exists it; auto|].
  destruct (Hstep _ _ H) as (it1 & E1 & H1). rewrite E1, bind_ret. destruct l as [|x l]; cbn [hd_error tl length Nat.leb] in *.
  - exists it1. auto.
  - destruct (IH _ _ H1) as (it2 & E2 & H2). eauto.
Qed.
Lemma nth_spec n it l : rel it l ->
  exists it', es_nth T step n it = Ret (nth_error l n, it') /\ rel it' (skipn (S n) l).
Proof.
  intros H. unfold es_nth. destruct (advance_spec n it l H) as (it1 & E1 & H1). rewrite E1, bind_ret.
  assert (Hs : forall (m : list nat) k, hd_error (skipn k m) = nth_error m k /\ tl (skipn k m) = skipn (S k) m).
  { induction m as [|y m IHm]; intros [|k]; cbn; auto. destruct (IHm k) as [A B]. rewrite A, B. split; [reflexivity|]. cbn. destruct m; reflexivity. }
  destruct (Nat.leb_spec n (length l)) as [Hn|Hn].
  - destruct (Hstep _ _ H1) as (it2 & E2 & H2). destruct (Hs l n) as [A B]. rewrite A in E2. rewrite B in H2. eauto.
  - rewrite (proj2 (nth_error_None l n)) by lia. exists it1. split; [reflexivity|].
    rewrite skipn_all2 in H1 by lia. now rewrite skipn_all2 by lia.
Qed.
Lemma fold_loop_spec {B} (f : B -> nat -> M B) l : forall fuel it b, rel it l -> (length l < fuel)%nat ->
  es_fold_loop T step fuel it b f = for_each l b (fun x b => f b x).
Proof.
  induction l as [|x l IH]; intros [|fuel] it b H Hf; cbn [length] in Hf; try lia; cbn [es_fold_loop for_each];
    destruct (Hstep _ _ H) as (it1 & E1 & H1); rewrite E1, bind_ret; cbn [hd_error tl] in *; [reflexivity|].
  destruct (f b x) as [b'| | |]; cbn [bind]; auto. apply IH; [assumption|lia].
Qed.
Lemma find_loop_spec p l : forall fuel it, rel it l -> (length l < fuel)%nat ->
  exists it', es_find_loop T step fuel p it = Ret (find p l, it') /\ rel it' (after_first p l).
Proof.
  induction l as [|x l IH]; intros [|fuel] it H Hf; cbn [length] in Hf; try lia; cbn [es_find_loop find after_first];
    destruct (Hstep _ _ H) as (it1 & E1 & H1); rewrite E1, bind_ret; cbn [hd_error tl] in *; [eauto|].
  destruct (p x); [eauto|]. apply IH; [assumption|lia].
Qed.
Lemma position_loop_spec md p l : forall fuel it k, rel it l -> (length l < fuel)%nat -> k + N.of_nat (length l) < 2 ^ et_pw T ->
  exists it', @es_position_loop md T step fuel p k it =
    Ret (match first_index p l with Some j => Some (k + j) | None => None end, it') /\ rel it' (after_first p l).
Proof.
  induction l as [|x l IH]; intros [|fuel] it k H Hf Hk; cbn [length] in Hf, Hk; try lia; cbn [es_position_loop first_index after_first];
    destruct (Hstep _ _ H) as (it1 & E1 & H1); rewrite E1, bind_ret; cbn [hd_error tl] in *; [eauto|].
  destruct (p x); [rewrite N.add_0_r; eauto|]. rewrite cadd_ok by lia. rewrite bind_ret.
  destruct (IH fuel it1 (k + 1) H1) as (it2 & E2 & H2); [lia|lia|]. exists it2. rewrite E2. split; [|assumption]. do 2 f_equal.
  destruct (first_index p l) as [j|]; [|reflexivity]. f_equal. lia.
Qed.
Lemma count_loop_spec md l : forall fuel it k, rel it l -> (length l < fuel)%nat -> k + N.of_nat (length l) < 2 ^ et_pw T ->
  es_fold_loop T step fuel it k (fun count _ => @cadd md (et_pw T) count 1) = Ret (k + N.of_nat (length l)).
Proof.
  intros fuel it k H Hf Hk. rewrite (fold_loop_spec _ l) by assumption. clear H Hf. revert k Hk.
  induction l as [|x l IH]; intros k Hk; cbn [for_each length] in *; [f_equal; lia|].
  rewrite cadd_ok by lia. rewrite bind_ret, IH by lia. f_equal. lia.
Qed.
End Methods.

(** ** C58 *)
Section Ends.
Context {pw : N} {inp : derive_input} {T : EnumTy} {val : eset T -> N}
        {irel : r_iter_t (et_repr T) -> list N -> Prop}.
Context (HT : TyLaws pw (discrs inp) T val irel).
Local Notation it_rel := (@it_rel inp T irel).
Definition back_rel (it : es_iter_t T) (l : list nat) : Prop := it_rel it (rev l).
Lemma back_step it l : back_rel it l -> exists it', es_next_back T it = Ret (hd_error l, it') /\ back_rel it' (tl l).
Proof.
  unfold back_rel. intros H. destruct (pop_spec HT Back it _ H) as (it' & E & H'). cbn [pop_end fst snd] in *.
  rewrite rev_involutive in *. eauto.
Qed.
Lemma rel_yields it l : it_rel it l -> it_yields T it l.
Proof. intros H ps. destruct (pops_spec HT ps it l H) as (it' & E & _). eauto. Qed.
Lemma extend_iter_spec l : forall fuel s it, it_rel it l -> @Valid inp T val s -> (length l < fuel)%nat ->
  exists s' it', es_extend_iter_loop T fuel s it = Ret (s', it') /\ @Valid inp T val s' /\
    (forall v, variant inp v -> @mem inp T val s' v = @mem inp T val s v || existsb (Nat.eqb v) l) /\ it_rel it' [].
Proof.
  induction l as [|x l IH]; intros [|fuel] s it Hi Hs Hf; cbn [length] in Hf; try lia; cbn [es_extend_iter_loop];
    destruct (next_spec HT _ _ Hi) as (it1 & -> & H1); cbn [hd_error tl] in *; rewrite bind_ret.
  - exists s, it1. split; [reflexivity|]. split; [assumption|]. split; [|assumption]. intros v Hv. cbn. now rewrite orb_false_r.
  - assert (Hx : variant inp x) by (apply Hi; now left).
    destruct (insert_spec HT s x Hs Hx) as (s1 & -> & Hs1 & Hm1). rewrite bind_ret.
    destruct (IH fuel s1 it1 H1 Hs1) as (s2 & it2 & E & Hs2 & Hm2 & H2); [lia|]. exists s2, it2. split; [exact E|]. split; [assumption|].
    split; [|assumption]. intros v Hv. rewrite Hm2, Hm1 by assumption. cbn [existsb]. rewrite (orb_comm (v =? x)%nat), orb_assoc. reflexivity.
Qed.
End Ends.

Lemma iterator_methods md pw inp T s A : Supported pw inp T -> Reachable pw inp T s -> Denotes inp T s A ->
  exists it l, es_iter T s = Ret it /\ lists_set inp A l /\
  forall ps, exists os it', es_pops T ps it = Ret (os, it') /\
    let r := snd (pops ps l) in
    @es_count md T (es_next T) it' = Ret (N.of_nat (length r)) /\
    es_last T (es_next T) it' = Ret (hd_error (rev r)) /\
    (forall B (f : B -> nat -> M B) b,
       es_fold T (es_next T) it' b f = for_each r b (fun x b => f b x) /\
       es_fold T (es_next_back T) it' b f = for_each (rev r) b (fun x b => f b x)) /\
    (forall n,
       (exists it2, es_nth T (es_next T) n it' = Ret (nth_error r n, it2) /\ it_yields T it2 (skipn (S n) r)) /\
       (exists it2, es_nth T (es_next_back T) n it' = Ret (nth_error (rev r) n, it2) /\
                    it_yields T it2 (rev (skipn (S n) (rev r))))) /\
    (forall p,
       (exists it2, es_find T (es_next T) p it' = Ret (find p r, it2) /\ it_yields T it2 (after_first p r)) /\
       (exists it2, es_find T (es_next_back T) p it' = Ret (find p (rev r), it2) /\
                    it_yields T it2 (rev (after_first p (rev r)))) /\
       (exists it2, @es_position md T (es_next T) p it' = Ret (first_index p r, it2) /\ it_yields T it2 (after_first p r)) /\
       (exists it2, es_any T (es_next T) p it' = Ret (existsb p r, it2) /\ it_yields T it2 (after_first p r)) /\
       (exists it2, es_all_items T (es_next T) p it' = Ret (forallb p r, it2) /\
                    it_yields T it2 (after_first (fun x => negb (p x)) r))).
Proof.
  intros HS HR HA. start. members s. destruct (iter_spec HT s HR) as (it & l & E & Hl & Hi).
  exists it, l. split; [assumption|]. split; [eapply lists_set_ext; eassumption|].
  intros ps. destruct (pops_spec HT ps it l Hi) as (it' & E' & Hi'). do 2 eexists. split; [exact E'|]. cbv zeta.
  set (r := snd (pops ps l)) in *.
  assert (Hb : back_rel (inp := inp) (irel := irel) it' (rev r)) by (unfold back_rel; now rewrite rev_involutive).
  assert (Hlen : (length r < S (length (et_variants T)))%nat).
  { pose proof (pops_length ps l) as H. fold r in H. pose proof (list_length_le HT _ _ Hl). lia. }
  assert (Hlenb : (length (rev r) < S (length (et_variants T)))%nat) by now rewrite rev_length.
  assert (Hpw : 0 + N.of_nat (length r) < 2 ^ et_pw T).
  { rewrite (tl_pw _ _ _ _ _ HT). pose proof (pops_length ps l) as H. fold r in H. pose proof (list_lt_pw HT _ _ Hl). lia. }
  assert (Hf : forall p, exists it2, es_find T (es_next T) p it' = Ret (find p r, it2) /\ it_yields T it2 (after_first p r)).
  { intros p. destruct (find_loop_spec (es_next T) _ (next_spec HT) p r _ it' Hi' Hlen) as (it2 & E2 & H2). exists it2. split; [exact E2|now apply (rel_yields HT)]. }
  split; [|split; [|split; [|split]]].
  - apply (count_loop_spec (es_next T) _ (next_spec HT) md r); assumption.
  - unfold es_last, es_fold. rewrite (fold_loop_spec (es_next T) _ (next_spec HT) _ r) by assumption.
    clear. induction r as [|x r _] using rev_ind; [reflexivity|]. rewrite rev_app_distr. cbn [rev app hd_error].
    generalize (@None nat). induction r as [|y r IH]; intros o; cbn [app for_each]; [reflexivity|]. rewrite bind_ret. apply IH.
  - intros B f b. unfold es_fold. split; [now apply (fold_loop_spec (es_next T) _ (next_spec HT))|now apply (fold_loop_spec (es_next_back T) _ (back_step HT))].
  - intros n. split.
    + destruct (nth_spec (es_next T) _ (next_spec HT) n it' r Hi') as (it2 & E2 & H2). exists it2. split; [exact E2|now apply (rel_yields HT)].
    + destruct (nth_spec (es_next_back T) _ (back_step HT) n it' (rev r) Hb) as (it2 & E2 & H2). exists it2. split; [exact E2|]. apply (rel_yields HT), H2.
  - intros p. split; [apply Hf|]. split; [|split; [|split]].
    + destruct (find_loop_spec (es_next_back T) _ (back_step HT) p (rev r) _ it' Hb Hlenb) as (it2 & E2 & H2). exists it2. split; [exact E2|]. apply (rel_yields HT), H2.
    + destruct (position_loop_spec (es_next T) _ (next_spec HT) md p r _ it' 0 Hi' Hlen Hpw) as (it2 & E2 & H2). exists it2. split; [|now apply (rel_yields HT)].
      unfold es_position. rewrite E2. destruct (first_index p r); reflexivity.
    + destruct (Hf p) as (it2 & E2 & H2). exists it2. split; [|assumption]. unfold es_any. rewrite E2, bind_ret. do 2 f_equal.
      clear. induction r as [|x r IH]; cbn [find existsb]; [reflexivity|]. destruct (p x); [reflexivity|exact IH].
    + destruct (Hf (fun x => negb (p x))) as (it2 & E2 & H2). exists it2. split; [|assumption]. unfold es_all_items. rewrite E2, bind_ret. do 2 f_equal.
      clear. induction r as [|x r IH]; cbn [find forallb]; [reflexivity|]. destruct (p x); [exact IH|reflexivity].
Qed.

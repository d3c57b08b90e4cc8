(** * The modelled code simulates the abstract machine *)
From Coq Require Import Sorted.
From Verif Require Import Base BaseFacts LimbFacts Prim ArrayRepr Repr ReprLaws PrimFacts ArrayFacts.
From Verif Require Import Syntax Spec Derive EnumSet Macros Fmt Serde ApiSpec DeriveFacts TyFacts SetFacts IterFacts ConvFacts MacroFacts FmtFacts SerdeFacts ReachFacts.
From Verif Require Import SetClaims ConvClaims DeriveClaims MiscClaims SerdeClaims ExtraSpec IterMethods IterMethodClaims CmpMethods ElementClaims HistorySpec History.
Ltac Zify.zify_post_hook ::= Z.div_mod_to_equations.

(** ** The ordered list of elements *)
Lemma place_In inp v l u : In u (place inp v l) <-> u = v \/ In u l.
Proof.
  induction l as [|w l IH]; cbn [place].
  - cbn [In]. intuition.
  - destruct (discr inp v <? discr inp w); cbn [In] in *; [|rewrite IH]; intuition congruence.
Qed.
Lemma place_sorted inp v l : variant inp v -> (forall u, In u l -> variant inp u) -> NoDup (discrs inp) -> ~ In v l ->
  StronglySorted (discr_lt inp) l -> StronglySorted (discr_lt inp) (place inp v l).
Proof.
  intros Hv Hl Hnd Hn Hs. induction Hs as [|w l Hs IH Hf]; cbn [place]; [repeat constructor|].
  destruct (N.ltb_spec (discr inp v) (discr inp w)) as [Hlt|Hge].
  - constructor; [now constructor|]. constructor; [exact Hlt|]. eapply Forall_impl; [|exact Hf].
    intros u Hu. unfold discr_lt in *. lia.
  - assert (Hne : discr inp v <> discr inp w).
    { intros E. apply Hn. left. symmetry. apply (discr_inj inp); auto. apply Hl. now left. }
    constructor.
    + apply IH; [intros u Hu; apply Hl; now right|intros H; apply Hn; now right].
    + apply Forall_forall. intros u Hu. apply place_In in Hu. rewrite Forall_forall in Hf.
      destruct Hu as [->|Hu]; [unfold discr_lt; lia|now apply Hf].
Qed.
Lemma ordered_spec inp : NoDup (discrs inp) ->
  StronglySorted (discr_lt inp) (ordered inp) /\ forall v, In v (ordered inp) <-> variant inp v.
Proof.
  intros Hnd. unfold ordered.
  assert (H : forall l, NoDup l -> (forall v, In v l -> variant inp v) ->
    StronglySorted (discr_lt inp) (fold_right (place inp) [] l) /\
    forall v, In v (fold_right (place inp) [] l) <-> In v l).
  { induction l as [|v l IH]; intros Hl Hv; cbn [fold_right].
    - split; [constructor|tauto].
    - inversion Hl as [|? ? Hn Hl']; subst. destruct IH as [Hs Hi]; [assumption|intros u Hu; apply Hv; now right|].
      split.
      + apply place_sorted; auto; [apply Hv; now left|intros u Hu; apply Hi in Hu; apply Hv; now right|now rewrite Hi].
      + intros u. rewrite place_In, Hi. cbn [In]. intuition congruence. }
  destruct (H (variants inp) (variants_NoDup inp)) as [Hs Hi].
  - intros v. apply variants_In.
  - split; [exact Hs|]. intros v. now rewrite Hi, variants_In.
Qed.
Lemma filter_sorted {X} (R : X -> X -> Prop) (f : X -> bool) l : StronglySorted R l -> StronglySorted R (filter f l).
Proof.
  induction 1 as [|x l Hs IH Hf]; cbn [filter]; [constructor|]. destruct (f x); [|assumption].
  constructor; [assumption|]. rewrite Forall_forall in *. intros y Hy. apply filter_In in Hy. now apply Hf.
Qed.
Lemma elements_spec inp A : NoDup (discrs inp) -> lists_set inp A (elements inp A).
Proof.
  intros Hnd. destruct (ordered_spec inp Hnd) as [Hs Hi]. split; [now apply filter_sorted|].
  intros v. unfold elements. now rewrite filter_In, Hi.
Qed.
Lemma elements_ext inp A B : NoDup (discrs inp) -> (forall v, variant inp v -> A v = B v) -> elements inp A = elements inp B.
Proof.
  intros Hnd H. unfold elements. apply filter_ext_in. intros v Hv. apply H. now apply (ordered_spec inp Hnd).
Qed.

Lemma number_of_words_lval l : number_of_words l = lval l.
Proof. induction l as [|x l IH]; [reflexivity|]. cbn [lval]. rewrite <- IH. reflexivity. Qed.
Lemma set_words_limbs inp A k : set_words inp A k = limbs k (set_value inp A).
Proof. reflexivity. Qed.
Lemma set_words_ext inp A B k : (forall v, variant inp v -> A v = B v) -> set_words inp A k = set_words inp B k.
Proof. intros H. rewrite !set_words_limbs. now rewrite (set_value_ext inp A B H). Qed.
Lemma fits_in_fits inp A b : fits_in inp A b = fits (inp := inp) A b.
Proof. reflexivity. Qed.
Lemma known_spec inp x : NoDup (discrs inp) -> (known inp x = true <-> only_variant_bits inp x).
Proof.
  intros Hnd. unfold known. rewrite N.eqb_eq. split.
  - intros E i Hi. rewrite <- E, N.land_spec, andb_true_iff in Hi. destruct Hi as [_ Hi].
    apply (set_value_testbit inp _ i Hnd) in Hi. destruct Hi as (v & Hv & _ & Ei). eauto.
  - intros H. apply bit_eq. intros i. rewrite N.land_spec. destruct (N.testbit x i) eqn:E; [|reflexivity].
    apply (set_value_testbit inp _ i Hnd). destruct (H i E) as (v & Hv & Ei). eauto.
Qed.
Lemma known_false inp x : NoDup (discrs inp) -> (known inp x = false <-> ~ only_variant_bits inp x).
Proof. intros Hnd. rewrite <- (known_spec inp x Hnd). now destruct (known inp x). Qed.

(** ** What depends on the storage *)
Lemma laws_with_storage pw inp T : Supported pw inp T ->
  exists val irel, TyLaws pw (discrs inp) T val irel /\
    (forall a b, @Valid inp T val a -> @Valid inp T val b ->
       es_cmp T a b = match storage_of inp with
                      | SInt _ => val a ?= val b
                      | SWords n => lex_compare (limbs (N.to_nat n) (val a)) (limbs (N.to_nat n) (val b))
                      end) /\
    (forall a, @Valid inp T val a ->
       es_hash T a = match storage_of inp with
                     | SInt b => [HInt b (val a)]
                     | SWords n => [HLen (N.to_nat n); HWords (limbs (N.to_nat n) (val a))]
                     end) /\
    (forall b, storage_of inp = SInt b -> r_width (et_repr T) = b /\ exists number value, r_int (et_repr T) = Some (number, value) /\
       (forall s, number s = val s) /\ (forall x, x < 2 ^ b -> r_ok (et_repr T) (value x) /\ val (value x) = x)).
Proof.
  intros HS. destruct (sup_derive _ _ _ HS) as [md HD].
  destruct (derive_ok _ _ _ HD) as (HW & i & Hi & HG). pose proof (chosen_storage inp HW) as HC.
  destruct HG as [w pl lit Hok Hw Hmax Hlit Hb Hpl|n all Hc Hn Hall Hb].
  - destruct (storage_of inp) as [b'|n]; [|rewrite HC in Hpl; destruct Hpl].
    assert (b' = w) by (destruct (chosen inp); cbn [ir_supported] in *; (congruence || destruct HC)). subst b'.
    destruct (prim_ty_laws pw w pl lit i inp Hok (sup_usize _ _ _ HS) HW Hi Hmax (sup_discrs _ _ _ HS) (sup_count _ _ _ HS) Hlit Hb)
      as (irel & HT).
    eexists _, irel. split; [exact HT|]. split; [reflexivity|]. split; [reflexivity|].
    intros b E. inversion E; subst b. split; [reflexivity|]. eexists _, _. split; [reflexivity|]. split; [reflexivity|]. intros x Hx. split; [exact Hx|reflexivity].
  - destruct (storage_of inp) as [b'|k]; [rewrite Hc in HC; destruct HC|].
    destruct (array_ty_laws pw n all i inp (sup_usize _ _ _ HS) HW Hi Hn (sup_discrs _ _ _ HS) (sup_count _ _ _ HS) Hall Hb)
      as (irel & HT).
    assert (Ek : n = N.to_nat k) by congruence.
    eexists _, irel. split; [exact HT|].
    assert (Hl : forall s : list N, @Valid inp (array_ty md pw n all i (in_variants inp)) lval s -> limbs (N.to_nat k) (lval s) = s).
    { intros s Vs. pose proof (valid_ok _ Vs) as [Ls Os]. rewrite <- Ek, <- Ls. now apply limbs_lval_same. }
    split; [|split].
    + intros a b Va Vb. rewrite (Hl a Va), (Hl b Vb). apply lex_a_cmp.
    + intros a Va. rewrite (Hl a Va), <- Ek. reflexivity.
    + discriminate.
Qed.

Section Sim.
Context {pw : N} {inp : derive_input} {T : EnumTy} {val : eset T -> N}
        {irel : r_iter_t (et_repr T) -> list N -> Prop}.
Context (HT : TyLaws pw (discrs inp) T val irel) (HS : Supported pw inp T).
Context (Hcmp : forall a b, @Valid inp T val a -> @Valid inp T val b ->
       es_cmp T a b = match storage_of inp with
                      | SInt _ => val a ?= val b
                      | SWords n => lex_compare (limbs (N.to_nat n) (val a)) (limbs (N.to_nat n) (val b))
                      end).
Context (Hhash : forall a, @Valid inp T val a ->
       es_hash T a = match storage_of inp with
                     | SInt b => [HInt b (val a)]
                     | SWords n => [HLen (N.to_nat n); HWords (limbs (N.to_nat n) (val a))]
                     end).
Context (Hint : forall b, storage_of inp = SInt b -> r_width (et_repr T) = b /\ exists number value, r_int (et_repr T) = Some (number, value) /\
       (forall s, number s = val s) /\ (forall x, x < 2 ^ b -> r_ok (et_repr T) (value x) /\ val (value x) = x)).
Let HR := tl_repr _ _ _ _ _ HT.
Local Notation mem := (@mem inp T val).
Local Notation Valid := (@Valid inp T val).
Local Notation Good := (@Good inp T val).
Local Notation it_rel := (@it_rel inp T irel).
Let Hnd : NoDup (discrs inp) := D_nodup HT.

Definition set_rel (s : eset T) (A : vset) : Prop := Valid s /\ forall v, variant inp v -> mem s v = A v.
Definition iter_rel (o : option (es_iter_t T)) (l : option (list nat)) : Prop :=
  match o, l with
  | Some it, Some l => it_rel it l /\ (length l <= length (et_variants T))%nat
  | None, None => True
  | _, _ => False
  end.
Definition Rel (st : state T) (ast : astate) : Prop :=
  (forall r, set_rel (c_sets T st r) (a_sets ast r)) /\ (forall i, iter_rel (c_iters T st i) (a_iters ast i)).
Definition Sim (m : M (output * state T)) (am : M (output * astate)) : Prop :=
  match am with
  | Ret (o, ast) => exists st, m = Ret (o, st) /\ Rel st ast
  | Panic p => m = Panic p
  | _ => False
  end.

Lemma rel_init : Rel (c_init T) a_init.
Proof.
  split; [|exact (fun _ => I)]. intros r. split; [exact (empty_valid HT)|]. intros v Hv. exact (empty_mem HT v Hv).
Qed.
Lemma rel_set st ast d s A : Rel st ast -> set_rel s A -> Rel (c_set T st d s) (a_set ast d A).
Proof.
  intros [H1 H2] Hs. split; [|exact H2]. intros r. unfold c_set, a_set, update; cbn. destruct (Nat.eqb r d); auto.
Qed.
Lemma rel_drop_iter st ast i : Rel st ast -> Rel (c_drop_iter T st i) (a_drop_iter ast i).
Proof.
  intros [H1 H2]. split; [exact H1|]. intros j. unfold c_drop_iter, a_drop_iter, update; cbn. destruct (Nat.eqb j i); [exact I|apply H2].
Qed.
Lemma short_lt_pw (l : list nat) : (length l <= length (et_variants T))%nat -> N.of_nat (length l) < 2 ^ pw.
Proof.
  intros H. pose proof (elements_spec inp (fun _ => true) Hnd) as Hl. pose proof (list_lt_pw HT _ _ Hl) as Hlt.
  rewrite (variants_length HT) in H. apply N.le_lt_trans with (2 := Hlt).
  rewrite (lists_set_length _ _ _ Hl). unfold set_size. replace (filter (fun _ => true) (variants inp)) with (variants inp).
  - unfold variants. rewrite seq_length. lia.
  - generalize (variants inp). intros m. induction m as [|x m IH]; cbn [filter]; [reflexivity|]. now rewrite <- IH.
Qed.
Lemma rel_set_iter st ast i it l : Rel st ast -> it_rel it l -> (length l <= length (et_variants T))%nat ->
  Rel (c_set_iter T st i it) (a_set_iter ast i l).
Proof.
  intros [H1 H2] Hi Hl. split; [exact H1|]. intros j. unfold c_set_iter, a_set_iter, update; cbn.
  destruct (Nat.eqb j i); [now split|apply H2].
Qed.

Lemma rel_valid st ast r : Rel st ast -> Valid (c_sets T st r).
Proof. intros H. apply H. Qed.
Lemma rel_mem st ast r v : Rel st ast -> variant inp v -> mem (c_sets T st r) v = a_sets ast r v.
Proof. intros H. apply H. Qed.
Lemma rel_val st ast r : Rel st ast -> val (c_sets T st r) = set_value inp (a_sets ast r).
Proof.
  intros H. rewrite (valid_val HT _ (rel_valid _ _ r H)). apply set_value_ext. intros v. now apply rel_mem.
Qed.
Lemma rel_arg st ast o : Rel st ast -> arg_ok inp o -> ovalid (inp := inp) (val := val) (c_arg T st o).
Proof. intros H. destruct o; cbn; [intros _; now apply (rel_valid st ast)|auto]. Qed.
Lemma rel_arg_mem st ast o v : Rel st ast -> variant inp v -> omem (inp := inp) (val := val) (c_arg T st o) v = a_arg ast o v.
Proof. intros H Hv. destruct o; cbn; [now apply rel_mem|reflexivity]. Qed.
Lemma rel_lists st ast r : Rel st ast -> lists_set inp (mem (c_sets T st r)) (elements inp (a_sets ast r)).
Proof.
  intros H. eapply lists_set_ext; [|now apply elements_spec]. intros v Hv. symmetry. now apply rel_mem.
Qed.

Lemma unchecked_good m x A : (exists s, m = Ret s /\ Valid s /\ val s = x) ->
  (forall v, variant inp v -> N.testbit x (discr inp v) = A v) -> Good m A.
Proof.
  intros (s & -> & Hs & E) HA. exists s. split; [reflexivity|]. split; [assumption|]. intros v Hv.
  unfold SetFacts.mem. rewrite E. now apply HA.
Qed.
Lemma unchecked_repr_good s x : r_ok (et_repr T) s /\ val s = x -> only_variant_bits inp x ->
  Good (Ret (es_from_repr_unchecked T s)) (bits_set inp x).
Proof.
  intros [Ho E] Hk. eapply unchecked_good; [|reflexivity]. exists s. split; [reflexivity|]. split; [|exact E].
  split; [assumption|]. rewrite E. now apply only_bits_In.
Qed.
Lemma set_value_only A : only_variant_bits inp (set_value inp A).
Proof.
  intros i. rewrite set_value_testbit by apply (D_nodup HT). intros (v & Hv & _ & <-). now exists v.
Qed.

Lemma fold_arg_good (g : eset T -> operand T -> M (eset T)) (h : bool -> bool -> bool) m st ast o l : Rel st ast ->
  (forall a p, Valid a -> ovalid (inp := inp) (val := val) p ->
     Good (g a p) (fun v => h (mem a v) (omem (inp := inp) (val := val) p v))) ->
  (forall p, In p (o :: l) -> arg_ok inp p) ->
  Same (inp := inp) (val := val) m (s <- es_into T (c_arg T st o) ;; for_each (map (c_arg T st) l) s (fun p s => g s p)) ->
  Good m (fun v => fold_left (fun b p => h b (a_arg ast p v)) l (a_arg ast o v)).
Proof.
  intros HRel Hg Ha (s & -> & E & Hs). rewrite <- E.
  eapply (good_bind (inp := inp) (val := val)); [apply (into_spec HT), (rel_arg st ast); auto; apply Ha; now left|].
  intros a Va Hm. eapply (good_ext (inp := inp) (val := val)); [|apply (for_each_op_good g h); auto].
  - intros v Hv. cbv beta. rewrite Hm, (rel_arg_mem st ast) by assumption. clear - HRel Hv.
    generalize (a_arg ast o v). induction l as [|p l IH]; intros b; cbn [map fold_left]; [reflexivity|].
    now rewrite IH, (rel_arg_mem st ast).
  - intros p Hp. apply in_map_iff in Hp. destruct Hp as (q & <- & Hq). apply (rel_arg st ast); auto. apply Ha. now right.
Qed.
Lemma existsb_fold {X} (f : X -> bool) l b : fold_left (fun b x => b || f x) l b = b || existsb f l.
Proof.
  revert b. induction l as [|x l IH]; intros b; cbn [fold_left existsb]; [now rewrite orb_false_r|].
  now rewrite IH, orb_assoc.
Qed.

Lemma call_good st ast k : Rel st ast -> scall_ok pw inp k -> Good (c_call T st k) (a_call inp ast k).
Proof.
  intros HRel Hk.
  assert (HV : forall r, Valid (c_sets T st r)) by (intros r; now apply (rel_valid st ast)).
  assert (HM : forall r v, variant inp v -> mem (c_sets T st r) v = a_sets ast r v) by (intros r v; now apply rel_mem).
  assert (HO : forall o, arg_ok inp o -> ovalid (inp := inp) (val := val) (c_arg T st o)) by (intros o; now apply (rel_arg st ast)).
  assert (HOM : forall o v, variant inp v -> omem (inp := inp) (val := val) (c_arg T st o) v = a_arg ast o v)
    by (intros o v; now apply rel_arg_mem).
  assert (HE : Good (Ret (es_empty T)) (fun _ => false)) by apply (empty_spec HT).
  assert (Hsets : forall rs x, In x (map (c_sets T st) rs) -> Valid x).
  { intros rs x Hx. apply in_map_iff in Hx. destruct Hx as (r & <- & _). apply HV. }
  assert (Hex : forall rs v, variant inp v ->
    existsb (fun x => mem x v) (map (c_sets T st) rs) = existsb (fun r => a_sets ast r v) rs).
  { intros rs v Hv. induction rs as [|r rs IH]; [reflexivity|]. cbn [map existsb]. now rewrite IH, HM. }
  destruct k; cbn [c_call a_call scall_ok] in *.
  - exact HE.
  - exact HE.
  - exact HE.
  - exists (es_all T). split; [reflexivity|]. split; [exact (all_valid HT)|]. exact (all_mem HT).
  - now apply (only_spec HT).
  - now apply (only_spec HT).
  - exists (c_sets T st r). auto.
  - exact HE.
  - destruct op; (eapply (good_ext (inp := inp)); [|first [apply (union_spec HT)|apply (intersection_spec HT)|apply (symmetrical_difference_spec HT)|apply (difference_spec HT)]; apply HV]);
      intros v Hv; cbn [bop_bool]; now rewrite !HM.
  - eapply (good_ext (inp := inp)); [|apply (complement_spec HT), HV]. intros v Hv. cbv beta. now rewrite HM.
  - eapply (good_ext (inp := inp)); [|apply (union_spec HT); apply HV]. intros v Hv. cbv beta. now rewrite !HM.
  - eapply (good_ext (inp := inp)); [|apply (difference_spec HT); apply HV]. intros v Hv. cbv beta. now rewrite !HM.
  - destruct op; (eapply (good_ext (inp := inp)); [|first [apply (bitor_spec HT)|apply (bitand_spec HT)|apply (bitxor_spec HT)|apply (sub_spec HT)]; auto]);
      intros v Hv; cbn [bop_bool]; now rewrite HM, HOM.
  - destruct op; (eapply (good_ext (inp := inp)); [|first [apply (bitor_spec HT)|apply (bitand_spec HT)|apply (bitxor_spec HT)|apply (sub_spec HT)]; auto]);
      intros v Hv; cbn [bop_bool]; now rewrite HM, HOM.
  - eapply (good_ext (inp := inp)); [|apply (complement_spec HT), HV]. intros v Hv. cbv beta. now rewrite HM.
  - destruct Hk as [Hu Ho].
    destruct op; (eapply (good_ext (inp := inp)); [|first [apply (var_bitor_spec HT)|apply (var_bitand_spec HT)|apply (var_bitxor_spec HT)|apply (var_sub_spec HT)]; auto]);
      intros v Hv; cbn [bop_bool]; now rewrite HOM.
  - now apply (var_not_spec HT).
  - now apply (from_truncated_spec HT).
  - destruct Hk as [Hx Ho]. eapply unchecked_good; [now apply (from_unchecked_spec HT)|reflexivity].
  - eapply (good_ext (inp := inp)); [|now apply (from_array_truncated_spec HT)]. intros v Hv. unfold bits_set. now rewrite word_bit_lval.
  - destruct Hk as [Hx Ho]. eapply unchecked_good; [apply (from_array_unchecked_spec HT); [assumption|now apply only_words_lval]|].
    intros v Hv. now rewrite word_bit_lval.
  - eapply (good_ext (inp := inp)); [|now apply (from_slice_truncated_spec HT)]. intros v Hv. unfold bits_set. now rewrite word_bit_lval.
  - destruct Hk as [Hx Ho]. eapply unchecked_good; [apply (from_slice_unchecked_spec HT); [assumption|now apply only_words_lval]|].
    intros v Hv. now rewrite word_bit_lval.
  - eapply (good_ext (inp := inp)); [|now apply (extend_spec HT)]. intros v Hv. cbv beta. now rewrite HM.
  - now apply (from_iter_spec HT).
  - now apply (sum_spec HT).
  - eapply (good_ext (inp := inp)); [|apply (extend_sets_spec HT); auto; apply Hsets]. intros v Hv. cbv beta. now rewrite HM, Hex.
  - eapply (good_ext (inp := inp)); [|apply (from_iter_sets_spec HT); apply Hsets]. intros v Hv. cbv beta. now rewrite Hex.
  - eapply (good_ext (inp := inp)); [|apply (sum_sets_spec HT); apply Hsets]. intros v Hv. cbv beta. now rewrite Hex.
  - assert (Hops : forall p, In p (map (c_arg T st) l) -> ovalid (inp := inp) (val := val) p).
    { intros p Hp. apply in_map_iff in Hp. destruct Hp as (q & <- & Hq). auto. }
    destruct (mc_enum_set_same HT _ Hops) as (s & -> & E & Hs). rewrite <- E.
    eapply (good_ext (inp := inp)); [|apply (for_each_op_good (es_bitor T) orb); [exact (bitor_spec HT)|exact (empty_valid HT)|exact Hops]].
    intros v Hv. cbv beta. rewrite existsb_fold, (empty_mem HT) by assumption. cbn [orb].
    clear Hops Hk E. induction l as [|o l IH]; [reflexivity|]. cbn [map existsb]. now rewrite IH, HOM.
  - assert (Hops : forall p, In p (map (c_arg T st) l) -> ovalid (inp := inp) (val := val) p).
    { intros p Hp. apply in_map_iff in Hp. destruct Hp as (q & <- & Hq). apply HO, Hk. now right. }
    assert (Ho : ovalid (inp := inp) (val := val) (c_arg T st o)) by (apply HO, Hk; now left).
    destruct op; unfold macro; cbn [bop_bool].
    + eapply (fold_arg_good (es_bitor T) orb); eauto; [exact (bitor_spec HT)|now apply (mc_union_same HT)].
    + eapply (fold_arg_good (es_bitand T) andb); eauto; [exact (bitand_spec HT)|now apply (mc_intersection_same HT)].
    + eapply (fold_arg_good (es_bitxor T) xorb); eauto; [exact (bitxor_spec HT)|now apply (mc_symmetric_difference_same HT)].
    + eapply (fold_arg_good (es_sub T) (fun x y => x && negb y)); eauto; [exact (sub_spec HT)|now apply (mc_difference_same HT)].
  - destruct (mc_complement_same HT _ (HO o Hk)) as (s & -> & E & Hs). rewrite <- E.
    eapply (good_bind (inp := inp) (val := val)); [now apply (into_spec HT), HO|]. intros a Va Hm.
    eapply (good_ext (inp := inp)); [|now apply (complement_spec HT)]. intros v Hv. cbv beta. now rewrite Hm, HOM.
Qed.

(** ** Results *)
Lemma sim_out st ast m o : Rel st ast -> m = Ret o -> Sim (o <- m ;; Ret (o, st)) (Ret (o, ast)).
Proof. intros HRel ->. exists st. now split. Qed.
Lemma sim_assign st ast d m A : Rel st ast -> Good m A ->
  Sim (s <- m ;; Ret (OUnit, c_set T st d s)) (Ret (OUnit, a_set ast d A)).
Proof.
  intros HRel (s & -> & Hs & Hm). exists (c_set T st d s). split; [reflexivity|]. apply rel_set; auto. now split.
Qed.
Lemma sim_try st ast d m x A : Rel st ast -> Checks (inp := inp) (val := val) m x ->
  (forall v, variant inp v -> N.testbit x (discr inp v) = A v) ->
  Sim (o <- m ;; Ret (match o with Some s => (OBool true, c_set T st d s) | None => (OBool false, st) end))
      (if known inp x then Ret (OBool true, a_set ast d A) else Ret (OBool false, ast)).
Proof.
  intros HRel HC HA. destruct (known inp x) eqn:Ek.
  - apply (known_spec inp x Hnd) in Ek. destruct HC as [[_ (s & -> & Hs & E)]|[Hn _]]; [|contradiction].
    exists (c_set T st d s). split; [reflexivity|]. apply rel_set; auto. split; [assumption|]. intros v Hv.
    unfold SetFacts.mem. rewrite E. now apply HA.
  - apply (known_false inp x Hnd) in Ek. destruct HC as [[Hn _]|[_ ->]]; [contradiction|].
    exists st. now split.
Qed.
Lemma sim_must st ast d m x A : Rel st ast -> Expects (inp := inp) (val := val) m x ->
  (forall v, variant inp v -> N.testbit x (discr inp v) = A v) ->
  Sim (s <- m ;; Ret (OUnit, c_set T st d s))
      (if known inp x then Ret (OUnit, a_set ast d A) else Panic invalid_bits).
Proof.
  intros HRel HC HA. destruct (known inp x) eqn:Ek.
  - apply (known_spec inp x Hnd) in Ek. destruct HC as [[_ (s & -> & Hs & E)]|[Hn _]]; [|contradiction].
    exists (c_set T st d s). split; [reflexivity|]. apply rel_set; auto. split; [assumption|]. intros v Hv.
    unfold SetFacts.mem. rewrite E. now apply HA.
  - apply (known_false inp x Hnd) in Ek. destruct HC as [[Hn _]|[_ ->]]; [contradiction|]. reflexivity.
Qed.

(** ** Printing and serde *)
Lemma put_all elem ps w :
  perform (FmtFacts.put put (fun v => put (elem v))) ps w = (true, (w ++ pieces_text elem ps)%string).
Proof.
  revert w. induction ps as [|p ps IH]; intros w.
  - cbn. now rewrite append_nil_r.
  - cbn [perform FmtFacts.put]. unfold pieces_text. cbn [map]. rewrite concat_cons.
    assert (Ep : forall t, put t w = (true, (w ++ t)%string)) by reflexivity.
    destruct p; cbn [piece_text FmtFacts.put]; rewrite Ep, IH; unfold pieces_text; now rewrite append_assoc.
Qed.
Lemma debug_pieces_text elem l : pieces_text elem (debug_pieces l) = debug_text elem l.
Proof.
  unfold debug_text, debug_pieces, pieces_text. cbn [map]. rewrite concat_cons. cbn [piece_text]. f_equal.
  rewrite <- separated_text. unfold pieces_text. rewrite map_app.
  generalize (map (piece_text elem) (separated l)). intros m. induction m as [|x m IH]; [reflexivity|].
  cbn [app]. now rewrite !concat_cons, append_assoc, IH.
Qed.
Lemma record_all l w : perform rec_event l w = (true, w ++ l).
Proof.
  revert w. induction l as [|e l IH]; intros w; [now rewrite app_nil_r|]. cbn [perform]. unfold rec_event at 1.
  rewrite IH. now rewrite <- app_assoc.
Qed.
Lemma named : serialize_name inp = sr_name (et_serde T).
Proof.
  destruct (sup_derive _ _ _ HS) as [md Hmd]. destruct (serialization_chosen md pw inp T Hmd) as (E & _ & _).
  destruct (et_serde T); injection E as E; exact E.
Qed.
Lemma named_ity : name_ity (serialize_name inp) = sr_ity (et_serde T).
Proof. rewrite named. now destruct (et_serde T). Qed.
Lemma denied : et_deny_unknown T = at_deny_unknown (in_attrs inp).
Proof. destruct (sup_derive _ _ _ HS) as [md Hmd]. apply (serialization_chosen md pw inp T Hmd). Qed.
Lemma usable : serde_usable inp -> serde_compiles T = true.
Proof.
  intros H. destruct (serde_compiles T) eqn:E; [reflexivity|].
  destruct (sup_derive _ _ _ HS) as [md Hmd]. apply (compiles md pw inp T Hmd) in E. destruct E as [Ed E]. specialize (H Ed). rewrite named in *.
  destruct E as [E|[[b E] [n En]]].
  - destruct H as [H|[H|[H _]]]; congruence.
  - destruct H as [H|[H|[_ [b' H]]]]; [rewrite H in E; discriminate|rewrite H in E; discriminate|congruence].
Qed.

Lemma serialize_sim st ast r : Rel st ast ->
  es_serialize T rec_event (c_sets T st r) [] = Ret (true, a_serialize inp (a_sets ast r)).
Proof.
  intros HRel. pose proof (rel_valid st ast r HRel) as HV. unfold a_serialize. rewrite named_ity.
  pose proof (rel_lists st ast r HRel) as Hl.
  assert (Hm : forall v, variant inp v -> mem (c_sets T st r) v = a_sets ast r v) by (intros v; now apply rel_mem).
  assert (El : set_size inp (a_sets ast r) = N.of_nat (length (elements inp (a_sets ast r)))).
  { apply list_size; [|exact Hnd]. now apply elements_spec. }
  destruct (sr_ity (et_serde T)) as [t|] eqn:Et.
  - rewrite (serialize_int T _ _ _ t Et).
    destruct (sup_derive _ _ _ HS) as [md Hmd]. destruct (derive_serde md pw inp T Hmd) as (_ & _ & Hb).
    rewrite (ser_int_spec HT _ t _ _ HV (Hb _ (sr_ity_bits pw _ t Et))). rewrite (set_value_ext inp _ _ Hm). reflexivity.
  - rewrite named. unfold es_serialize. destruct (et_serde T); try discriminate; cbn [sr_name String.eqb Ascii.eqb Bool.eqb].
    + rewrite (ser_list_spec HT _ _ _ _ HV Hl), record_all, El. reflexivity.
    + rewrite (ser_map_spec HT _ _ _ _ HV Hl), record_all, El. reflexivity.
    + destruct (ser_array_spec HT _ HV) as (ws & Hok & Hlen & Hv & Hw & Hser).
      rewrite Hser, record_all. rewrite (rel_val st ast r HRel) in *.
      destruct (sup_derive _ _ _ HS) as [md Hmd]. destruct (storage_holds md pw inp T Hmd) as (_ & Hpl & _).
      assert (Ew : N.of_nat (length ws) = words_written inp (a_sets ast r)) by (rewrite Hw, Hpl; reflexivity).
      rewrite <- Ew, Nat2N.id, set_words_limbs, <- Hv, limbs_lval_same by assumption. reflexivity.
Qed.

Lemma firstn_nth {X} (d : X) k l j : (j < k)%nat -> nth j (firstn k l) d = nth j l d.
Proof.
  revert l j. induction k as [|k IH]; intros [|x l] [|j] Hj; cbn [firstn nth]; try lia; try reflexivity. apply IH. lia.
Qed.
Lemma deserialize_sim st ast d src : Rel st ast -> serde_usable inp -> SourceOk pw inp src ->
  Sim (r <- es_deserialize T src ;;
       match r with Ok s => s <- Ret s ;; Ret (OUnit, c_set T st d s) | Err e => o <- Ret (OError e) ;; Ret (o, st) end)
      (r <- a_deserialize inp src ;;
       match r with Ok A => Ret (OUnit, a_set ast d A) | Err e => Ret (OError e, ast) end).
Proof.
  intros HRel Hu Ho. pose proof (usable Hu) as Hc.
  assert (Herr : forall m am e, m = Ret (Err e) -> am = Ret (Err e) ->
    Sim (r <- m ;; match r with Ok s => s <- Ret s ;; Ret (OUnit, c_set T st d s) | Err e => o <- Ret (OError e) ;; Ret (o, st) end)
        (r <- am ;; match r with Ok A => Ret (OUnit, a_set ast d A) | Err e => Ret (OError e, ast) end)).
  { intros m am e -> ->. exists st. now split. }
  assert (Hok : forall m am s A, m = Ret (Ok s) -> am = Ret (Ok A) -> set_rel s A ->
    Sim (r <- m ;; match r with Ok s => s <- Ret s ;; Ret (OUnit, c_set T st d s) | Err e => o <- Ret (OError e) ;; Ret (o, st) end)
        (r <- am ;; match r with Ok A => Ret (OUnit, a_set ast d A) | Err e => Ret (OError e, ast) end)).
  { intros m am s A -> -> Hs. exists (c_set T st d s). split; [reflexivity|]. now apply rel_set. }
  unfold a_deserialize. rewrite named_ity. destruct (sr_ity (et_serde T)) as [t|] eqn:Et.
  - rewrite (deserialize_int T src t Et). destruct (serde_int_facts HS t Et Hc) as [Hmax Hl].
    destruct (src_int src t) as [x|e] eqn:Es; [|now apply (Herr _ _ e)].
    pose proof (so_int _ _ _ Ho t x Es) as Hx. rewrite <- denied.
    destruct (de_int_spec HT t x Hmax Hx Hl) as [[E Er]|[E (s & Er & Hs & Hm)]].
    + apply andb_true_iff in E. destruct E as [Ed Eu]. eapply Herr; [exact Er|]. rewrite Ed.
      assert (Ek : known inp x = false).
      { apply (known_false inp x Hnd). rewrite <- (unknown_bits_spec (inp := inp)). now rewrite Eu. }
      now rewrite Ek.
    + eapply Hok; [exact Er| |split; [exact Hs|exact Hm]].
      assert (Ek : et_deny_unknown T && negb (known inp x) = false).
      { apply andb_false_iff in E. destruct E as [E|E]; [now rewrite E|].
        apply unknown_bits_spec, (known_spec inp x Hnd) in E. now rewrite E, andb_false_r. }
      now rewrite Ek.
  - rewrite named. unfold es_deserialize. destruct (et_serde T) eqn:Esd; try discriminate; cbn [sr_name String.eqb Ascii.eqb Bool.eqb].
    + destruct (src_list src) as [items|e] eqn:Es; [|now apply (Herr _ _ e)].
      pose proof (de_list_spec HT items (fun v => so_list _ _ _ Ho items v Es)) as HD.
      destruct (all_ok items) as [vs|e]; [|now apply (Herr _ _ e)]. destruct HD as (s & E & Hs & Hm).
      eapply Hok; [exact E|reflexivity|]. now split.
    + destruct (src_map src) as [items|e] eqn:Es; [|now apply (Herr _ _ e)].
      pose proof (de_map_spec HT items (fun v b => so_map _ _ _ Ho items v b Es)) as HD.
      destruct (all_ok items) as [vs|e]; [|now apply (Herr _ _ e)]. destruct HD as (s & E & Hs & Hm).
      eapply Hok; [exact E|reflexivity|]. now split.
    + destruct (src_words src) as [items|e] eqn:Es; [|now apply (Herr _ _ e)].
      pose proof (de_array_spec HT items (fun v => so_words _ _ _ Ho items v Es)) as HD.
      destruct (all_ok items) as [ws|e] eqn:Ei; [|now apply (Herr _ _ e)]. cbv zeta in HD.
      destruct (sup_derive _ _ _ HS) as [md Hmd]. destruct (storage_holds md pw inp T Hmd) as (_ & Hpl & Hw & _).
      replace (N.to_nat (storage_words (storage_of inp))) with (r_preferred_array_len (et_repr T)) by lia.
      set (k := r_preferred_array_len (et_repr T)) in *.
      assert (Hwok : words_ok ws).
      { apply Forall_forall. intros x Hx. apply (so_words _ _ _ Ho items x Es). eapply all_ok_In; eassumption. }
      rewrite number_of_words_lval.
      destruct HD as [[Hb (s & E & Hs & Ev)]|[Hb E]].
      * apply (known_spec inp _ Hnd) in Hb. rewrite Hb. eapply Hok; [exact E|reflexivity|]. split; [exact Hs|].
        intros v Hv. unfold SetFacts.mem. rewrite Ev, <- (word_bit_lval _ _ (words_ok_firstn k ws Hwok)).
        unfold word_bit. f_equal. apply firstn_nth.
        pose proof (pref_len_width HT) as Hp. fold k in Hp. specialize (Hw v Hv). lia.
      * apply (known_false inp _ Hnd) in Hb. rewrite Hb, E. reflexivity.
Qed.

(** ** Methods of iterators *)
Lemma after_first_le {X} (p : X -> bool) l : (length (after_first p l) <= length l)%nat.
Proof. induction l as [|x l IH]; cbn [after_first length]; [lia|]. destruct (p x); lia. Qed.
Lemma find_spec_front p it l : it_rel it l -> (length l <= length (et_variants T))%nat ->
  exists it', es_find T (es_next T) p it = Ret (find p l, it') /\ it_rel it' (after_first p l) /\
    (length (after_first p l) <= length (et_variants T))%nat.
Proof.
  intros Hi Hl. destruct (find_loop_spec (es_next T) _ (next_spec HT) p l (S (length (et_variants T))) it Hi) as (it' & E & H'); [lia|].
  exists it'. split; [exact E|]. split; [exact H'|]. pose proof (after_first_le p l). lia.
Qed.
Lemma find_existsb {X} (p : X -> bool) l : match find p l with Some _ => true | None => false end = existsb p l.
Proof. induction l as [|x l IH]; cbn [find existsb]; [reflexivity|]. destruct (p x); [reflexivity|exact IH]. Qed.
Lemma find_forallb {X} (p : X -> bool) l : match find (fun v => negb (p v)) l with Some _ => false | None => true end = forallb p l.
Proof. induction l as [|x l IH]; cbn [find forallb]; [reflexivity|]. destruct (p x); [exact IH|reflexivity]. Qed.
Lemma last_spec it l : it_rel it l -> (length l <= length (et_variants T))%nat -> es_last T (es_next T) it = Ret (hd_error (rev l)).
Proof.
  intros Hi Hl. unfold es_last, es_fold. rewrite (fold_loop_spec (es_next T) _ (next_spec HT) _ l) by (auto; lia).
  clear. induction l as [|x r _] using rev_ind; [reflexivity|]. rewrite rev_app_distr. cbn [rev app hd_error].
  generalize (@None nat). induction r as [|y r IH]; intros o; cbn [app for_each]; [reflexivity|]. rewrite bind_ret. apply IH.
Qed.

Lemma for_each_pure {X B} (f : B -> X -> B) l : forall b, for_each l b (fun x b => Ret (f b x)) = Ret (fold_left f l b).
Proof. induction l as [|x l IH]; intros b; cbn [for_each fold_left]; [reflexivity|]. rewrite bind_ret. apply IH. Qed.

(** ** The order *)
Definition a_compare (ast : astate) (a b : nat) : comparison :=
  match storage_of inp with
  | SInt _ => set_value inp (a_sets ast a) ?= set_value inp (a_sets ast b)
  | SWords n => lex_compare (set_words inp (a_sets ast a) (N.to_nat n)) (set_words inp (a_sets ast b) (N.to_nat n))
  end.
Lemma cmp_sim st ast a b : Rel st ast -> es_cmp T (c_sets T st a) (c_sets T st b) = a_compare ast a b.
Proof.
  intros HRel. rewrite Hcmp by (eapply rel_valid; eassumption). unfold a_compare. now rewrite !(rel_val st ast _ HRel).
Qed.
Lemma partial_sim st ast a b : Rel st ast -> es_partial_cmp T (c_sets T st a) (c_sets T st b) = Some (a_compare ast a b).
Proof. intros HRel. now rewrite <- (cmp_sim st ast a b HRel). Qed.
Lemma sim_pick st ast d r : Rel st ast ->
  Sim (s <- Ret (c_sets T st r) ;; Ret (OUnit, c_set T st d s)) (Ret (OUnit, a_set ast d (a_sets ast r))).
Proof. intros HRel. apply sim_assign; [assumption|]. exists (c_sets T st r). split; [reflexivity|]. now apply HRel. Qed.

(** ** Steps *)
Lemma step_sim c st ast : Rel st ast -> cmd_ok pw inp c -> Sim (step T c st) (a_step pw inp c ast).
Proof.
  intros HRel Hc.
  assert (HV : forall r, Valid (c_sets T st r)) by (intros r; now apply (rel_valid st ast)).
  assert (HM : forall r v, variant inp v -> mem (c_sets T st r) v = a_sets ast r v) by (intros r v; now apply rel_mem).
  assert (HL : forall r, lists_set inp (mem (c_sets T st r)) (elements inp (a_sets ast r))) by (intros r; now apply rel_lists).
  assert (HX : forall r, val (c_sets T st r) = set_value inp (a_sets ast r)) by (intros r; now apply rel_val).
  assert (HE : forall r, set_value inp (mem (c_sets T st r)) = set_value inp (a_sets ast r))
    by (intros r; apply set_value_ext; auto).
  assert (HF : forall r n, fits (inp := inp) (mem (c_sets T st r)) n = fits_in inp (a_sets ast r) n)
    by (intros r n; apply fits_ext; auto).
  destruct c; cbn [step a_step cmd_ok] in *.
  - apply sim_assign; [assumption|]. now apply call_good.
  - destruct (insert_spec HT (c_sets T st r) v (HV r) Hc) as (s & -> & Hs & Hm). rewrite bind_ret, HM by assumption.
    exists (c_set T st r s). split; [reflexivity|]. apply rel_set; auto. split; [assumption|]. intros u Hu. now rewrite Hm, HM.
  - destruct (remove_spec HT (c_sets T st r) v (HV r) Hc) as (s & -> & Hs & Hm). rewrite bind_ret, HM by assumption.
    exists (c_set T st r s). split; [reflexivity|]. apply rel_set; auto. split; [assumption|]. intros u Hu. now rewrite Hm, HM.
  - apply sim_try; [assumption|now apply (try_from_spec HT)|reflexivity].
  - rewrite number_of_words_lval. apply sim_try; [assumption|now apply (try_from_array_spec HT)|]. intros v Hv. now rewrite word_bit_lval.
  - rewrite number_of_words_lval. apply sim_try; [assumption|now apply (try_from_slice_spec HT)|]. intros v Hv. now rewrite word_bit_lval.
  - fold (a_compare ast a b). unfold es_max. rewrite (cmp_sim st ast a b HRel). now destruct (a_compare ast a b); apply sim_pick.
  - fold (a_compare ast a b). unfold es_min. rewrite (cmp_sim st ast a b HRel). now destruct (a_compare ast a b); apply sim_pick.
  - fold (a_compare ast lo hi) (a_compare ast x lo) (a_compare ast x hi). unfold es_clamp, es_le, es_lt, es_gt.
    rewrite (partial_sim st ast lo hi HRel), (partial_sim st ast x lo HRel), (partial_sim st ast x hi HRel).
    destruct (a_compare ast lo hi), (a_compare ast x lo), (a_compare ast x hi); cbn [negb]; first [reflexivity|now apply sim_pick].
  - apply sim_must; [assumption|now apply (from_num_spec HT)|reflexivity].
  - rewrite number_of_words_lval. apply sim_must; [assumption|now apply (from_array_spec HT)|]. intros v Hv. now rewrite word_bit_lval.
  - rewrite number_of_words_lval. apply sim_must; [assumption|now apply (from_slice_spec HT)|]. intros v Hv. now rewrite word_bit_lval.
  - destruct Hc as (b & Eb & _). destruct (Hint b Eb) as (Ew & number & value & -> & En & _).
    apply sim_out; [assumption|]. rewrite En. unfold es_as_repr. now rewrite HX.
  - destruct Hc as (b & Eb & Hx). destruct (Hint b Eb) as (Ew & number & value & -> & _ & Ev). destruct (Ev x Hx) as [Ho E].
    apply sim_try; [assumption|pose proof (try_from_repr_spec HT _ Ho) as H; rewrite E in H; exact H|reflexivity].
  - destruct Hc as (b & Eb & Hx). destruct (Hint b Eb) as (Ew & number & value & -> & _ & Ev). destruct (Ev x Hx) as [Ho E].
    apply sim_must; [assumption|pose proof (from_repr_spec HT _ Ho) as H; rewrite E in H; exact H|reflexivity].
  - destruct Hc as (b & Eb & Hx). destruct (Hint b Eb) as (Ew & number & value & -> & _ & Ev). destruct (Ev x Hx) as [Ho E].
    apply sim_assign; [assumption|]. pose proof (from_repr_truncated_spec HT _ Ho) as H. rewrite E in H. exact H.
  - destruct Hc as [(b & Eb & Hx) Hk]. destruct (Hint b Eb) as (Ew & number & value & -> & _ & Ev).
    apply sim_assign; [assumption|]. apply (unchecked_repr_good (value x)); [|exact Hk]. now apply Ev.
  - destruct Hc as [(b & Eb & _) Hk]. destruct (Hint b Eb) as (Ew & number & value & -> & En & Ev).
    apply sim_assign; [assumption|]. rewrite En. unfold es_as_repr. rewrite HX.
    assert (Hf : only_variant_bits inp (f (set_value inp (a_sets ast r)))) by apply Hk, set_value_only.
    apply unchecked_repr_good; [|exact Hf]. apply Ev. rewrite <- Ew. now apply (only_bits_lt HT).
  - apply sim_out; [assumption|]. rewrite (contains_spec HT) by (auto; apply HV). now rewrite bind_ret, HM.
  - apply sim_out; [assumption|]. rewrite (len_spec HT), bind_ret by auto. do 2 f_equal. apply set_size_ext. auto.
  - apply sim_out; [assumption|]. rewrite (is_empty_spec HT) by auto. do 2 f_equal. apply all_variants_ext. intros v Hv. now rewrite HM.
  - apply sim_out; [assumption|]. rewrite (disjoint_spec HT), bind_ret by auto. do 2 f_equal. apply all_variants_ext. intros v Hv. now rewrite !HM.
  - apply sim_out; [assumption|]. rewrite (subset_spec HT), bind_ret by auto. do 2 f_equal. apply all_variants_ext. intros v Hv. now rewrite !HM.
  - apply sim_out; [assumption|]. rewrite (superset_spec HT), bind_ret by auto. do 2 f_equal. apply all_variants_ext. intros v Hv. now rewrite !HM.
  - apply sim_out; [assumption|]. rewrite (eqb_forallb HT) by auto. do 2 f_equal. apply all_variants_ext. intros v Hv. now rewrite !HM.
  - apply sim_out; [assumption|]. rewrite (eq_var_spec HT), bind_ret by auto. do 2 f_equal. apply all_variants_ext. intros u Hu. now rewrite !HM.
  - apply sim_out; [assumption|]. rewrite (var_eq_set_spec HT), bind_ret by auto. do 2 f_equal. apply all_variants_ext. intros u Hu. now rewrite !HM.
  - apply sim_out; [assumption|]. destruct Hc. now rewrite (enum_eq_spec HT), bind_ret.
  - apply sim_out; [assumption|]. destruct (sup_derive _ _ _ HS) as [md Hmd]. destruct (derive_counts md pw inp T Hmd) as (-> & _). reflexivity.
  - apply sim_out; [assumption|]. destruct (sup_derive _ _ _ HS) as [md Hmd]. destruct (derive_counts md pw inp T Hmd) as (_ & -> & _). reflexivity.
  - apply sim_out; [assumption|]. rewrite Hcmp by auto. now rewrite !HX.
  - apply sim_out; [assumption|]. change (es_partial_cmp T (c_sets T st a) (c_sets T st b)) with (Some (es_cmp T (c_sets T st a) (c_sets T st b))).
    rewrite Hcmp by auto. now rewrite !HX.
  - apply sim_out; [assumption|]. rewrite Hhash by auto. now rewrite !HX.
  - apply sim_out; [assumption|]. unfold es_ne. rewrite (eqb_forallb HT) by auto. do 3 f_equal. apply all_variants_ext. intros v Hv. now rewrite !HM.
  - fold (a_compare ast a b). apply sim_out; [assumption|]. unfold es_lt. now rewrite (partial_sim st ast a b HRel); destruct (a_compare ast a b).
  - fold (a_compare ast a b). apply sim_out; [assumption|]. unfold es_le. now rewrite (partial_sim st ast a b HRel); destruct (a_compare ast a b).
  - fold (a_compare ast a b). apply sim_out; [assumption|]. unfold es_gt. now rewrite (partial_sim st ast a b HRel); destruct (a_compare ast a b).
  - fold (a_compare ast a b). apply sim_out; [assumption|]. unfold es_ge. now rewrite (partial_sim st ast a b HRel); destruct (a_compare ast a b).
  - apply sim_out; [assumption|]. rewrite (try_as_spec HT), bind_ret by auto. now rewrite HF, HE.
  - unfold es_as. rewrite (try_as_spec HT), bind_ret by auto. rewrite HF, HE.
    destruct (fits_in inp (a_sets ast r) (ity_bits pw t)); [now apply sim_out|reflexivity].
  - apply sim_out; [assumption|]. rewrite (as_truncated_spec HT), bind_ret by auto. now rewrite HE.
  - apply sim_out; [assumption|]. rewrite (try_as_array_spec HT), bind_ret by auto. now rewrite HF, HX.
  - unfold es_as_array. rewrite (try_as_array_spec HT), bind_ret by auto. rewrite HF, HX.
    destruct (fits_in inp (a_sets ast r) (64 * N.of_nat k)); [now apply sim_out|reflexivity].
  - apply sim_out; [assumption|]. rewrite (as_array_truncated_spec HT), bind_ret by auto. now rewrite HX.
  - apply sim_out; [assumption|]. rewrite (to_vec_spec HT), bind_ret by auto. rewrite HX.
    destruct (sup_derive _ _ _ HS) as [md Hmd]. destruct (storage_holds md pw inp T Hmd) as (_ & Hpl & _). now rewrite <- Hpl, Nat2N.id.
  - apply sim_out; [assumption|]. rewrite (try_copy_spec HT), bind_ret by auto. rewrite HF, HX.
    now destruct (fits_in inp (a_sets ast r) (64 * N.of_nat (length out))).
  - unfold es_copy_into_slice. rewrite (try_copy_spec HT), bind_ret by auto. rewrite HF, HX.
    destruct (fits_in inp (a_sets ast r) (64 * N.of_nat (length out))); [now apply sim_out|reflexivity].
  - apply sim_out; [assumption|]. rewrite (copy_truncated_spec HT), bind_ret by auto. now rewrite HX.
  - apply sim_out; [assumption|]. now rewrite (collect_spec HT _ _ (HV r) (HL r)), bind_ret.
  - apply sim_out; [assumption|]. now rewrite (collect_rev_spec HT _ _ (HV r) (HL r)), bind_ret.
  - apply sim_out; [assumption|]. rewrite (display_spec HT _ _ _ _ _ (HV r) (HL r)), bind_ret.
    rewrite put_all. unfold display_pieces. now rewrite separated_text.
  - apply sim_out; [assumption|]. rewrite (debug_spec HT _ _ _ _ _ (HV r) (HL r)), bind_ret.
    rewrite put_all. now rewrite debug_pieces_text.
  - destruct (iter_spec HT _ (HV r)) as (it & l & -> & Hl & Hi). rewrite bind_ret.
    rewrite (lists_set_unique inp _ _ _ Hnd Hl (HL r)) in *.
    eexists. split; [reflexivity|]. apply rel_set_iter; auto. now apply (list_length_le HT _ _ (HL r)).
  - unfold es_into_iter. destruct (iter_spec HT _ (HV r)) as (it & l & -> & Hl & Hi). rewrite bind_ret.
    rewrite (lists_set_unique inp _ _ _ Hnd Hl (HL r)) in *.
    eexists. split; [reflexivity|]. apply rel_set_iter; auto. now apply (list_length_le HT _ _ (HL r)).
  - pose proof (proj2 HRel i) as Hi. unfold iter_rel in Hi. destruct (c_iters T st i) as [it|], (a_iters ast i) as [l|]; try contradiction.
    + destruct Hi as [Hi Hl]. eexists. split; [reflexivity|]. now apply rel_set_iter.
    + now apply sim_out.
  - pose proof (proj2 HRel i) as Hi. unfold iter_rel in Hi. destruct (c_iters T st i) as [it|], (a_iters ast i) as [l|]; try contradiction.
    + destruct Hi as [Hi Hl]. destruct (pop_spec HT Front it l Hi) as (it' & E & Hi'). rewrite E, bind_ret.
      eexists. split; [reflexivity|]. apply rel_set_iter; auto. pose proof (pop_length Front l). cbn [pop_end snd] in *. lia.
    + now apply sim_out.
  - pose proof (proj2 HRel i) as Hi. unfold iter_rel in Hi. destruct (c_iters T st i) as [it|], (a_iters ast i) as [l|]; try contradiction.
    + destruct Hi as [Hi Hl]. destruct (pop_spec HT Back it l Hi) as (it' & E & Hi'). rewrite E, bind_ret.
      eexists. split; [reflexivity|]. apply rel_set_iter; auto. pose proof (pop_length Back l). cbn [pop_end snd] in *. lia.
    + now apply sim_out.
  - pose proof (proj2 HRel i) as Hi. unfold iter_rel in Hi. destruct (c_iters T st i) as [it|], (a_iters ast i) as [l|]; try contradiction.
    + destruct Hi as [Hi Hl]. rewrite (size_hint_spec HT it l Hi (short_lt_pw l Hl)), bind_ret. eexists. now split.
    + now apply sim_out.
  - pose proof (proj2 HRel i) as Hi. unfold iter_rel in Hi. destruct (c_iters T st i) as [it|], (a_iters ast i) as [l|]; try contradiction.
    + destruct Hi as [Hi Hl]. rewrite (iter_len_spec HT it l Hi (short_lt_pw l Hl)), bind_ret. eexists. now split.
    + now apply sim_out.
  - pose proof (proj2 HRel i) as Hi. unfold iter_rel in Hi. destruct (c_iters T st i) as [it|], (a_iters ast i) as [l|]; try contradiction; [|now apply sim_out].
    destruct Hi as [Hi Hl]. rewrite Nat.add_1_r. destruct (nth_spec (es_next T) _ (next_spec HT) n it l Hi) as (it' & -> & H'). rewrite bind_ret.
    eexists. split; [reflexivity|]. apply rel_set_iter; auto. rewrite skipn_length. lia.
  - pose proof (proj2 HRel i) as Hi. unfold iter_rel in Hi. destruct (c_iters T st i) as [it|], (a_iters ast i) as [l|]; try contradiction; [|now apply sim_out].
    destruct Hi as [Hi Hl]. assert (Hb : back_rel (inp := inp) (irel := irel) it (rev l)) by (unfold back_rel; now rewrite rev_involutive).
    rewrite Nat.add_1_r. destruct (nth_spec (es_next_back T) _ (back_step HT) n it _ Hb) as (it' & -> & H'). rewrite bind_ret.
    eexists. split; [reflexivity|]. apply rel_set_iter; auto. rewrite rev_length, skipn_length, rev_length. lia.
  - pose proof (proj2 HRel i) as Hi. unfold iter_rel in Hi. destruct (c_iters T st i) as [it|], (a_iters ast i) as [l|]; try contradiction; [|now apply sim_out].
    destruct Hi as [Hi Hl]. destruct (find_spec_front p it l Hi Hl) as (it' & E & H' & Hl'). rewrite E, bind_ret. eexists. split; [reflexivity|]. apply rel_set_iter; auto. 
  - pose proof (proj2 HRel i) as Hi. unfold iter_rel in Hi. destruct (c_iters T st i) as [it|], (a_iters ast i) as [l|]; try contradiction; [|now apply sim_out].
    destruct Hi as [Hi Hl]. assert (Hb : back_rel (inp := inp) (irel := irel) it (rev l)) by (unfold back_rel; now rewrite rev_involutive).
    destruct (find_loop_spec (es_next_back T) _ (back_step HT) p (rev l) (S (length (et_variants T))) it Hb) as (it' & E & H'); [rewrite rev_length; lia|].
    unfold es_find. rewrite E, bind_ret. eexists. split; [reflexivity|]. apply rel_set_iter; auto. rewrite rev_length. pose proof (after_first_le p (rev l)). rewrite rev_length in *. lia.
  - pose proof (proj2 HRel i) as Hi. unfold iter_rel in Hi. destruct (c_iters T st i) as [it|], (a_iters ast i) as [l|]; try contradiction; [|now apply sim_out].
    destruct Hi as [Hi Hl]. destruct (find_spec_front p it l Hi Hl) as (it' & E & H' & Hl'). unfold es_any. rewrite E, !bind_ret.
    rewrite (find_existsb p l). eexists. split; [reflexivity|]. apply rel_set_iter; auto. 
  - pose proof (proj2 HRel i) as Hi. unfold iter_rel in Hi. destruct (c_iters T st i) as [it|], (a_iters ast i) as [l|]; try contradiction; [|now apply sim_out].
    destruct Hi as [Hi Hl]. destruct (find_spec_front (fun v => negb (p v)) it l Hi Hl) as (it' & E & H' & Hl'). unfold es_all_items. rewrite E, !bind_ret.
    rewrite (find_forallb p l). eexists. split; [reflexivity|]. apply rel_set_iter; auto. 
  - pose proof (proj2 HRel i) as Hi. unfold iter_rel in Hi. destruct (c_iters T st i) as [it|], (a_iters ast i) as [l|]; try contradiction; [|now apply sim_out].
    destruct Hi as [Hi Hl]. destruct (position_loop_spec (es_next T) _ (next_spec HT) md p l (S (length (et_variants T))) it 0 Hi) as (it' & E & H'); [lia| |].
    { rewrite (tl_pw _ _ _ _ _ HT). apply (short_lt_pw l Hl). }
    unfold es_position. rewrite E, bind_ret. replace (match first_index p l with Some j => Some (0 + j) | None => None end) with (first_index p l) by now destruct (first_index p l).
    eexists. split; [reflexivity|]. apply rel_set_iter; auto. pose proof (after_first_le p l). lia.
  - pose proof (proj2 HRel i) as Hi. unfold iter_rel in Hi. destruct (c_iters T st i) as [it|], (a_iters ast i) as [l|]; try contradiction; [|now apply sim_out].
    destruct Hi as [Hi Hl]. rewrite (last_spec it l Hi Hl), bind_ret. eexists. split; [reflexivity|]. now apply rel_drop_iter.
  - pose proof (proj2 HRel i) as Hi. unfold iter_rel in Hi. destruct (c_iters T st i) as [it|], (a_iters ast i) as [l|]; try contradiction; [|now apply sim_out].
    destruct Hi as [Hi Hl]. unfold es_count, es_fold. rewrite (count_loop_spec (es_next T) _ (next_spec HT) md l); [|assumption|lia|rewrite (tl_pw _ _ _ _ _ HT); apply (short_lt_pw l Hl)].
    rewrite bind_ret. eexists. split; [reflexivity|]. now apply rel_drop_iter.
  - pose proof (proj2 HRel i) as Hi. unfold iter_rel in Hi. destruct (c_iters T st i) as [it|], (a_iters ast i) as [l|]; try contradiction; [|now apply sim_out].
    destruct Hi as [Hi Hl]. rewrite (drain_spec HT l _ it Hi) by lia. rewrite bind_ret. eexists. split; [reflexivity|]. now apply rel_drop_iter.
  - pose proof (proj2 HRel i) as Hi. unfold iter_rel in Hi. destruct (c_iters T st i) as [it|], (a_iters ast i) as [l|]; try contradiction; [|now apply sim_out].
    destruct Hi as [Hi Hl]. unfold es_fold. rewrite (fold_loop_spec (es_next T) _ (next_spec HT) _ l) by (auto; lia). rewrite for_each_pure, bind_ret.
    eexists. split; [reflexivity|]. now apply rel_drop_iter.
  - pose proof (proj2 HRel i) as Hi. unfold iter_rel in Hi. destruct (c_iters T st i) as [it|], (a_iters ast i) as [l|]; try contradiction; [|now apply sim_out].
    destruct Hi as [Hi Hl]. assert (Hb : back_rel (inp := inp) (irel := irel) it (rev l)) by (unfold back_rel; now rewrite rev_involutive).
    unfold es_fold. rewrite (fold_loop_spec (es_next_back T) _ (back_step HT) _ (rev l)) by (auto; rewrite rev_length; lia). rewrite for_each_pure, bind_ret.
    eexists. split; [reflexivity|]. now apply rel_drop_iter.
  - pose proof (proj2 HRel i) as Hi. unfold iter_rel in Hi. destruct (c_iters T st i) as [it|], (a_iters ast i) as [l|]; try contradiction; [|now apply sim_out].
    destruct Hi as [Hi Hl]. unfold es_partition. change (es_default T) with (es_empty T).
    assert (Re : Reachable pw inp T (es_empty T)) by constructor.
    destruct (partition_spec HT p l (S (length (et_variants T))) _ _ it Hi (empty_valid HT) (empty_valid HT)) as (a & b & Ep & Va & Vb & _ & _ & Hab); auto; [lia|].
    rewrite Ep, bind_ret. eexists. split; [reflexivity|]. apply rel_drop_iter, rel_set; [apply rel_set; [assumption|]|]; (split; [assumption|]); intros v Hv;
      destruct (Hab v Hv) as [E1 E2]; rewrite (empty_mem HT v Hv) in *; assumption.
  - pose proof (proj2 HRel i) as Hi. unfold iter_rel in Hi. destruct (c_iters T st i) as [it|], (a_iters ast i) as [l|]; try contradiction; [|now apply sim_out].
    destruct Hi as [Hi Hl]. destruct (extend_iter_spec HT l _ _ it Hi (HV d) (le_n_S _ _ Hl)) as (s & it' & E & Hs & Hm & H').
    unfold es_extend_iter. rewrite E, bind_ret. eexists. split; [reflexivity|]. apply rel_set_iter; [|assumption|cbn; lia].
    apply rel_set; [assumption|]. split; [assumption|]. intros v Hv. now rewrite Hm, HM.
  - apply sim_out; [assumption|]. now rewrite (serialize_sim st ast r HRel), bind_ret.
  - destruct Hc as [Hu Ho]. now apply deserialize_sim.
Qed.

Lemma run_sim cs : forall st ast, Rel st ast -> Forall (cmd_ok pw inp) cs -> run T cs st = a_run pw inp cs ast.
Proof.
  induction cs as [|c cs IH]; intros st ast HRel Hok; cbn [run a_run]; [reflexivity|].
  inversion Hok as [|? ? Hc Hcs]; subst. pose proof (step_sim c st ast HRel Hc) as H. unfold Sim in H.
  destruct (a_step pw inp c ast) as [[o ast']|p| |]; try contradiction.
  - destruct H as (st' & -> & HRel'). now rewrite (IH st' ast' HRel' Hcs).
  - now rewrite H.
Qed.
Lemma play_sim n prog : forall seen st ast, Rel st ast -> a_calls pw inp (cmd_ok pw inp) n prog seen ast ->
  play T n prog seen st = a_play pw inp n prog seen ast.
Proof.
  induction n as [|n IH]; intros seen st ast HRel Hok; cbn [play a_play a_calls] in *; [reflexivity|].
  destruct (prog seen) as [c|]; [|reflexivity]. destruct Hok as [Hc Hok].
  pose proof (step_sim c st ast HRel Hc) as H. unfold Sim in H.
  destruct (a_step pw inp c ast) as [[o ast']|p| |]; try contradiction.
  - destruct H as (st' & -> & HRel'). now apply IH.
  - now rewrite H.
Qed.
End Sim.

(** * Facts about the constant macros *)
From Verif Require Import Base BaseFacts Repr ReprLaws.
From Verif Require Import Syntax Spec Derive EnumSet Macros ApiSpec DeriveFacts TyFacts SetFacts.

Section Macros.
Context {pw : N} {inp : derive_input} {T : EnumTy} {val : eset T -> N}
        {irel : r_iter_t (et_repr T) -> list N -> Prop}.
Context (HT : TyLaws pw (discrs inp) T val irel).
Let HR := tl_repr _ _ _ _ _ HT.
Local Notation mem := (@mem inp T val).
Local Notation Valid := (@Valid inp T val).
Local Notation Good := (@Good inp T val).
Local Notation ovalid := (@ovalid inp T val).
Local Notation omem := (@omem inp T val).

(** Two computations return the same valid set. *)
Definition Same (m m' : M (eset T)) : Prop := exists s, m = Ret s /\ m' = Ret s /\ Valid s.
Lemma good_same m m' A : Good m A -> Good m' A -> Same m m'.
Proof.
  intros (s & -> & Hs & Hm) (s' & -> & Hs' & Hm'). exists s. split; [reflexivity|]. split; [|assumption].
  f_equal. apply (valid_ext HT); auto. intros v Hv. rewrite Hm, Hm'; auto.
Qed.
Lemma same_eq m m' : Same m m' -> m = m'.
Proof. intros (s & -> & -> & _). reflexivity. Qed.
Lemma same_bind m m' f f' : Same m m' -> (forall s, Valid s -> Same (f s) (f' s)) -> Same (bind m f) (bind m' f').
Proof. intros (s & -> & -> & Hs) H. rewrite !bind_ret. now apply H. Qed.
Lemma for_each_same {I} (items : list I) b b' s :
  (forall i a, In i items -> Valid a -> Same (b i a) (b' i a)) -> Valid s ->
  Same (for_each items s b) (for_each items s b').
Proof.
  revert s. induction items as [|i items IH]; intros s Hb Hs; cbn [for_each].
  - exists s. auto.
  - apply same_bind; [apply Hb; [now left|assumption]|]. intros a Ha. apply IH; [|assumption].
    intros j c Hj. apply Hb. now right.
Qed.

Lemma const_only_spec o : ovalid o -> Good (mc_const_only T o) (omem o).
Proof.
  destruct o as [s|v]; intros H; cbn [mc_const_only SetFacts.omem].
  - now apply good_ret.
  - rewrite (tl_discrs _ _ _ _ _ HT). apply variant_discrs in H as Hl. rewrite (nth_error_nth' _ 0 Hl).
    fold (discr inp v).
    eapply (good_of_yields (val := val)); [apply (tl_const_only _ _ _ _ _ HT), discr_In, H| |].
    + intros i. rewrite pow2_testbit, N.eqb_eq. intros ->. now apply discr_In.
    + intros u Hu. rewrite pow2_testbit. apply eq_true_iff_eq. rewrite N.eqb_eq, Nat.eqb_eq. split.
      * intros E. apply (discr_inj inp); auto. apply (D_nodup HT).
      * now intros ->.
Qed.
Lemma const_union_spec a b : Valid a -> Valid b -> Good (et_const_union T a b) (fun v => mem a v || mem b v).
Proof.
  intros Ha Hb. eapply good_of_yields; [apply (tl_const_union _ _ _ _ _ HT); [apply Ha|apply Hb]| |].
  - intros i. rewrite N.lor_spec, orb_true_iff. intros [H|H]; [now apply Ha|now apply Hb].
  - intros v _. apply N.lor_spec.
Qed.
Lemma const_intersection_spec a b : Valid a -> Valid b -> Good (et_const_intersection T a b) (fun v => mem a v && mem b v).
Proof.
  intros Ha Hb. eapply good_of_yields; [apply (tl_const_intersection _ _ _ _ _ HT); [apply Ha|apply Hb]| |].
  - intros i. rewrite N.land_spec, andb_true_iff. intros [H _]. now apply Ha.
  - intros v _. apply N.land_spec.
Qed.
Lemma const_symmetric_difference_spec a b : Valid a -> Valid b ->
  Good (et_const_symmetric_difference T a b) (fun v => xorb (mem a v) (mem b v)).
Proof.
  intros Ha Hb. eapply good_of_yields; [apply (tl_const_symmetric_difference _ _ _ _ _ HT); [apply Ha|apply Hb]| |].
  - intros i. rewrite N.lxor_spec. intros H.
    destruct (N.testbit (val a) i) eqn:E; [now apply Ha|]. apply Hb. now rewrite xorb_false_l in H.
  - intros v _. apply N.lxor_spec.
Qed.
Lemma const_complement_spec a : Valid a -> Good (et_const_complement T a) (fun v => negb (mem a v)).
Proof.
  intros Ha. eapply good_of_yields; [apply (tl_const_complement _ _ _ _ _ HT), Ha| |].
  - intros i. rewrite N.ldiff_spec, andb_true_iff. intros [H _]. now apply (all_valid HT).
  - intros v Hv. rewrite N.ldiff_spec. pose proof (all_mem HT v Hv) as E. unfold SetFacts.mem, es_all in E. now rewrite E.
Qed.
Lemma const_difference_spec a b : Valid a -> Valid b ->
  Good (c <- et_const_complement T b ;; et_const_intersection T a c) (fun v => mem a v && negb (mem b v)).
Proof.
  intros Ha Hb. eapply good_bind; [now apply const_complement_spec|]. intros c Hc Hm.
  eapply good_ext; [|now apply const_intersection_spec]. intros v Hv. cbv beta. now rewrite Hm.
Qed.

(** ** The macros equal folds of the run-time operators *)
Lemma fold_same (f : eset T -> eset T -> M (eset T)) (g : eset T -> operand T -> M (eset T)) (h : bool -> bool -> bool) o ops :
  (forall a b, Valid a -> Valid b -> Good (f a b) (fun v => h (mem a v) (mem b v))) ->
  (forall a p, Valid a -> ovalid p -> Good (g a p) (fun v => h (mem a v) (omem p v))) ->
  ovalid o -> (forall p, In p ops -> ovalid p) ->
  Same (mc_fold T f o ops) (s <- es_into T o ;; for_each ops s (fun p s => g s p)).
Proof.
  intros Hf Hg Ho Hops. unfold mc_fold. apply same_bind.
  - eapply good_same; [now apply const_only_spec|now apply (into_spec HT)].
  - intros s Hs. apply for_each_same; [|assumption]. intros p a Hp Ha.
    eapply good_same; [|apply Hg; auto].
    eapply good_bind; [apply const_only_spec; auto|]. intros x Hx Hm.
    eapply good_ext; [|apply Hf; assumption]. intros v Hv. cbv beta. now rewrite Hm.
Qed.
Lemma mc_union_same o ops : ovalid o -> (forall p, In p ops -> ovalid p) ->
  Same (mc_union T o ops) (s <- es_into T o ;; for_each ops s (fun p s => es_bitor T s p)).
Proof. apply (fold_same _ (es_bitor T) orb); [exact const_union_spec|exact (bitor_spec HT)]. Qed.
Lemma mc_intersection_same o ops : ovalid o -> (forall p, In p ops -> ovalid p) ->
  Same (mc_intersection T o ops) (s <- es_into T o ;; for_each ops s (fun p s => es_bitand T s p)).
Proof. apply (fold_same _ (es_bitand T) andb); [exact const_intersection_spec|exact (bitand_spec HT)]. Qed.
Lemma mc_difference_same o ops : ovalid o -> (forall p, In p ops -> ovalid p) ->
  Same (mc_difference T o ops) (s <- es_into T o ;; for_each ops s (fun p s => es_sub T s p)).
Proof. apply (fold_same _ (es_sub T) (fun x y => x && negb y)); [exact const_difference_spec|exact (sub_spec HT)]. Qed.
Lemma mc_symmetric_difference_same o ops : ovalid o -> (forall p, In p ops -> ovalid p) ->
  Same (mc_symmetric_difference T o ops) (s <- es_into T o ;; for_each ops s (fun p s => es_bitxor T s p)).
Proof. apply (fold_same _ (es_bitxor T) xorb); [exact const_symmetric_difference_spec|exact (bitxor_spec HT)]. Qed.
Lemma mc_complement_same o : ovalid o -> Same (mc_complement T o) (s <- es_into T o ;; es_not T s).
Proof.
  intros Ho. apply same_bind.
  - eapply good_same; [now apply const_only_spec|now apply (into_spec HT)].
  - intros s Hs. eapply good_same; [now apply const_complement_spec|now apply (complement_spec HT)].
Qed.
Lemma mc_enum_set_same ops : (forall p, In p ops -> ovalid p) ->
  Same (mc_enum_set T ops) (for_each ops (es_empty T) (fun p s => es_bitor T s p)).
Proof.
  intros H. destruct ops as [|o ops]; cbn [mc_enum_set].
  - exists (es_empty T). repeat split; auto; apply (empty_valid HT).
  - assert (Ho : ovalid o) by (apply H; now left).
    assert (Hops : forall p, In p ops -> ovalid p) by (intros p Hp; apply H; now right).
    assert (E : Same (mc_union T o ops) (for_each (o :: ops) (es_empty T) (fun p s => es_bitor T s p))).
    { cbn [for_each].
      assert (Hio : Same (es_into T o) (es_bitor T (es_empty T) o)).
      { eapply good_same; [apply (into_spec HT); exact Ho|]. eapply good_ext; [|apply (bitor_spec HT); [apply (empty_valid HT)|exact Ho]].
        intros v Hv. cbv beta. now rewrite (empty_mem HT). }
      destruct Hio as (x & E1 & E2 & Hx). rewrite E2, bind_ret.
      pose proof (mc_union_same o ops Ho Hops) as Hu. rewrite E1, bind_ret in Hu. exact Hu. }
    destruct ops as [|o' ops]; [|exact E].
    unfold mc_union, mc_fold in E. cbn [for_each] in E |- *.
    assert (Eb : forall (m : M (eset T)), bind m (fun v => Ret v) = m) by (intros []; reflexivity).
    now rewrite Eb in E.
Qed.

(** ** Members *)
Lemma for_each_op_good (g : eset T -> operand T -> M (eset T)) (h : bool -> bool -> bool) ops : forall s,
  (forall a p, Valid a -> ovalid p -> Good (g a p) (fun v => h (mem a v) (omem p v))) ->
  Valid s -> (forall p, In p ops -> ovalid p) ->
  Good (for_each ops s (fun p s => g s p)) (fun v => fold_left (fun b p => h b (omem p v)) ops (mem s v)).
Proof.
  induction ops as [|o ops IH]; intros s Hg Hs Hops; cbn [for_each fold_left].
  - now apply good_ret.
  - eapply good_bind; [apply Hg; [assumption|apply Hops; now left]|]. intros a Ha Hm.
    eapply good_ext; [|apply IH; auto]; [|intros p Hp; apply Hops; now right].
    intros v Hv. cbv beta. now rewrite Hm.
Qed.
End Macros.

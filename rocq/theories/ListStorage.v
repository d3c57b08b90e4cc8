(** * A storage that the crate does not have

    An example for the claims about any lawful storage: the ascending list of
    the set bits, as a sorted vector would hold it. Operations go through the
    number the list stands for. *)
From Verif Require Import Base BaseFacts LimbFacts Repr ReprLaws Syntax Spec Derive DeriveFacts TyFacts EnumSet SetFacts Examples StorageSpec LawfulClaims.
Ltac Zify.zify_post_hook ::= Z.div_mod_to_equations.

Fixpoint list_value (l : list N) : N := match l with [] => 0 | i :: l => N.setbit (list_value l) i end.
Definition list_of (x : N) : list N := bits_of x.
Definition list_op (f : N -> N -> N) (a b : list N) : M (list N) := Ret (list_of (f (list_value a) (list_value b))).
Definition list_repr (pw w : N) (pl : nat) : ReprTrait := {|
  r_t := list N;
  r_ok := fun l => StronglySorted N.lt l /\ Forall (fun i => i < w) l;
  r_preferred_array_len := pl;
  r_width := w;
  r_empty := [];
  r_eqb := fun a b => if list_eq_dec N.eq_dec a b then true else false;
  r_cmp := fun a b => list_value a ?= list_value b;
  r_hash := fun a => [HLen (length a); HWords a];
  r_bitand := list_op N.land;
  r_bitor := list_op N.lor;
  r_bitxor := list_op N.lxor;
  r_not := fun a => Ret (list_of (bnot w (list_value a)));
  r_is_empty := fun a => match a with [] => true | _ => false end;
  r_add_bit := fun a b => Ret (list_of (N.setbit (list_value a) b));
  r_remove_bit := fun a b => Ret (filter (fun i => negb (i =? b)) a);
  r_has_bit := fun a b => Ret (existsb (N.eqb b) a);
  r_count_ones := fun a => Ret (N.of_nat (length a));
  r_leading_zeros := fun a => Ret (u_leading_zeros w (list_value a));
  r_trailing_zeros := fun a => Ret (u_trailing_zeros w (list_value a));
  r_and_not := list_op N.ldiff;
  r_iter_t := list N;
  r_iter := fun a => Ret a;
  r_iter_next := fun it => Ret (hd_error it, tl it);
  r_iter_next_back := fun it => Ret (hd_error (rev it), rev (tl (rev it)));
  r_iter_size_hint := fun it => let n := N.of_nat (length it) in Ret (n, Some n);
  r_from := fun _ v => Ret (list_of (v mod 2 ^ w));
  r_to := fun t a => Ret (list_value a mod 2 ^ ity_bits pw t);
  r_from_opt := fun _ v => Ret (if v <? 2 ^ w then Some (list_of v) else None);
  r_to_opt := fun t a => Ret (if list_value a <? 2 ^ ity_bits pw t then Some (list_value a) else None);
  r_to_u64_array := fun a k => Ret (limbs k (list_value a));
  r_to_u64_array_opt := fun a k =>
    Ret (if list_value a <? 2 ^ (64 * N.of_nat k) then Some (limbs k (list_value a)) else None);
  r_from_u64_array := fun l => Ret (list_of (lval l mod 2 ^ w));
  r_from_u64_array_opt := fun l => Ret (if lval l <? 2 ^ w then Some (list_of (lval l)) else None);
  r_to_u64_slice := fun a out => Ret (limbs (length out) (list_value a));
  r_to_u64_slice_opt := fun a out =>
    Ret (if list_value a <? 2 ^ (64 * N.of_nat (length out)) then (Some tt, limbs (length out) (list_value a)) else (None, out));
  r_from_u64_slice := fun l => Ret (list_of (lval l mod 2 ^ w));
  r_from_u64_slice_opt := fun l => Ret (if lval l <? 2 ^ w then Some (list_of (lval l)) else None);
  r_int := None;
|}.

Section Laws.
Context (pw w : N) (pl : nat) (Hw : 0 < w < 2 ^ 32) (Hpl : w <= 64 * N.of_nat pl).
Local Notation ok := (r_ok (list_repr pw w pl)).

Lemma list_value_testbit l i : N.testbit (list_value l) i = existsb (N.eqb i) l.
Proof.
  induction l as [|j l IH]; cbn [list_value existsb]; [apply N.bits_0|].
  rewrite N.setbit_eqb, IH. now rewrite N.eqb_sym.
Qed.
Lemma list_value_In l i : N.testbit (list_value l) i = true <-> In i l.
Proof.
  rewrite list_value_testbit, existsb_exists. split; [intros (j & H & E); apply N.eqb_eq in E; now subst|].
  intros H. exists i. split; [assumption|apply N.eqb_refl].
Qed.
Lemma list_value_of x : list_value (list_of x) = x.
Proof. apply bit_eq. intros i. apply eq_true_iff_eq. rewrite list_value_In. apply bits_of_In. Qed.
Lemma list_of_ok x : x < 2 ^ w -> ok (list_of x).
Proof.
  intros H. split; [apply bits_of_sorted|]. apply Forall_forall. intros i Hi. apply bits_of_In in Hi.
  apply N.nle_gt. intros G. rewrite (testbit_high _ _ _ H G) in Hi. discriminate.
Qed.
Lemma list_of_value l : ok l -> list_of (list_value l) = l.
Proof. intros [Hs _]. symmetry. apply bits_of_unique; [assumption|]. intros i. symmetry. apply list_value_In. Qed.
Lemma list_value_lt l : ok l -> list_value l < 2 ^ w.
Proof.
  intros [_ H]. apply lt_pow2_of_bits. intros i Hi. destruct (N.testbit _ _) eqn:E; [|reflexivity].
  apply list_value_In in E. rewrite Forall_forall in H. apply H in E. lia.
Qed.
Lemma list_yields x v : x = v -> v < 2 ^ w -> yields ok list_value (Ret (list_of x)) v.
Proof. intros -> H. eexists. split; [reflexivity|]. split; [now apply list_of_ok|apply list_value_of]. Qed.
Lemma list_inj x y : ok x -> ok y -> list_value x = list_value y -> x = y.
Proof. intros Hx Hy E. rewrite <- (list_of_value x Hx), <- (list_of_value y Hy). now rewrite E. Qed.
Lemma list_cut x : x mod 2 ^ w < 2 ^ w.
Proof. apply N.mod_lt, N.pow_nonzero. discriminate. Qed.

Lemma list_laws : ReprLaws pw (list_repr pw w pl) ok list_value eq.
Proof.
  constructor; cbn [list_repr r_width r_preferred_array_len r_t r_empty r_eqb r_cmp r_hash r_bitand r_bitor r_bitxor r_not
    r_is_empty r_add_bit r_remove_bit r_has_bit r_count_ones r_leading_zeros r_trailing_zeros r_and_not r_iter_t r_iter
    r_iter_next r_iter_next_back r_iter_size_hint r_from r_to r_from_opt r_to_opt r_to_u64_array r_to_u64_array_opt
    r_from_u64_array r_from_u64_array_opt r_to_u64_slice r_to_u64_slice_opt r_from_u64_slice r_from_u64_slice_opt].
  - apply Hw.
  - apply Hw.
  - exact Hpl.
  - lia.
  - exact list_value_lt.
  - exact list_inj.
  - intros x y Hx Hy. apply eq_true_iff_eq. rewrite N.eqb_eq. destruct (list_eq_dec _ _ _) as [->|Hn].
    + split; reflexivity.
    + split; [discriminate|]. intros E. exfalso. apply Hn. now apply list_inj.
  - split; [split; constructor|reflexivity].
  - intros x y Hx Hy. apply list_yields; [reflexivity|]. now apply land_lt, list_value_lt.
  - intros x y Hx Hy. apply list_yields; [reflexivity|]. now apply lor_lt; apply list_value_lt.
  - intros x y Hx Hy. apply list_yields; [reflexivity|]. now apply lxor_lt; apply list_value_lt.
  - intros x Hx. apply list_yields; [reflexivity|]. now apply bnot_lt, list_value_lt.
  - intros x y Hx Hy. apply list_yields; [reflexivity|]. apply lt_pow2_of_bits. intros i Hi.
    rewrite N.ldiff_spec, (testbit_high _ w i); [reflexivity|now apply list_value_lt|assumption].
  - intros x Hx. apply eq_true_iff_eq. rewrite N.eqb_eq. destruct x as [|i x]; [split; reflexivity|].
    split; [discriminate|]. intros E. assert (H : N.testbit (list_value (i :: x)) i = true) by (apply list_value_In; now left).
    rewrite E, N.bits_0 in H. discriminate.
  - intros x b Hx Hb _. apply list_yields; [reflexivity|]. apply lt_pow2_of_bits. intros i Hi.
    rewrite N.setbit_eqb. rewrite (testbit_high _ w i); [|now apply list_value_lt|assumption].
    replace (b =? i) with false; [reflexivity|]. symmetry. apply N.eqb_neq. lia.
  - intros x b Hx Hb _. eexists. split; [reflexivity|].
    assert (E : list_value (filter (fun i => negb (i =? b)) x) = N.clearbit (list_value x) b).
    { apply bit_eq. intros i. apply eq_true_iff_eq. rewrite list_value_In, filter_In.
      rewrite N.clearbit_eqb, andb_true_iff, list_value_In, N.eqb_sym. reflexivity. }
    split; [|exact E]. destruct Hx as [Hs Hf]. split.
    + clear E Hf. induction x as [|i x IH]; cbn [filter]; [constructor|]. apply StronglySorted_inv in Hs as [Hs Hi].
      destruct (negb _); [|auto]. constructor; [auto|]. rewrite Forall_forall in *. intros j Hj. apply filter_In in Hj. now apply Hi.
    + rewrite Forall_forall in *. intros j Hj. apply filter_In in Hj. now apply Hf.
  - intros x b Hx Hb _. f_equal. symmetry. apply list_value_testbit.
  - intros x Hx. f_equal. rewrite <- bits_of_length. f_equal. f_equal. symmetry. now apply list_of_value.
  - reflexivity.
  - reflexivity.
  - intros x Hx. exists x. split; [reflexivity|]. symmetry. now apply list_of_value.
  - intros it l ->. eauto.
  - intros it l b ->. exists l. rewrite rev_app_distr. cbn. now rewrite rev_involutive.
  - intros it ->. exists []. auto.
  - intros it l ->. reflexivity.
  - intros t v Hv. apply list_yields; [reflexivity|]. apply list_cut.
  - reflexivity.
  - intros t v Hv. destruct (N.ltb_spec v (2 ^ w)) as [H|H]; [|reflexivity].
    eexists. split; [reflexivity|]. split; [now apply list_of_ok|apply list_value_of].
  - reflexivity.
  - reflexivity.
  - reflexivity.
  - intros l Hl. apply list_yields; [reflexivity|]. apply list_cut.
  - intros l Hl. destruct (N.ltb_spec (lval l) (2 ^ w)) as [H|H]; [|reflexivity].
    eexists. split; [reflexivity|]. split; [now apply list_of_ok|apply list_value_of].
  - reflexivity.
  - reflexivity.
  - intros l Hl. apply list_yields; [reflexivity|]. apply list_cut.
  - intros l Hl. destruct (N.ltb_spec (lval l) (2 ^ w)) as [H|H]; [|reflexivity].
    eexists. split; [reflexivity|]. split; [now apply list_of_ok|apply list_value_of].
  - intros x y _ _ [= _ H]. exact H.
  - intros x y Hx Hy. rewrite N.compare_eq_iff. split; [now apply list_inj|now intros ->].
  - intros x y _ _. apply N.compare_antisym.
  - intros x y z c _ _ _. destruct c; rewrite ?N.compare_eq_iff, ?N.compare_lt_iff, ?N.compare_gt_iff; lia.
Qed.
Lemma list_lawful : Lawful pw (list_repr pw w pl) list_value.
Proof. exact (laws_lawful _ _ _ _ list_laws). Qed.
End Laws.

(** [Wide] stored in such a list *)
Definition sparse : ReprTrait := list_repr 64 256 4.
Definition SparseT : EnumTy := {|
  et_repr := sparse;
  et_all_bits := [3; 70; 71; 200];
  et_all_lit := None;
  et_bit_width := 201;
  et_variant_count := 4;
  et_variants := [("A", 200); ("B", 3); ("C", 70); ("D", 71)]%string;
  et_discrs := [200; 3; 70; 71];
  et_const_only := fun d => Ret [d];
  et_const_union := r_bitor sparse;
  et_const_intersection := r_bitand sparse;
  et_const_symmetric_difference := r_bitxor sparse;
  et_const_complement := r_and_not sparse [3; 70; 71; 200];
  et_with_repr := false;
  et_serde := SList;
  et_deny_unknown := false;
  et_pw := 64
|}.
Lemma sparse_lawful : Lawful 64 sparse list_value.
Proof. apply list_lawful; cbn; lia. Qed.
Lemma wide_variant_cases (P : nat -> Prop) : P 0%nat -> P 1%nat -> P 2%nat -> P 3%nat -> forall v, variant wide v -> P v.
Proof.
  intros H0 H1 H2 H3 v Hv. unfold variant in Hv. cbn in Hv.
  do 4 (destruct v as [|v]; [assumption|]). exfalso. lia.
Qed.
Lemma sparse_implements : Implements 64 wide SparseT list_value.
Proof.
  constructor.
  - auto.
  - reflexivity.
  - exact sparse_lawful.
  - cbn. lia.
  - reflexivity.
  - reflexivity.
  - repeat constructor; cbn; intuition discriminate.
  - apply wide_variant_cases; vm_compute; repeat split; try reflexivity; discriminate.
  - cbn. lia.
  - split; [repeat constructor|]. split; [|discriminate]. intros i. rewrite list_value_In. cbn [In SparseT et_all_bits]. split.
    + intros [<-|[<-|[<-|[<-|[]]]]]; [exists 1%nat|exists 2%nat|exists 3%nat|exists 0%nat]; split; try reflexivity; unfold variant; cbn; lia.
    + intros (v & Hv & <-). revert v Hv. apply wide_variant_cases; vm_compute; auto.
  - intros v Hv. cbn [SparseT et_const_only]. exists [discr wide v]. split; [reflexivity|]. split.
    + split; [repeat constructor|]. constructor; [|constructor]. revert v Hv. apply wide_variant_cases; vm_compute; auto.
    + intros i. cbn [SparseT et_repr]. rewrite list_value_testbit. cbn [existsb]. apply orb_false_r.
  - intros x y Hx Hy. cbv zeta.
    assert (Ha : r_ok sparse [3; 70; 71; 200]) by repeat constructor.
    destruct (lw_logic _ _ _ sparse_lawful x y Hx Hy) as (H1 & H2 & H3 & _).
    destruct (lw_logic _ _ _ sparse_lawful _ x Ha Hx) as (_ & _ & _ & H4 & _).
    split; [exact H2|]. split; [exact H1|]. split; [exact H3|exact H4].
Qed.
Lemma sparse_proper l : StronglySorted N.lt l -> (forall i, In i l -> In i [3; 70; 71; 200]) -> proper (T := SparseT) wide list_value l.
Proof.
  intros Hs Hl. destruct (im_all _ _ _ _ sparse_implements) as (Ho & Ha & _). split.
  - split; [assumption|]. destruct Ho as [_ Ho]. rewrite Forall_forall in *. intros i Hi. apply Ho, Hl, Hi.
  - intros i Hi. apply list_value_In in Hi. apply Ha, list_value_In, Hl, Hi.
Qed.
Definition sparse_ac : eset SparseT := [70; 200].        (* {A, C} *)
Definition sparse_bc : eset SparseT := [3; 70].          (* {B, C} *)
Lemma sparse_ac_proper : proper (T := SparseT) wide list_value sparse_ac.
Proof. apply sparse_proper; [repeat constructor|cbn; tauto]. Qed.
Lemma sparse_bc_proper : proper (T := SparseT) wide list_value sparse_bc.
Proof. apply sparse_proper; [repeat constructor|cbn; tauto]. Qed.

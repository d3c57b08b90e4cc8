(** * Claims about the generated impl blocks and warnings *)
From Verif Require Import Base BaseFacts Repr Syntax Spec Derive DeriveFacts TyFacts ExtraSpec Impls.

(** ** C54 *)
Lemma explicit_internal md inp i : derive_info md inp = Ret (Ok i) ->
  (i_explicit_internal i <> None <-> exists name b, at_repr (in_attrs inp) = Some name /\ name_bits name = Some b).
Proof.
  intros H. destruct (@derive_info_spec md inp) as (r & E & Hr). rewrite H in E. inversion E; subst r. destruct Hr as [_ Hi].
  rewrite (io_internal _ _ Hi). unfold repr_attr. destruct (at_repr (in_attrs inp)) as [s|].
  - pose proof (name_bits_ir s) as Hb. destruct (ir_of_name s) as [r|].
    + split; [intros _; eauto|discriminate].
    + split; [congruence|]. intros (name & b & En & Eb). inversion En; subst. congruence.
  - split; [congruence|]. intros (name & b & En & _). discriminate.
Qed.
Lemma impls md inp i o : derive_info md inp = Ret (Ok i) ->
  NoDup (generated_impls o i) /\
  forall t, In t (generated_impls o i) <->
    match t with
    | TPrivate | TEnumSetType => True
    | TWithRepr => exists name b, at_repr (in_attrs inp) = Some name /\ name_bits name = Some b
    | TPartialEq | TEq | TClone | TCopy => sw_no_super_impls o = false
    | TSub | TBitAnd | TBitOr | TBitXor | TNot | TPartialEqSet => sw_no_ops o = false
    end.
Proof.
  intros H. pose proof (explicit_internal _ _ _ H) as HX. unfold generated_impls, with_repr_impls, super_impls, ops_impls.
  destruct o as [[] []]; cbn [sw_no_ops sw_no_super_impls]; (split;
    [destruct (i_explicit_internal i); cbn [app]; repeat constructor; cbn; intuition discriminate|]);
  intros t; destruct (i_explicit_internal i) as [r|];
  (destruct t; cbn [app In];
   try (split; [intuition discriminate|intuition (congruence || auto)]);
   try (rewrite <- HX; split; [congruence|tauto]);
   try (rewrite <- HX; split; [intuition discriminate|congruence])).
Qed.
Lemma impls_compile md inp i o user : derive_info md inp = Ret (Ok i) ->
  (forall t, In t user -> t <> TPrivate /\ t <> TEnumSetType /\ t <> TWithRepr) ->
  (impls_accepted (generated_impls o i ++ user) <->
   NoDup user /\
   (forall t, In t [TPartialEq; TEq; TClone; TCopy] -> (In t user <-> sw_no_super_impls o = true)) /\
   (forall t, In t [TSub; TBitAnd; TBitOr; TBitXor; TNot; TPartialEqSet] -> In t user -> sw_no_ops o = true)).
Proof.
  intros H Hu. destruct (impls md inp i o H) as [HN HI]. set (g := generated_impls o i) in *.
  assert (Happ : NoDup (g ++ user) <-> NoDup user /\ forall t, In t g -> In t user -> False).
  { clear HI Hu. induction g as [|x g IH]; cbn [app In]; [intuition|]. inversion HN; subst. rewrite !NoDup_cons_iff, (IH H3), in_app_iff.
    clear IH. split.
    - intros (Hx & Hd & Hg). split; [exact Hd|]. intros t [->|Ht] Htu; [tauto|exact (Hg t Ht Htu)].
    - intros (Hd & Hg). split; [|split; [exact Hd|intros t Ht; apply Hg; now right]].
      intros [Hx|Hx]; [contradiction|]. apply (Hg x); auto. }
  unfold impls_accepted. rewrite Happ. clear Happ. split.
  - intros [[Hd Hg] Hs]. split; [exact Hd|].
    assert (HT : In TEnumSetType (g ++ user)) by (apply in_or_app; left; now apply HI).
    assert (H1 : In TCopy (g ++ user)) by (apply (Hs TEnumSetType); cbn; auto).
    assert (H2 : In TEq (g ++ user)) by (apply (Hs TEnumSetType); cbn; auto).
    assert (H3 : In TClone (g ++ user)) by (apply (Hs TCopy); cbn; auto).
    assert (H4 : In TPartialEq (g ++ user)) by (apply (Hs TEq); cbn; auto).
    rewrite in_app_iff, HI in H1, H2, H3, H4. split.
    + intros t Ht. split.
      * intros Htu. destruct (sw_no_super_impls o) eqn:E; [reflexivity|exfalso]. apply (Hg t); [|exact Htu]. apply HI.
        cbn in Ht. intuition (subst; assumption || reflexivity).
      * intros E. cbn in Ht. intuition (subst; congruence || auto).
    + intros t Ht Htu. destruct (sw_no_ops o) eqn:E; [reflexivity|exfalso]. apply (Hg t); [|exact Htu]. apply HI.
      cbn in Ht. intuition (subst; assumption || reflexivity).
  - intros (Hd & H4 & H6). split; [split; [exact Hd|]|].
    + intros t Hg Htu. specialize (Hu t Htu). apply HI in Hg.
      destruct t; try tauto;
        try (match goal with t := ?x : trait |- _ => idtac end);
        first [apply H4 in Htu; [congruence|cbn; tauto]|apply H6 in Htu; [congruence|cbn; tauto]].
    + assert (A4 : forall t, In t [TPartialEq; TEq; TClone; TCopy] -> In t (g ++ user)).
      { intros t Ht. apply in_or_app. destruct (sw_no_super_impls o) eqn:E.
        - right. now apply (H4 t Ht).
        - left. apply HI. cbn in Ht. intuition (subst; assumption || reflexivity). }
      intros t s Ht Hs. destruct t; cbn [supertraits In] in Hs; try contradiction;
        repeat destruct Hs as [<-|Hs]; try contradiction;
        first [apply A4; cbn; tauto|apply in_or_app; left; now apply HI].
Qed.
Lemma warnings_given std a : NoDup (warnings std a) /\
  forall w, In w (warnings std a) <->
    match w with WAsMap => at_as_map a = true | WAsList => at_as_list a = true | WStd => std = true end.
Proof.
  unfold warnings. destruct (at_as_map a), (at_as_list a), std; cbn [app]; (split; [repeat constructor; cbn; intuition discriminate|]);
    intros []; cbn; intuition discriminate.
Qed.
Lemma with_serde_twice i a b : with_serde (with_serde i a) b = with_serde i b.
Proof. reflexivity. Qed.
Lemma push_serialize_ok i s i' : push_serialize_repr i s = Ok i' -> exists r, i' = with_serde i r.
Proof. unfold push_serialize_repr. repeat destruct (_ =? _)%string; intros E; inversion E; eauto. Qed.
Lemma advice_harmless md pw inp T std : derive md pw inp = Ret (Ok T) ->
  derive md pw (modernised inp) = Ret (Ok T) /\
  forall w, In w (warnings std (in_attrs (modernised inp))) -> w = WStd.
Proof.
  intros H. split.
  2: { intros w Hw. apply warnings_given in Hw. destruct w; cbn in Hw; [discriminate..|reflexivity]. }
  unfold derive in *. assert (E : forall i, derive_info md inp = Ret (Ok i) -> derive_info md (modernised inp) = Ret (Ok i)).
  2: { destruct (derive_info md inp) as [[i|e]| | |]; try discriminate. rewrite (E i eq_refl). exact H. }
  intros i. clear H T. unfold derive_info, modernised. cbn [in_generic in_is_enum in_rust_reprs in_attrs in_variants at_repr at_serialize_repr at_deny_unknown at_as_list at_as_map].
  destruct (in_generic inp); [auto|]. destruct (negb (in_is_enum inp)); [auto|].
  destruct (check_rust_reprs 0 (in_rust_reprs inp)) as [u|e]; cbn [try_]; [|auto].
  set (a := in_attrs inp). unfold info_new. cbn [at_deny_unknown]. set (i0 := MkInfo _ _ _ _ _ _ _ _ _ _).
  destruct (match at_repr a with Some r => push_repr i0 r | None => Ok i0 end) as [i1|e]; cbn [try_]; [|auto].
  destruct (match at_serialize_repr a with Some r => push_serialize_repr i1 r | None => Ok i1 end) as [i2|e] eqn:E2; cbn [try_]; [|discriminate].
  assert (E1 : exists r, i2 = with_serde i1 r).
  { destruct (at_serialize_repr a); [now apply push_serialize_ok in E2|inversion E2; subst; exists (i_explicit_serde i2); now destruct i2]. }
  destruct E1 as [r ->].
  destruct (at_as_list a), (at_as_map a); rewrite ?with_serde_twice; intros H.
  1-3: unfold push_serialize_repr; cbn [String.eqb Ascii.eqb Bool.eqb try_ andb]; exact H.
  fold a. rewrite E2. exact H.
Qed.

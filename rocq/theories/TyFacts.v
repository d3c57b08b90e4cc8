(** * Facts about the generated implementation *)
From Verif Require Import Base BaseFacts LimbFacts Prim ArrayRepr Repr ReprLaws PrimFacts ArrayFacts.
From Verif Require Import Syntax Spec Derive EnumSet ApiSpec DeriveFacts.
Ltac Zify.zify_post_hook ::= Z.div_mod_to_equations.

Section TyFacts.
Context {md : build}.

(** ** [variant_map] *)
Lemma testbit_app0 l k i : limbs_ok l -> N.testbit (lval (l ++ repeat 0 k)) i = N.testbit (lval l) i.
Proof.
  intros H. rewrite !lval_testbit; auto.
  - destruct (Nat.lt_ge_cases (N.to_nat (i / 64)) (length l)).
    + now rewrite app_nth1.
    + rewrite app_nth2, nth_repeat by assumption. now rewrite (nth_overflow l).
  - apply Forall_app. split; [assumption|apply limbs_ok_repeat].
Qed.

Lemma variant_map_step_spec vec v : limbs_ok vec ->
  exists vec', variant_map_step md vec v = Ret vec' /\ limbs_ok vec' /\
    (0 < length vec')%nat /\
    forall i, N.testbit (lval vec') i = N.testbit (lval vec) i || (i =? snd v).
Proof.
  intros Hok. destruct v as [name d]. unfold variant_map_step. cbn [snd].
  set (idx := N.to_nat (d / 64)). set (vec1 := vec ++ repeat 0 (S idx - length vec)).
  assert (Hok1 : limbs_ok vec1) by (apply Forall_app; split; [assumption|apply limbs_ok_repeat]).
  assert (Hlen : (idx < length vec1)%nat) by (unfold vec1; rewrite app_length, repeat_length; lia).
  rewrite (get_nth vec1 idx 0) by assumption. rewrite bind_ret.
  rewrite shl_one by lia. rewrite bind_ret. rewrite set_ret by assumption.
  assert (Hx : N.lor (nth idx vec1 0) (2 ^ (d mod 64)) < 2 ^ 64).
  { apply lor_lt; [now apply limbs_ok_nth|]. apply N.pow_lt_mono_r; lia. }
  eexists. split; [reflexivity|]. split; [now apply upd_Forall|]. split; [rewrite upd_length; lia|].
  intros i. rewrite lval_upd_testbit by assumption.
  rewrite N.lor_spec, pow2_testbit. unfold vec1 at 2.
  destruct (N.eqb_spec (i / 64) (N.of_nat idx)) as [E|E].
  - assert (Hl : N.testbit (nth idx vec1 0) (i mod 64) = N.testbit (lval vec) i).
    { rewrite <- (testbit_app0 vec (S idx - length vec) i Hok). fold vec1. rewrite lval_testbit by assumption.
      now replace (N.to_nat (i / 64)) with idx by lia. }
    rewrite Hl. f_equal. destruct (N.eqb_spec (i mod 64) (d mod 64)), (N.eqb_spec i d); lia.
  - rewrite testbit_app0 by assumption. destruct (N.eqb_spec i d); [lia|]. now rewrite orb_false_r.
Qed.

Lemma variant_map_spec i : exists vm, variant_map md i = Ret vm /\ limbs_ok vm /\ (0 < length vm)%nat /\
  forall k, N.testbit (lval vm) k = true <-> In k (map snd (i_variants i)).
Proof.
  unfold variant_map.
  assert (Hgo : forall vs vec, limbs_ok vec -> (0 < length vec)%nat ->
    exists vm, for_each vs vec (fun v vec => variant_map_step md vec v) = Ret vm /\ limbs_ok vm /\ (0 < length vm)%nat /\
      forall k, N.testbit (lval vm) k = true <-> (N.testbit (lval vec) k = true \/ In k (map snd vs))).
  { induction vs as [|v vs IH]; intros vec Hok Hlen; cbn [for_each map].
    - exists vec. repeat split; auto. intros [H|[]]; assumption.
    - destruct (variant_map_step_spec vec v Hok) as (vec' & -> & Hok' & Hlen' & Hb). rewrite bind_ret.
      destruct (IH vec' Hok' Hlen') as (vm & E & H1 & H2 & H3). exists vm. repeat split; auto.
      + intros H. apply H3 in H. rewrite Hb in H. cbn [In]. rewrite orb_true_iff, N.eqb_eq in H.
        destruct H as [[H|H]|H]; auto.
      + intros H. apply H3. rewrite Hb, orb_true_iff, N.eqb_eq. cbn [In] in H. destruct H as [H|[H|H]]; auto. }
  destruct (Hgo (i_variants i) [0]) as (vm & E & H1 & H2 & H3).
  - constructor; [apply pow2_pos|constructor].
  - cbn. lia.
  - exists vm. repeat split; auto.
    + intros H. apply H3 in H. destruct H as [H|H]; [|assumption]. cbn [lval] in H. change (0 + 2 ^ 64 * 0) with 0 in H. rewrite N.bits_0 in H. discriminate.
    + intros H. apply H3. now right.
Qed.

(** ** Laws of the generated type *)
Record TyLaws (pw : N) (D : list N) (T : EnumTy) (val : eset T -> N)
       (irel : r_iter_t (et_repr T) -> list N -> Prop) : Prop := {
  tl_repr : ReprLaws pw (et_repr T) (r_ok (et_repr T)) val irel;
  tl_pw : et_pw T = pw;
  tl_pw_ok : pw = 16 \/ pw = 32 \/ pw = 64;
  tl_all_ok : r_ok (et_repr T) (et_all_bits T);
  tl_all : forall i, N.testbit (val (et_all_bits T)) i = true <-> In i D;
  tl_lit : forall lit, et_all_lit T = Some lit -> lit = val (et_all_bits T);
  tl_discrs : et_discrs T = D;
  tl_variants : map snd (et_variants T) = D;
  tl_nodup : NoDup D;
  tl_lt_width : forall d, In d D -> d < r_width (et_repr T);
  tl_max : forall d, In d D -> d <= MAXD;
  tl_lt_pw : forall d, In d D -> d < 2 ^ pw;
  tl_width_pw : r_width (et_repr T) <= 2 ^ pw;
  tl_count_pw : N.of_nat (length D) < 2 ^ pw;
  tl_const_only : forall d, In d D -> yields (r_ok (et_repr T)) val (et_const_only T d) (2 ^ d);
  tl_const_union : forall x y, r_ok (et_repr T) x -> r_ok (et_repr T) y ->
    yields (r_ok (et_repr T)) val (et_const_union T x y) (N.lor (val x) (val y));
  tl_const_intersection : forall x y, r_ok (et_repr T) x -> r_ok (et_repr T) y ->
    yields (r_ok (et_repr T)) val (et_const_intersection T x y) (N.land (val x) (val y));
  tl_const_symmetric_difference : forall x y, r_ok (et_repr T) x -> r_ok (et_repr T) y ->
    yields (r_ok (et_repr T)) val (et_const_symmetric_difference T x y) (N.lxor (val x) (val y));
  tl_const_complement : forall x, r_ok (et_repr T) x ->
    yields (r_ok (et_repr T)) val (et_const_complement T x) (N.ldiff (val (et_all_bits T)) (val x))
}.

Lemma rustc_discrs_from_length c vs : length (rustc_discrs_from c vs) = length vs.
Proof. revert c. induction vs; intros c; cbn; auto. Qed.
Lemma discrs_length inp : length (discrs inp) = length (in_variants inp).
Proof. apply rustc_discrs_from_length. Qed.
Lemma snd_combine {A B} (l : list A) (l' : list B) : length l = length l' -> map snd (combine l l') = l'.
Proof. revert l'. induction l; intros [|b l'] H; cbn in *; try congruence. f_equal. apply IHl. lia. Qed.
Lemma fst_combine {A B} (l : list A) (l' : list B) : length l = length l' -> map fst (combine l l') = l.
Proof. revert l'. induction l; intros [|b l'] H; cbn in *; try congruence. f_equal. apply IHl. lia. Qed.

Lemma info_variants inp i : InfoOk inp i -> map snd (i_variants i) = discrs inp.
Proof.
  intros H. rewrite (io_variants _ _ H). apply snd_combine. unfold names. now rewrite map_length, discrs_length.
Qed.
Lemma info_names inp i : InfoOk inp i -> map fst (i_variants i) = names (in_variants inp).
Proof.
  intros H. rewrite (io_variants _ _ H). apply fst_combine. unfold names. now rewrite map_length, discrs_length.
Qed.
Lemma info_count inp i : InfoOk inp i -> length (i_variants i) = length (in_variants inp).
Proof. intros H. rewrite <- (discrs_length inp), <- (info_variants _ _ H). now rewrite map_length. Qed.

Lemma lval_lt_of_bits vm w : limbs_ok vm -> (forall k, N.testbit (lval vm) k = true -> k < w) -> lval vm < 2 ^ w.
Proof.
  intros Hok H. apply lt_pow2_of_bits. intros i Hi. destruct (N.testbit (lval vm) i) eqn:E; [|reflexivity].
  apply H in E. lia.
Qed.
Lemma lval_nth0 vm : limbs_ok vm -> lval vm < 2 ^ 64 -> nth 0 vm 0 = lval vm.
Proof. intros Hok H. rewrite <- (limb_lval vm 0 Hok), limb0. now apply wrap_small. Qed.

Lemma prim_ty_laws pw w pl lit i inp : prim_ok w pl -> pw = 16 \/ pw = 32 \/ pw = 64 ->
  WellFormed inp -> InfoOk inp i -> max_discr inp < w ->
  (forall d, In d (discrs inp) -> d < 2 ^ pw) -> N.of_nat (length (in_variants inp)) < 2 ^ pw ->
  lit < 2 ^ w -> (forall k, N.testbit lit k = true <-> In k (discrs inp)) ->
  exists irel, TyLaws pw (discrs inp) (prim_ty md pw w pl lit i (in_variants inp)) (fun x => x) irel.
Proof.
  intros Hok Hpw HW Hi Hmax Hd Hc Hlit Hbits. exists (p_irel w).
  assert (HdW : forall d, In d (discrs inp) -> d < w).
  { intros d H. apply max_ge in H. fold (max_discr inp) in H. lia. }
  constructor; cbn.
  - exact (prim_laws pw w pl Hok).
  - reflexivity.
  - assumption.
  - assumption.
  - assumption.
  - congruence.
  - reflexivity.
  - now apply info_variants.
  - apply HW.
  - assumption.
  - apply HW.
  - assumption.
  - assert (2 ^ 16 <= 2 ^ pw) by (apply N.pow_le_mono_r; lia). change (2 ^ 16) with 65536 in *.
    destruct Hok; lia.
  - now rewrite discrs_length.
  - intros d Hin. unfold prim_const_only.
    destruct (Nat.eqb_spec (length (i_variants i)) 0) as [E|E].
    { exfalso. apply length_zero_iff_nil in E. pose proof (info_variants _ _ Hi) as Hv. rewrite E in Hv. cbn in Hv.
      rewrite <- Hv in Hin. destruct Hin. }
    rewrite wrap_small by (apply lt_pow_self; auto). rewrite shl_one by auto.
    eexists. split; [reflexivity|]. split; [|reflexivity]. apply N.pow_lt_mono_r; [lia|auto].
  - intros x y Hx Hy. eexists; repeat split. now apply lor_lt.
  - intros x y Hx Hy. eexists; repeat split. now apply land_lt.
  - intros x y Hx Hy. eexists; repeat split. now apply lxor_lt.
  - intros x Hx. unfold prim_const_complement. eexists; repeat split.
    + now apply land_lt, bnot_lt.
    + rewrite N.land_comm. now apply land_bnot_ldiff.
Qed.

Lemma array_const_complement_spec n all x : a_wf n all -> a_wf n x ->
  yields (a_wf n) lval (array_const_complement n all x) (N.ldiff (lval all) (lval x)).
Proof.
  intros Ha Hx. apply (a_op_spec n (fun a b => N.ldiff b a) x all _ _ (fun a b => b && negb a) Hx Ha).
  - unfold array_const_complement.
    assert (Hgo : exists z, for_each (range 0 n) x (fun i chain => a <- get chain i ;; b <- get all i ;; set chain i (N.land (bnot 64 a) b)) = Ret z
       /\ length z = n /\ forall j, (j < n)%nat -> nth j z 0 = N.land (bnot 64 (nth j x 0)) (nth j all 0)).
    { apply (for_range_upd n (fun i a => N.land (bnot 64 a) (nth i all 0))); [apply Hx|].
      intros i m Hm Hi. destruct Ha as [La Oa]. rewrite (get_nth m i 0) by lia. rewrite bind_ret.
      rewrite (get_nth all i 0) by lia. rewrite bind_ret. apply set_ret. lia. }
    destruct Hgo as (z & E & L & En). exists z. split; [exact E|]. split; [exact L|].
    intros j Hj. rewrite En by assumption. rewrite N.land_comm. apply land_bnot_ldiff; eapply a_wf_nth; eassumption.
  - intros. now apply ldiff_lt.
  - intros. apply N.ldiff_spec.
  - apply ldiff_lt, wf_val_lt, Ha.
  - intros. apply N.ldiff_spec.
Qed.

Lemma array_const_only_spec pw n d : d < 64 * N.of_nat n -> d < 2 ^ pw -> d < 2 ^ 32 ->
  yields (a_wf n) lval (array_const_only md pw n d) (2 ^ d).
Proof.
  intros Hd Hp H32. unfold array_const_only. rewrite !(wrap_small 32) by assumption. rewrite wrap_small by assumption.
  assert (Hw0 : a_wf n (repeat 0 n)) by (split; [apply repeat_length|apply limbs_ok_repeat]).
  rewrite (get_nth _ _ 0) by (rewrite repeat_length; lia). rewrite bind_ret.
  rewrite shl_one by lia. rewrite bind_ret. rewrite set_ret by (rewrite repeat_length; lia).
  rewrite nth_repeat, N.lor_0_l.
  assert (Hlt : 2 ^ (d mod 64) < 2 ^ 64) by (apply N.pow_lt_mono_r; lia).
  eexists. split; [reflexivity|]. split; [now apply a_wf_upd|].
  apply bit_eq. intros i. rewrite lval_upd_testbit; [|apply Hw0|assumption|rewrite repeat_length; lia].
  rewrite lval_repeat0, N.bits_0, !pow2_testbit.
  destruct (N.eqb_spec (i / 64) (N.of_nat (N.to_nat (d / 64)))), (N.eqb_spec (i mod 64) (d mod 64)), (N.eqb_spec i d);
    try reflexivity; lia.
Qed.

Lemma array_ty_laws pw n all i inp : pw = 16 \/ pw = 32 \/ pw = 64 ->
  WellFormed inp -> InfoOk inp i -> n = N.to_nat ((max_discr inp + 64) / 64) ->
  (forall d, In d (discrs inp) -> d < 2 ^ pw) -> N.of_nat (length (in_variants inp)) < 2 ^ pw ->
  a_wf n all -> (forall k, N.testbit (lval all) k = true <-> In k (discrs inp)) ->
  exists irel, TyLaws pw (discrs inp) (array_ty md pw n all i (in_variants inp)) lval irel.
Proof.
  intros Hpw HW Hi Hn Hd Hc Hall Hbits. exists (a_irel n).
  assert (HdM : forall d, In d (discrs inp) -> d <= max_discr inp) by (intros d H; now apply max_ge).
  assert (HM : max_discr inp <= MAXD) by (apply max_le, HW). unfold MAXD in HM.
  assert (H32 : 64 * N.of_nat n < 2 ^ 32) by (change (2 ^ 32) with 4294967296; lia).
  assert (HdW : forall d, In d (discrs inp) -> d < 64 * N.of_nat n).
  { intros d H. apply HdM in H. lia. }
  assert (Hw : a_width n = 64 * N.of_nat n) by (unfold a_width; lia).
  constructor; cbn; rewrite ?Hw.
  - apply (array_laws pw n); [lia|assumption|lia].
  - reflexivity.
  - assumption.
  - assumption.
  - assumption.
  - discriminate.
  - reflexivity.
  - now apply info_variants.
  - apply HW.
  - assumption.
  - apply HW.
  - assumption.
  - assert (Hm : max_discr inp < 2 ^ pw).
    { unfold max_discr. destruct (discrs inp) as [|d0 ds] eqn:E; [apply pow2_pos|].
      apply Hd. apply max_in. discriminate. }
    destruct Hpw as [->|[->| ->]];
      [change (2 ^ 16) with 65536 in *|change (2 ^ 32) with 4294967296 in *|change (2 ^ 64) with 18446744073709551616 in *]; lia.
  - now rewrite discrs_length.
  - intros d Hin. apply array_const_only_spec; auto. specialize (HdW d Hin). lia.
  - apply a_bitor_spec.
  - apply a_bitand_spec.
  - apply a_bitxor_spec.
  - intros x Hx. now apply array_const_complement_spec.
Qed.

(** ** The chosen storage *)
Lemma vm_limbs vm n : limbs_ok vm -> map (fun k => nth k vm 0) (range 0 n) = limbs n (lval vm).
Proof.
  intros H. unfold limbs, range. rewrite Nat.sub_0_r. apply map_ext. intros k. symmetry. now apply limb_lval.
Qed.

(** The representation chosen for an accepted enum, as the code computes it. *)
Definition chosen (inp : derive_input) : internal_repr :=
  match repr_attr inp with
  | Some r => r
  | None =>
      let x := max_discr inp in
      if (x <? 8) && negb (force_attr inp) then IU8
      else if (x <? 16) && negb (force_attr inp) then IU16
      else if (x <? 32) && negb (force_attr inp) then IU32
      else if (x <? 64) && negb (force_attr inp) then IU64
      else IArray (N.to_nat ((x + 64) / 64))
  end.
Lemma internal_repr_chosen inp i : InfoOk inp i -> internal_repr_of i = chosen inp.
Proof.
  intros H. unfold internal_repr_of, chosen. rewrite (io_internal _ _ H), (io_max _ _ H), (io_force _ _ H). reflexivity.
Qed.

(** Shape of the generated type. *)
Inductive Generated (pw : N) (inp : derive_input) (i : info) : EnumTy -> Prop :=
| Gen_prim w pl lit : prim_ok w pl -> ir_supported (chosen inp) = w -> max_discr inp < w ->
    lit < 2 ^ w -> (forall k, N.testbit lit k = true <-> In k (discrs inp)) ->
    match chosen inp with
    | IU8 => w = 8 /\ pl = 1%nat | IU16 => w = 16 /\ pl = 1%nat | IU32 => w = 32 /\ pl = 1%nat
    | IU64 => w = 64 /\ pl = 1%nat | IU128 => w = 128 /\ pl = 2%nat | IArray _ => False
    end ->
    Generated pw inp i (prim_ty md pw w pl lit i (in_variants inp))
| Gen_array n all : chosen inp = IArray n -> n = N.to_nat ((max_discr inp + 64) / 64) ->
    a_wf n all -> (forall k, N.testbit (lval all) k = true <-> In k (discrs inp)) ->
    Generated pw inp i (array_ty md pw n all i (in_variants inp)).

Lemma repr_attr_not_array inp n : repr_attr inp <> Some (IArray n).
Proof. unfold repr_attr, ir_of_name. destruct (at_repr (in_attrs inp)); [|discriminate]. str_cases; discriminate. Qed.

Lemma chosen_fits inp : WellFormed inp -> max_discr inp < ir_supported (chosen inp).
Proof.
  intros HW. unfold chosen. destruct (repr_attr inp) as [r|] eqn:Er.
  - unfold repr_attr in Er. destruct (at_repr (in_attrs inp)) as [s|] eqn:Es; [|discriminate].
    pose proof (name_bits_ir s) as Hb. rewrite Er in Hb. eapply (wf_repr_fits _ HW); [exact Es|exact Hb].
  - set (x := max_discr inp).
    destruct (N.ltb_spec x 8), (N.ltb_spec x 16), (N.ltb_spec x 32), (N.ltb_spec x 64), (force_attr inp);
    cbn [andb negb ir_supported]; lia.
Qed.

Lemma generated_spec pw inp i : WellFormed inp -> InfoOk inp i ->
  exists T, enum_set_type_impl md pw i (in_variants inp) = Ret T /\ Generated pw inp i T.
Proof.
  intros HW Hi. unfold enum_set_type_impl.
  destruct (variant_map_spec i) as (vm & -> & Hok & Hlen & Hb). rewrite bind_ret.
  rewrite (info_variants _ _ Hi) in Hb.
  rewrite (internal_repr_chosen _ _ Hi).
  pose proof (chosen_fits inp HW) as Hfit.
  assert (HdM : forall d, In d (discrs inp) -> d <= max_discr inp) by (intros d H; now apply max_ge).
  assert (Hlt : lval vm < 2 ^ ir_supported (chosen inp)).
  { apply lval_lt_of_bits; [assumption|]. intros k Hk. apply Hb, HdM in Hk. lia. }
  assert (H0 : forall w, w <= 64 -> lval vm < 2 ^ w -> get vm 0 = Ret (lval vm)).
  { intros w Hw Hl. rewrite (get_nth vm 0 0) by assumption. rewrite lval_nth0; auto.
    eapply N.lt_le_trans; [exact Hl|]. apply N.pow_le_mono_r; lia. }
  destruct (chosen inp) as [| | | | |n] eqn:Ec; cbn [ir_supported] in *.
  - rewrite (H0 8), bind_ret by (lia || assumption). eexists. split; [reflexivity|].
    apply Gen_prim; rewrite ?Ec; auto. left. lia.
  - rewrite (H0 16), bind_ret by (lia || assumption). eexists. split; [reflexivity|].
    apply Gen_prim; rewrite ?Ec; auto. left. lia.
  - rewrite (H0 32), bind_ret by (lia || assumption). eexists. split; [reflexivity|].
    apply Gen_prim; rewrite ?Ec; auto. left. lia.
  - rewrite (H0 64), bind_ret by (lia || assumption). eexists. split; [reflexivity|].
    apply Gen_prim; rewrite ?Ec; auto. left. lia.
  - rewrite (get_nth vm 0 0) by assumption. rewrite bind_ret.
    assert (E : (hi <- match nth_error vm 1 with Some x => shl 128 x 64 | None => Ret 0 end ;;
                 Ret (prim_ty md pw 128 2 (N.lor (nth 0 vm 0) hi) i (in_variants inp)))
              = Ret (prim_ty md pw 128 2 (lval vm) i (in_variants inp))).
    { destruct vm as [|v0 [|v1 vm]]; [cbn in Hlen; lia| |].
      - cbn [nth_error nth bind lval]. now rewrite N.lor_0_r, N.mul_0_r, N.add_0_r.
      - cbn [nth_error nth]. pose proof (p_join_spec v0 v1 vm Hok) as Hj. unfold p_join, get in Hj. cbn [nth_error] in Hj.
        rewrite !bind_ret in Hj. destruct (shl 128 v1 64) as [h| | |]; cbn [bind] in *; try discriminate.
        rewrite N.mod_small in Hj by assumption. inversion Hj as [Hj']. rewrite Hj'. reflexivity. }
    rewrite E. eexists. split; [reflexivity|]. apply Gen_prim; rewrite ?Ec; auto. right. auto.
  - rewrite vm_limbs by assumption. eexists. split; [reflexivity|].
    assert (Hn : n = N.to_nat ((max_discr inp + 64) / 64)).
    { unfold chosen in Ec. destruct (repr_attr inp) as [r|] eqn:Er.
      - subst r. now apply repr_attr_not_array in Er.
      - repeat match type of Ec with (if ?b then _ else _) = _ => destruct b; [discriminate|] end. now inversion Ec. }
    apply Gen_array; auto; try apply limbs_wf.
    intros k. rewrite lval_limbs, wrap_small; [apply Hb|]. replace (64 * N.of_nat n) with (N.of_nat n * 64) by lia. assumption.
Qed.

(** ** The whole derive *)
Theorem derive_spec pw inp :
  exists r, derive md pw inp = Ret r /\
    match r with
    | Ok T => WellFormed inp /\ exists i, InfoOk inp i /\ Generated pw inp i T
    | Err (e, sp) => first_of (Violation inp) e sp
    end.
Proof.
  unfold derive. destruct (derive_info_spec inp) as (r & -> & Hr). rewrite bind_ret.
  destruct r as [i|[e sp]]; cbn [try_].
  - destruct Hr as [HW Hi]. destruct (generated_spec pw inp i HW Hi) as (T & -> & HT). rewrite bind_ret.
    eexists. split; [reflexivity|]. split; [assumption|]. exists i. auto.
  - eexists. split; [reflexivity|]. assumption.
Qed.

Lemma derive_ok pw inp T : derive md pw inp = Ret (Ok T) ->
  WellFormed inp /\ exists i, InfoOk inp i /\ Generated pw inp i T.
Proof.
  intros H. destruct (derive_spec pw inp) as (r & E & Hr). rewrite E in H. inversion H; subst. exact Hr.
Qed.

End TyFacts.

Theorem supported_laws pw inp T : Supported pw inp T ->
  exists val irel, TyLaws pw (discrs inp) T val irel.
Proof.
  intros [Hpw [md Hd] Hdis Hcnt]. destruct (derive_ok pw inp T Hd) as (HW & i & Hi & HG).
  destruct HG as [w pl lit Hok Hw Hmax Hlit Hb _|n all Hc Hn Hall Hb].
  - exists (fun x => x). now apply prim_ty_laws.
  - exists lval. now apply array_ty_laws.
Qed.

(** * The integer storages satisfy [ReprLaws] *)
From Verif Require Import Base BaseFacts LimbFacts Prim ArrayRepr Repr ReprLaws.
Ltac Zify.zify_post_hook ::= Z.div_mod_to_equations.

Section PrimFacts.
Context {md : build}.

Definition prim_ok (w : N) (pl : nat) : Prop := (pl = 1%nat /\ 8 <= w <= 64) \/ (pl = 2%nat /\ w = 128).

Lemma setbit_eq x b : N.lor x (2 ^ b) = N.setbit x b.
Proof. reflexivity || (unfold N.setbit; now rewrite N.shiftl_1_l). Qed.

Lemma clearbit_eq w x b : b < w -> N.land x (bnot w (2 ^ b)) = N.clearbit x b \/ ~ x < 2 ^ w.
Proof.
  intros Hb. destruct (N.lt_ge_cases x (2 ^ w)) as [Hx|]; [left|right; lia].
  assert (Hp : 2 ^ b < 2 ^ w) by (apply N.pow_lt_mono_r; lia).
  apply bit_eq. intros i. rewrite N.land_spec, bnot_testbit, N.clearbit_eqb, pow2_testbit by assumption.
  rewrite (N.eqb_sym b i).
  destruct (N.ltb_spec i w); [reflexivity|]. now rewrite (testbit_high x w i).
Qed.

Lemma lt_pow_self b w : b < w -> b < 2 ^ w.
Proof. intros H. pose proof (N.pow_gt_lin_r 2 w). lia. Qed.

Lemma p_add_bit_spec w x b : b < w -> p_add_bit w x b = Ret (N.setbit x b).
Proof.
  intros Hb. unfold p_add_bit. rewrite wrap_small by now apply lt_pow_self.
  rewrite shl_one by assumption. rewrite bind_ret. now rewrite setbit_eq.
Qed.
Lemma p_remove_bit_spec w x b : b < w -> x < 2 ^ w -> p_remove_bit w x b = Ret (N.clearbit x b).
Proof.
  intros Hb Hx. unfold p_remove_bit. rewrite wrap_small by now apply lt_pow_self.
  rewrite shl_one by assumption. rewrite bind_ret.
  destruct (clearbit_eq w x b Hb) as [->|]; [reflexivity|contradiction].
Qed.
Lemma p_has_bit_spec w x b : b < w -> p_has_bit w x b = Ret (N.testbit x b).
Proof.
  intros Hb. unfold p_has_bit. rewrite wrap_small by now apply lt_pow_self.
  rewrite shl_one by assumption. rewrite bind_ret, land_pow2_zero. now rewrite negb_involutive.
Qed.

Lemma setbit_lt w x b : b < w -> x < 2 ^ w -> N.setbit x b < 2 ^ w.
Proof.
  intros Hb Hx. rewrite <- setbit_eq. apply lor_lt; [assumption|]. apply N.pow_lt_mono_r; lia.
Qed.
Lemma clearbit_lt w x b : x < 2 ^ w -> N.clearbit x b < 2 ^ w.
Proof.
  intros Hx. apply lt_pow2_of_bits. intros i Hi. rewrite N.clearbit_eqb, (testbit_high x w i); auto.
Qed.
Lemma ldiff_lt w x y : x < 2 ^ w -> N.ldiff x y < 2 ^ w.
Proof.
  intros Hx. apply lt_pow2_of_bits. intros i Hi. rewrite N.ldiff_spec, (testbit_high x w i); auto.
Qed.

Lemma land_bnot_ldiff w x y : x < 2 ^ w -> y < 2 ^ w -> N.land x (bnot w y) = N.ldiff x y.
Proof.
  intros Hx Hy. apply bit_eq. intros i. rewrite N.land_spec, bnot_testbit, N.ldiff_spec by assumption.
  destruct (N.ltb_spec i w); [reflexivity|]. now rewrite (testbit_high x w i).
Qed.

(** ** The iterator over one integer *)
Lemma ctz_lt w x : x <> 0 -> x < 2 ^ w -> u_trailing_zeros w x < w.
Proof.
  intros Hz Hx. destruct (ctz_spec w x Hz) as [H _].
  destruct (N.lt_ge_cases (u_trailing_zeros w x) w); [assumption|].
  rewrite (testbit_high x w) in H; [discriminate|assumption|assumption].
Qed.

Lemma clearbit_bits x b i : N.testbit (N.clearbit x b) i = N.testbit x i && negb (i =? b).
Proof. rewrite N.clearbit_eqb. now rewrite N.eqb_sym. Qed.

Lemma p_iter_next_spec w x : x < 2 ^ w ->
  exists x', p_iter_next w x = Ret (hd_error (bits_of x), x') /\ x' < 2 ^ w /\ bits_of x' = tl (bits_of x).
Proof.
  intros Hx. unfold p_iter_next, p_is_empty. destruct (N.eqb_spec x 0) as [->|Hz].
  - exists 0. repeat split. apply pow2_pos.
  - unfold p_trailing_zeros.
    pose proof (ctz_lt w x Hz Hx) as Hlt. destruct (ctz_spec w x Hz) as [H1 H2].
    rewrite p_remove_bit_spec by assumption. rewrite bind_ret.
    destruct (bits_of_first x _ H1 H2) as (l & E). rewrite E.
    exists (N.clearbit x (u_trailing_zeros w x)). repeat split.
    + now apply clearbit_lt.
    + cbn [tl]. eapply bits_of_cons; [exact E|]. intros i. apply clearbit_bits.
Qed.

Lemma p_iter_next_back_spec w x b l : 0 < w -> x < 2 ^ w -> bits_of x = l ++ [b] ->
  exists x', p_iter_next_back w x = Ret (Some b, x') /\ x' < 2 ^ w /\ bits_of x' = l.
Proof.
  intros Hw Hx E. unfold p_iter_next_back, p_is_empty. destruct (N.eqb_spec x 0) as [->|Hz].
  { destruct l; discriminate. }
  pose proof (size_bound w x Hx) as Hs. pose proof (N.size_log2 x Hz) as Hsz.
  unfold p_leading_zeros, u_leading_zeros, csub.
  rewrite (proj2 (N.leb_le 1 w)) by lia. rewrite bind_ret.
  rewrite (proj2 (N.leb_le (w - N.size x) (w - 1))) by lia. rewrite bind_ret.
  replace (w - 1 - (w - N.size x)) with (N.log2 x) by lia.
  rewrite p_remove_bit_spec by lia. rewrite bind_ret.
  destruct (bits_of_last x (N.log2 x)) as (l' & E').
  { now apply N.bit_log2. } { intros i Hi. now apply N.bits_above_log2. }
  rewrite E in E'. apply app_inj_tail in E'. destruct E' as [-> ->].
  exists (N.clearbit x (N.log2 x)). repeat split.
  - now apply clearbit_lt.
  - eapply bits_of_snoc; [exact E|]. intros i. apply clearbit_bits.
Qed.

(** ** Conversions to and from limbs *)
Lemma p_lo_limb x : p_lo x = limb x 0.
Proof. unfold p_lo. now rewrite limb0. Qed.
Lemma p_hi_limb x : x < 2 ^ 128 -> p_hi x = limb x 1.
Proof.
  intros H. unfold p_hi, limb. rewrite (wrap_small 128) by assumption.
  rewrite N.shiftr_div_pow2. reflexivity.
Qed.
Lemma prim_lt128 w pl x : prim_ok w pl -> x < 2 ^ w -> x < 2 ^ 128.
Proof. intros H Hx. eapply N.lt_le_trans; [exact Hx|]. apply N.pow_le_mono_r; destruct H; lia. Qed.
Lemma prim_limb_high w pl x i : prim_ok w pl -> x < 2 ^ w -> (pl <= i)%nat -> limb x i = 0.
Proof.
  intros H Hx Hi. apply limb_small. eapply N.lt_le_trans; [exact Hx|].
  apply N.pow_le_mono_r; destruct H; lia.
Qed.

Lemma p_to_u64_array_spec w pl x k : prim_ok w pl -> x < 2 ^ w ->
  p_to_u64_array pl x k = Ret (limbs k x).
Proof.
  intros Hok Hx. unfold p_to_u64_array.
  pose proof (prim_lt128 w pl x Hok Hx) as H128.
  destruct k as [|k]; [reflexivity|].
  rewrite (proj2 (Nat.ltb_lt 0 (S k))) by lia.
  rewrite set_ret by (rewrite repeat_length; lia). rewrite bind_ret.
  destruct (Nat.ltb_spec 1 (S k)) as [Hk|Hk]; cbn [andb].
  - destruct (Nat.eqb_spec pl 2) as [->|Hpl].
    + rewrite set_ret by (rewrite upd_length, repeat_length; lia). rewrite bind_ret. f_equal.
      apply list_ext. { now rewrite !upd_length, repeat_length, limbs_length. }
      intros i Hi. rewrite !upd_length, repeat_length in Hi.
      rewrite !nth_upd, limbs_nth, !upd_length, repeat_length, nth_repeat, p_lo_limb, (p_hi_limb _ H128).
      destruct (Nat.ltb_spec i (S k)); [|lia].
      destruct (Nat.eqb_spec i 1), (Nat.ltb_spec 1 (S k)), (Nat.eqb_spec i 0), (Nat.ltb_spec 0 (S k));
        cbn; subst; try lia; auto.
      symmetry. apply prim_limb_high with w 2%nat; auto; lia.
    + rewrite bind_ret. f_equal. apply list_ext. { now rewrite upd_length, repeat_length, limbs_length. }
      intros i Hi. rewrite !upd_length, repeat_length in Hi.
      rewrite !nth_upd, limbs_nth, repeat_length, nth_repeat, p_lo_limb.
      destruct (Nat.ltb_spec i (S k)); [|lia].
      destruct (Nat.eqb_spec i 0), (Nat.ltb_spec 0 (S k)); cbn; subst; try lia; auto.
      symmetry. apply prim_limb_high with w pl; auto; destruct Hok; lia.
  - replace k with 0%nat by lia. rewrite bind_ret. cbn. now rewrite p_lo_limb.
Qed.

Lemma lt_pow_limb1 x : x < 2 ^ 128 -> (limb x 1 =? 0) = (x <? 2 ^ 64).
Proof.
  intros H. unfold limb. change (64 * N.of_nat 1) with 64.
  rewrite N.mod_small.
  - destruct (N.ltb_spec x (2 ^ 64)).
    + rewrite N.div_small by assumption. reflexivity.
    + apply N.eqb_neq. intros E. apply N.div_small_iff in E; [lia|]. apply N.pow_nonzero. lia.
  - apply N.div_lt_upper_bound; [apply N.pow_nonzero; lia|]. exact H.
Qed.

Lemma p_fits_spec w pl x k : prim_ok w pl -> x < 2 ^ w ->
  (x <? 2 ^ (64 * N.of_nat k)) =
  negb ((Nat.eqb k 0 && negb (x =? 0)) || (Nat.eqb k 1 && negb (p_hi x =? 0))).
Proof.
  intros Hok Hx. pose proof (prim_lt128 w pl x Hok Hx) as H128.
  destruct k as [|[|k]]; cbn [Nat.eqb andb].
  - change (2 ^ (64 * N.of_nat 0)) with 1. rewrite orb_false_r, negb_involutive. 
    destruct (N.ltb_spec x 1), (N.eqb_spec x 0); lia.
  - rewrite p_hi_limb, lt_pow_limb1 by assumption. cbn [orb]. rewrite negb_involutive. reflexivity.
  - cbn. apply N.ltb_lt. eapply N.lt_le_trans; [exact H128|]. apply N.pow_le_mono_r; lia.
Qed.

Lemma p_to_u64_array_opt_spec w pl x k : prim_ok w pl -> x < 2 ^ w ->
  p_to_u64_array_opt pl x k = Ret (if x <? 2 ^ (64 * N.of_nat k) then Some (limbs k x) else None).
Proof.
  intros Hok Hx. unfold p_to_u64_array_opt. rewrite (p_fits_spec w pl x k Hok Hx).
  rewrite (p_to_u64_array_spec w pl x k Hok Hx).
  destruct (Nat.eqb k 0 && negb (x =? 0)); [reflexivity|].
  destruct (Nat.eqb k 1 && negb (p_hi x =? 0)); reflexivity.
Qed.

Lemma p_to_u64_slice_spec w pl x out : prim_ok w pl -> x < 2 ^ w ->
  p_to_u64_slice pl x out = Ret (limbs (length out) x).
Proof.
  intros Hok Hx. unfold p_to_u64_slice. pose proof (prim_lt128 w pl x Hok Hx) as H128.
  destruct out as [|o0 out]. { destruct Hok as [[-> _]|[-> _]]; reflexivity. }
  set (out0 := o0 :: out). assert (Hlen : length out0 = S (length out)) by reflexivity.
  rewrite (proj2 (Nat.ltb_lt 0 (length out0))) by lia.
  rewrite set_ret by lia. rewrite bind_ret, upd_length.
  destruct (Nat.ltb_spec 1 (length out0)) as [H1|H1]; cbn [andb].
  - assert (Hgo : forall m, length m = length out0 ->
      exists m', for_each (range pl (length m)) m (fun i out => set out i 0) = Ret m' /\ length m' = length out0 /\
        forall j, nth j m' 0 = if Nat.leb pl j then 0 else nth j m 0).
    { intros m Hm. unfold range.
      destruct (for_each_upd (fun _ _ => 0) (fun i out => set out i 0) pl (length m - pl) m) as (m' & E1 & E2 & E3).
      - intros i m' Hm' Hi. apply set_ret. lia.
      - destruct Hok; lia.
      - exists m'. split; [exact E1|]. split; [lia|]. intros j. rewrite E3.
        destruct (Nat.leb_spec pl j); cbn [andb]; [|reflexivity].
        destruct (Nat.ltb_spec j (pl + (length m - pl))); [reflexivity|].
        apply nth_overflow. destruct Hok; lia. }
    destruct (Nat.eqb_spec pl 2) as [->|Hpl].
    + rewrite set_ret by (rewrite upd_length; lia). rewrite bind_ret.
      destruct (Hgo (upd (upd out0 0 (p_lo x)) 1 (p_hi x))) as (m' & E1 & E2 & E3).
      { now rewrite !upd_length. }
      rewrite E1. f_equal. apply list_ext. { now rewrite limbs_length. }
      intros i Hi. rewrite E3, limbs_nth, !nth_upd, !upd_length, p_lo_limb, (p_hi_limb _ H128).
      destruct (Nat.ltb_spec i (length out0)); [|lia].
      destruct (Nat.leb_spec 2 i), (Nat.eqb_spec i 1), (Nat.ltb_spec 1 (length out0)), (Nat.eqb_spec i 0),
        (Nat.ltb_spec 0 (length out0)); cbn; subst; try lia; auto.
      symmetry. apply prim_limb_high with w 2%nat; auto; lia.
    + rewrite bind_ret.
      destruct (Hgo (upd out0 0 (p_lo x))) as (m' & E1 & E2 & E3). { now rewrite !upd_length. }
      rewrite upd_length in E1.
      rewrite upd_length, E1. f_equal. apply list_ext. { now rewrite limbs_length. }
      intros i Hi. rewrite E3, limbs_nth, !nth_upd, p_lo_limb.
      destruct (Nat.ltb_spec i (length out0)); [|lia].
      destruct (Nat.leb_spec pl i), (Nat.eqb_spec i 0), (Nat.ltb_spec 0 (length out0)); cbn; subst; try lia; auto.
      * destruct Hok; lia.
      * symmetry. apply prim_limb_high with w pl; auto.
      * destruct Hok; lia.
  - assert (out = []) as -> by (destruct out; [reflexivity|exfalso; cbn [length] in *; lia]). rewrite bind_ret. cbn. rewrite p_lo_limb.
    destruct Hok as [[-> _]|[-> _]]; reflexivity.
Qed.

Lemma p_to_u64_slice_opt_spec w pl x out : prim_ok w pl -> x < 2 ^ w ->
  p_to_u64_slice_opt pl x out =
    Ret (if x <? 2 ^ (64 * N.of_nat (length out)) then (Some tt, limbs (length out) x) else (None, out)).
Proof.
  intros Hok Hx. unfold p_to_u64_slice_opt. rewrite (p_fits_spec w pl x _ Hok Hx).
  rewrite (p_to_u64_slice_spec w pl x out Hok Hx).
  destruct (Nat.eqb (length out) 0 && negb (x =? 0)); [reflexivity|].
  destruct (Nat.eqb (length out) 1 && negb (p_hi x =? 0)); reflexivity.
Qed.

Lemma p_join_spec v0 v1 r : limbs_ok (v0 :: v1 :: r) ->
  p_join (v0 :: v1 :: r) = Ret (lval (v0 :: v1 :: r) mod 2 ^ 128).
Proof.
  intros H. assert (H0 : v0 < 2 ^ 64) by now inversion H.
  assert (H1 : v1 < 2 ^ 64) by (inversion H; now apply Forall_inv in H4).
  unfold p_join. cbn [get nth_error]. unfold get. cbn [nth_error]. rewrite !bind_ret. unfold shl.
  change (64 <? 128) with true. cbn [bind]. f_equal.
  assert (E : wrap 128 (N.shiftl v1 64) = 2 ^ 64 * v1).
  { rewrite N.shiftl_mul_pow2, N.mul_comm. apply wrap_small.
    change (2 ^ 128) with (2 ^ 64 * 2 ^ 64). apply N.mul_lt_mono_pos_l; [apply pow2_pos|assumption]. }
  rewrite E. cbn [lval].
  apply bit_eq. intros i. change (?a mod 2 ^ 128) with (wrap 128 a). rewrite wrap_testbit.
  rewrite N.lor_spec.
  rewrite (add_split_testbit 64 v0 (v1 + 2 ^ 64 * lval r)) by assumption.
  replace (2 ^ 64 * v1) with (0 + 2 ^ 64 * v1) by lia.
  rewrite (add_split_testbit 64 0 v1) by apply pow2_pos.
  destruct (N.ltb_spec i 64).
  - rewrite N.bits_0, orb_false_r. destruct (N.ltb_spec i 128); [now rewrite andb_true_r|lia].
  - rewrite (testbit_high v0 64 i) by assumption. cbn [orb].
    rewrite (add_split_testbit 64 v1 (lval r)) by assumption.
    destruct (N.ltb_spec (i - 64) 64), (N.ltb_spec i 128); try lia.
    + now rewrite andb_true_r.
    + rewrite andb_false_r. apply testbit_high with 64; assumption.
Qed.

Lemma wrap_wrap_le a b x : a <= b -> wrap a (wrap b x) = wrap a x.
Proof.
  intros H. apply bit_eq. intros i. rewrite !wrap_testbit.
  destruct (N.ltb_spec i a), (N.ltb_spec i b); rewrite ?andb_true_r, ?andb_false_r; auto; lia.
Qed.

Lemma p_from_limbs_spec w pl v : prim_ok w pl -> limbs_ok v ->
  (if Nat.eqb (length v) 0 then Ret 0
   else if Nat.ltb 1 (length v) && Nat.eqb pl 2 then x <- p_join v ;; Ret (p_from w x)
   else v0 <- get v 0 ;; Ret (p_from w v0)) = Ret (lval v mod 2 ^ w).
Proof.
  intros Hok Hv. destruct v as [|v0 v].
  - cbn [length Nat.eqb lval]. now rewrite N.mod_0_l by (apply N.pow_nonzero; lia).
  - cbn [length Nat.eqb]. destruct v as [|v1 v].
    + cbn [length lval]. rewrite (proj2 (Nat.ltb_ge 1 1)) by lia. cbn [andb]. unfold get. cbn. unfold p_from, wrap.
      now rewrite N.mul_0_r, N.add_0_r.
    + rewrite (proj2 (Nat.ltb_lt 1 _)) by (cbn; lia). cbn [andb].
      destruct (Nat.eqb_spec pl 2) as [->|Hpl].
      * rewrite p_join_spec by assumption. rewrite bind_ret. f_equal. unfold p_from.
        change (?a mod 2 ^ 128) with (wrap 128 a). rewrite wrap_wrap_le; [reflexivity|].
        destruct Hok; lia.
      * unfold get. cbn. f_equal. unfold p_from. cbn [lval].
        assert (H0 : v0 < 2 ^ 64) by now inversion Hv.
        apply bit_eq. intros i. change (?a mod 2 ^ w) with (wrap w a). rewrite !wrap_testbit.
        rewrite add_split_testbit by assumption.
        destruct (N.ltb_spec i w), (N.ltb_spec i 64); rewrite ?andb_false_r; auto. destruct Hok; lia.
Qed.

Lemma forallb_range_zero v lo : forallb (fun i => nth i v 0 =? 0) (range lo (length v)) = true <->
  (forall i, (lo <= i)%nat -> nth i v 0 = 0).
Proof.
  rewrite forallb_forall. split.
  - intros H i Hi. destruct (Nat.lt_ge_cases i (length v)).
    + apply N.eqb_eq, H, range_In. lia.
    + now apply nth_overflow.
  - intros H i Hi. apply range_In in Hi. apply N.eqb_eq, H. lia.
Qed.

Lemma p_from_opt_limbs_spec w pl v : prim_ok w pl -> limbs_ok v ->
  p_from_u64_slice_opt w v = Ret (if lval v <? 2 ^ w then Some (lval v) else None).
Proof.
  intros Hok Hv. unfold p_from_u64_slice_opt, p_from_opt, try_into. destruct v as [|v0 [|v1 v]].
  - cbn [length Nat.eqb lval]. now rewrite (proj2 (N.ltb_lt 0 (2 ^ w)) (pow2_pos w)).
  - cbn [length Nat.eqb lval]. unfold get. cbn. now rewrite N.mul_0_r, N.add_0_r.
  - cbn [length Nat.eqb]. change (S (S (length v))) with (length (v0 :: v1 :: v)).
    rewrite for_ctrl_check_zero by lia. rewrite bind_ret.
    destruct (forallb _ _) eqn:E.
    + rewrite p_join_spec by assumption. rewrite bind_ret.
      assert (Hlt : lval (v0 :: v1 :: v) < 2 ^ 128).
      { change 128 with (64 * N.of_nat 2). apply lt_pow_limbs; [assumption|].
        now apply forallb_range_zero. }
      rewrite N.mod_small by assumption. reflexivity.
    + destruct (N.ltb_spec (lval (v0 :: v1 :: v)) (2 ^ w)) as [Hlt|]; [|reflexivity].
      exfalso. apply not_true_iff_false in E. apply E. apply forallb_range_zero.
      apply (lt_pow_limbs _ 2); [assumption|]. eapply N.lt_le_trans; [exact Hlt|].
      apply N.pow_le_mono_r; destruct Hok; lia.
Qed.

(** ** All laws *)
Definition p_wf (w : N) (x : N) : Prop := x < 2 ^ w.
Definition p_irel (w : N) (it : N) (l : list N) : Prop := it < 2 ^ w /\ l = bits_of it.

Lemma cmp_trans_N x y z c : (x ?= y) = c -> (y ?= z) = c -> (x ?= z) = c.
Proof.
  destruct c; rewrite ?N.compare_eq_iff, ?N.compare_lt_iff, ?N.compare_gt_iff; lia.
Qed.

Theorem prim_laws pw w pl : prim_ok w pl ->
  ReprLaws pw (prim_repr md pw w pl) (p_wf w) (fun x => x) (p_irel w).
Proof.
  intros Hok.
  assert (Hw : 8 <= w <= 128) by (destruct Hok; lia).
  constructor; cbn; unfold p_wf, p_irel.
  - lia.
  - change (2 ^ 32) with 4294967296. lia.
  - destruct Hok; lia.
  - destruct Hok; lia.
  - auto.
  - auto.
  - auto.
  - split; [apply pow2_pos|reflexivity].
  - intros x y Hx Hy. eexists; repeat split. now apply land_lt.
  - intros x y Hx Hy. eexists; repeat split. now apply lor_lt.
  - intros x y Hx Hy. eexists; repeat split. now apply lxor_lt.
  - intros x Hx. eexists; repeat split. now apply bnot_lt.
  - intros x y Hx Hy. eexists; repeat split. { now apply land_lt. } now apply land_bnot_ldiff.
  - auto.
  - intros x b Hx Hb _. eexists. split; [now apply p_add_bit_spec|]. split; [now apply setbit_lt|reflexivity].
  - intros x b Hx Hb _. eexists. split; [now apply p_remove_bit_spec|]. split; [now apply clearbit_lt|reflexivity].
  - intros x b Hx Hb _. now apply p_has_bit_spec.
  - reflexivity.
  - reflexivity.
  - reflexivity.
  - intros x Hx. eexists; repeat split. assumption.
  - intros it l [Hx ->]. destruct (p_iter_next_spec w it Hx) as (x' & E & H1 & H2). eauto.
  - intros it l b [Hx E]. destruct (p_iter_next_back_spec w it b l) as (x' & E' & H1 & H2); auto; try lia. eauto.
  - intros it [Hx E]. exists it. symmetry in E. apply bits_of_nil in E as E0. subst. now repeat split.
  - intros it l [Hx ->] Hl. rewrite bits_of_length in *. unfold p_iter_size_hint, p_count_ones.
    now rewrite wrap_small.
  - intros t v Hv. eexists; repeat split. apply wrap_lt.
  - reflexivity.
  - intros t v Hv. unfold p_from_opt, try_into. destruct (N.ltb_spec v (2 ^ w)); cbn; eauto.
  - reflexivity.
  - intros x k Hx. now apply p_to_u64_array_spec with w.
  - intros x k Hx. now apply p_to_u64_array_opt_spec with w.
  - intros v Hv. eexists. split; [now apply p_from_limbs_spec|]. split; [|reflexivity]. apply wrap_lt.
  - intros v Hv. change (p_from_u64_array_opt w v) with (p_from_u64_slice_opt w v).
    rewrite (p_from_opt_limbs_spec w pl) by assumption.
    destruct (N.ltb_spec (lval v) (2 ^ w)); cbn; eauto.
  - intros x out Hx. now apply p_to_u64_slice_spec with w.
  - intros x out Hx. now apply p_to_u64_slice_opt_spec with w.
  - intros v Hv. eexists. split; [now apply p_from_limbs_spec|]. split; [|reflexivity]. apply wrap_lt.
  - intros v Hv. rewrite (p_from_opt_limbs_spec w pl) by assumption.
    destruct (N.ltb_spec (lval v) (2 ^ w)); cbn; eauto.
  - congruence.
  - intros x y _ _. apply N.compare_eq_iff.
  - intros x y _ _. apply N.compare_antisym.
  - intros x y z c _ _ _. apply cmp_trans_N.
Qed.

End PrimFacts.

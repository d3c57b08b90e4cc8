(** * Little-endian sequences of 64-bit limbs and the integer they denote *)
From Verif Require Import Base BaseFacts.
Ltac Zify.zify_post_hook ::= Z.div_mod_to_equations.

Definition limbs_ok (l : list N) : Prop := Forall (fun x => x < 2 ^ 64) l.
Fixpoint lval (l : list N) : N := match l with [] => 0 | x :: r => x + 2 ^ 64 * lval r end.
Definition limb (x : N) (i : nat) : N := (x / 2 ^ (64 * N.of_nat i)) mod 2 ^ 64.
Definition limbs (k : nat) (x : N) : list N := map (limb x) (seq 0 k).

Lemma limbs_ok_nth l i : limbs_ok l -> nth i l 0 < 2 ^ 64.
Proof. intros H. apply (Forall_nth_lt (P := fun x => x < 2 ^ 64)); [exact H|]. apply pow2_pos. Qed.

Lemma lval_testbit l i : limbs_ok l ->
  N.testbit (lval l) i = N.testbit (nth (N.to_nat (i / 64)) l 0) (i mod 64).
Proof.
  intros H. revert i. induction H as [|x l Hx Hl IH]; intros i; cbn [lval].
  - destruct (N.to_nat (i / 64)); cbn; now rewrite !N.bits_0.
  - rewrite add_split_testbit by assumption. destruct (N.ltb_spec i 64) as [Hi|Hi].
    + rewrite N.div_small, N.mod_small by assumption. reflexivity.
    + rewrite IH.
      replace (N.to_nat (i / 64)) with (S (N.to_nat ((i - 64) / 64))).
      * cbn [nth]. f_equal. lia.
      * lia.
Qed.

Lemma lval_testbit_at l k j : limbs_ok l -> j < 64 ->
  N.testbit (lval l) (64 * N.of_nat k + j) = N.testbit (nth k l 0) j.
Proof.
  intros H Hj. rewrite lval_testbit by assumption.
  replace (N.to_nat ((64 * N.of_nat k + j) / 64)) with k by lia.
  replace ((64 * N.of_nat k + j) mod 64) with j by lia. reflexivity.
Qed.

Lemma lval_lt l : limbs_ok l -> lval l < 2 ^ (64 * N.of_nat (length l)).
Proof.
  intros H. apply lt_pow2_of_bits. intros i Hi. rewrite lval_testbit by assumption.
  rewrite nth_overflow by lia. apply N.bits_0.
Qed.

Lemma limb_testbit x i j : N.testbit (limb x i) j = N.testbit x (64 * N.of_nat i + j) && (j <? 64).
Proof.
  unfold limb. rewrite <- N.shiftr_div_pow2. change (?a mod 2 ^ 64) with (wrap 64 a).
  rewrite wrap_testbit, N.shiftr_spec' . now rewrite N.add_comm.
Qed.
Lemma limb_lt x i : limb x i < 2 ^ 64.
Proof. apply wrap_lt. Qed.
Lemma limbs_length k x : length (limbs k x) = k.
Proof. unfold limbs. now rewrite map_length, seq_length. Qed.
Lemma limbs_nth k x i : nth i (limbs k x) 0 = if Nat.ltb i k then limb x i else 0.
Proof.
  destruct (Nat.ltb_spec i k).
  - unfold limbs. rewrite nth_indep with (d' := limb x 0) by (rewrite map_length, seq_length; assumption).
    rewrite map_nth, seq_nth by assumption. reflexivity.
  - apply nth_overflow. now rewrite limbs_length.
Qed.
Lemma limbs_limbs_ok k x : limbs_ok (limbs k x).
Proof. apply Forall_forall. intros y Hy. apply in_map_iff in Hy. destruct Hy as (i & <- & _). apply limb_lt. Qed.

Lemma lval_limbs k x : lval (limbs k x) = wrap (64 * N.of_nat k) x.
Proof.
  apply bit_eq. intros i. rewrite lval_testbit by apply limbs_limbs_ok.
  rewrite limbs_nth, wrap_testbit.
  destruct (Nat.ltb_spec (N.to_nat (i / 64)) k), (N.ltb_spec i (64 * N.of_nat k)); try lia.
  - rewrite limb_testbit. replace (64 * N.of_nat (N.to_nat (i / 64)) + i mod 64) with i by lia.
    destruct (N.ltb_spec (i mod 64) 64); [reflexivity|lia].
  - now rewrite N.bits_0, andb_false_r.
Qed.

Lemma limb_lval l i : limbs_ok l -> limb (lval l) i = nth i l 0.
Proof.
  intros H. apply bit_eq. intros j. rewrite limb_testbit. destruct (N.ltb_spec j 64).
  - now rewrite lval_testbit_at, andb_true_r.
  - rewrite andb_false_r. symmetry. apply testbit_high with 64; [|assumption]. now apply limbs_ok_nth.
Qed.

Lemma limbs_lval k l : limbs_ok l -> (length l <= k)%nat ->
  limbs k (lval l) = l ++ repeat 0 (k - length l).
Proof.
  intros H Hk. apply list_ext.
  - rewrite limbs_length, app_length, repeat_length. lia.
  - intros i Hi. rewrite limbs_length in Hi. rewrite limbs_nth, limb_lval by assumption.
    destruct (Nat.ltb_spec i k); [|lia].
    destruct (Nat.lt_ge_cases i (length l)).
    + now rewrite app_nth1.
    + rewrite app_nth2, nth_repeat, nth_overflow by assumption. reflexivity.
Qed.
Lemma limbs_lval_same l : limbs_ok l -> limbs (length l) (lval l) = l.
Proof.
  intros H. rewrite limbs_lval by auto. rewrite Nat.sub_diag. cbn. apply app_nil_r.
Qed.

Lemma lval_inj l l' : limbs_ok l -> limbs_ok l' -> length l = length l' -> lval l = lval l' -> l = l'.
Proof.
  intros H H' Hl E. rewrite <- (limbs_lval_same l H), <- (limbs_lval_same l' H'). congruence.
Qed.

Lemma lval_eq_of_nth l x : limbs_ok l ->
  (forall i, nth i l 0 = limb x i) -> lval l = x.
Proof.
  intros H E. apply bit_eq. intros i. rewrite lval_testbit by assumption. rewrite E, limb_testbit.
  replace (64 * N.of_nat (N.to_nat (i / 64)) + i mod 64) with i by lia.
  destruct (N.ltb_spec (i mod 64) 64); [apply andb_true_r|lia].
Qed.

Lemma limb_small x i : x < 2 ^ (64 * N.of_nat i) -> limb x i = 0.
Proof.
  intros H. unfold limb. rewrite N.div_small by assumption. reflexivity.
Qed.

Lemma limb0 x : limb x 0 = wrap 64 x.
Proof. unfold limb. change (64 * N.of_nat 0) with 0. now rewrite N.pow_0_r, N.div_1_r. Qed.

Lemma lval_zero l : limbs_ok l -> (lval l = 0 <-> forall i, nth i l 0 = 0).
Proof.
  intros H. split.
  - intros E i. rewrite <- limb_lval by assumption. rewrite E. unfold limb.
    rewrite N.div_0_l by (apply N.pow_nonzero; lia). reflexivity.
  - intros E. apply lval_eq_of_nth; [assumption|]. intros i. rewrite E. unfold limb.
    rewrite N.div_0_l by (apply N.pow_nonzero; lia). reflexivity.
Qed.

(** The limbs of a value below [2^(64 k)], and the converse. *)
Lemma lt_pow_limbs l k : limbs_ok l ->
  lval l < 2 ^ (64 * N.of_nat k) <-> (forall i, (k <= i)%nat -> nth i l 0 = 0).
Proof.
  intros H. split.
  - intros Hlt i Hi. rewrite <- limb_lval by assumption. apply limb_small.
    eapply N.lt_le_trans; [exact Hlt|]. apply N.pow_le_mono_r; lia.
  - intros Hz. apply lt_pow2_of_bits. intros i Hi. rewrite lval_testbit by assumption.
    rewrite Hz by lia. apply N.bits_0.
Qed.

Lemma limbs_ok_repeat n : limbs_ok (repeat 0 n).
Proof. apply Forall_forall. intros x Hx. apply repeat_spec in Hx. subst. apply pow2_pos. Qed.
Lemma lval_repeat0 n : lval (repeat 0 n) = 0.
Proof. induction n; cbn [repeat lval]; [reflexivity|]. rewrite IHn. lia. Qed.

Lemma limbs_ok_of_nth l : (forall i, (i < length l)%nat -> nth i l 0 < 2 ^ 64) -> limbs_ok l.
Proof.
  intros H. apply Forall_forall. intros x Hx. destruct (In_nth l x 0 Hx) as (i & Hi & <-). now apply H.
Qed.

(** * The array storages satisfy [ReprLaws] *)
From Verif Require Import Base BaseFacts LimbFacts Prim ArrayRepr Repr ReprLaws PrimFacts.
Ltac Zify.zify_post_hook ::= Z.div_mod_to_equations.

Section ArrayFacts.
Context {md : build}.

Definition a_wf (n : nat) (l : list N) : Prop := length l = n /\ limbs_ok l.

Lemma lval_upd_testbit l k x i : limbs_ok l -> x < 2 ^ 64 -> (k < length l)%nat ->
  N.testbit (lval (upd l k x)) i = if i / 64 =? N.of_nat k then N.testbit x (i mod 64) else N.testbit (lval l) i.
Proof.
  intros Hl Hx Hk. rewrite !lval_testbit; auto.
  - rewrite nth_upd. rewrite (proj2 (Nat.ltb_lt _ _) Hk), andb_true_r.
    destruct (Nat.eqb_spec (N.to_nat (i / 64)) k), (N.eqb_spec (i / 64) (N.of_nat k)); auto; lia.
  - apply upd_Forall; assumption.
Qed.
Lemma a_wf_upd n l k x : a_wf n l -> x < 2 ^ 64 -> a_wf n (upd l k x).
Proof. intros [H1 H2] Hx. split; [now rewrite upd_length|]. now apply upd_Forall. Qed.
Lemma a_wf_nth n l i : a_wf n l -> nth i l 0 < 2 ^ 64.
Proof. intros [_ H]. now apply limbs_ok_nth. Qed.

(** ** Limb-wise operations *)
Lemma limbwise n (f : N -> N -> N) (fb : bool -> bool -> bool) x y z :
  a_wf n x -> a_wf n y -> length z = n ->
  (forall a b, a < 2 ^ 64 -> b < 2 ^ 64 -> f a b < 2 ^ 64) ->
  (forall a b i, a < 2 ^ 64 -> b < 2 ^ 64 -> i < 64 -> N.testbit (f a b) i = fb (N.testbit a i) (N.testbit b i)) ->
  (forall j, (j < n)%nat -> nth j z 0 = f (nth j x 0) (nth j y 0)) ->
  a_wf n z /\ forall i, i < 64 * N.of_nat n -> N.testbit (lval z) i = fb (N.testbit (lval x) i) (N.testbit (lval y) i).
Proof.
  intros Hx Hy Hz Hf Hb E.
  assert (Hwf : a_wf n z).
  { split; [assumption|]. apply limbs_ok_of_nth. intros i Hi. rewrite E by lia.
    apply Hf; eapply a_wf_nth; eassumption. }
  split; [assumption|]. intros i Hi. destruct Hx as [Lx Ox], Hy as [Ly Oy], Hwf as [_ Oz].
  rewrite !lval_testbit by assumption. rewrite E by lia.
  apply Hb; try (now apply limbs_ok_nth). lia.
Qed.

Lemma wf_val_lt n l : a_wf n l -> lval l < 2 ^ (64 * N.of_nat n).
Proof. intros [<- H]. now apply lval_lt. Qed.

Lemma a_op_spec n (f : N -> N -> N) x y (op : M (list N)) (v : N) (fb : bool -> bool -> bool) :
  a_wf n x -> a_wf n y ->
  (exists z, op = Ret z /\ length z = n /\ forall j, (j < n)%nat -> nth j z 0 = f (nth j x 0) (nth j y 0)) ->
  (forall a b, a < 2 ^ 64 -> b < 2 ^ 64 -> f a b < 2 ^ 64) ->
  (forall a b i, a < 2 ^ 64 -> b < 2 ^ 64 -> i < 64 -> N.testbit (f a b) i = fb (N.testbit a i) (N.testbit b i)) ->
  v < 2 ^ (64 * N.of_nat n) ->
  (forall i, i < 64 * N.of_nat n -> N.testbit v i = fb (N.testbit (lval x) i) (N.testbit (lval y) i)) ->
  yields (a_wf n) lval op v.
Proof.
  intros Hx Hy (z & -> & Hlen & E) Hf Hb Hv Hvb.
  destruct (limbwise n f fb x y z Hx Hy Hlen Hf Hb E) as [Hwf Hbit].
  exists z. repeat split; try apply Hwf. apply bit_eq. intros i.
  destruct (N.lt_ge_cases i (64 * N.of_nat n)) as [Hi|Hi].
  - now rewrite Hbit, Hvb.
  - rewrite (testbit_high _ _ i (wf_val_lt n z Hwf) Hi). symmetry. now apply (testbit_high _ _ i Hv).
Qed.

Lemma for_range_upd n (f : nat -> N -> N) body (l : list N) :
  length l = n ->
  (forall i m, length m = n -> (i < n)%nat -> body i m = Ret (upd m i (f i (nth i m 0)))) ->
  exists z, for_each (range 0 n) l body = Ret z /\ length z = n /\ forall j, (j < n)%nat -> nth j z 0 = f j (nth j l 0).
Proof.
  intros Hl Hb. unfold range. rewrite Nat.sub_0_r.
  destruct (for_each_upd f body 0 n l) as (z & E & L & En).
  - intros i m Hm Hi. apply Hb; lia.
  - lia.
  - exists z. split; [exact E|]. split; [lia|]. intros j Hj. rewrite En.
    destruct (Nat.leb_spec 0 j), (Nat.ltb_spec j (0 + n)); cbn; auto; lia.
Qed.

Lemma binop_loop n (f : N -> N -> N) x y : a_wf n x -> a_wf n y ->
  exists z, for_each (range 0 n) x (fun i self => a <- get self i ;; b <- get y i ;; set self i (f a b)) = Ret z /\
    length z = n /\ forall j, (j < n)%nat -> nth j z 0 = f (nth j x 0) (nth j y 0).
Proof.
  intros [Lx _] [Ly _]. apply (for_range_upd n (fun i a => f a (nth i y 0))); [assumption|].
  intros i m Hm Hi. rewrite (get_nth m i 0) by lia. rewrite bind_ret.
  rewrite (get_nth y i 0) by lia. rewrite bind_ret. apply set_ret. lia.
Qed.

Lemma a_bitand_spec n x y : a_wf n x -> a_wf n y ->
  yields (a_wf n) lval (a_bitand n x y) (N.land (lval x) (lval y)).
Proof.
  intros Hx Hy. apply (a_op_spec n N.land x y _ _ andb Hx Hy).
  - apply (binop_loop n N.land x y Hx Hy).
  - intros. now apply land_lt.
  - intros. apply N.land_spec.
  - apply land_lt, wf_val_lt, Hx.
  - intros. apply N.land_spec.
Qed.
Lemma a_bitor_spec n x y : a_wf n x -> a_wf n y ->
  yields (a_wf n) lval (a_bitor n x y) (N.lor (lval x) (lval y)).
Proof.
  intros Hx Hy. apply (a_op_spec n N.lor x y _ _ orb Hx Hy).
  - apply (binop_loop n N.lor x y Hx Hy).
  - intros. now apply lor_lt.
  - intros. apply N.lor_spec.
  - apply lor_lt; now apply wf_val_lt.
  - intros. apply N.lor_spec.
Qed.
Lemma a_bitxor_spec n x y : a_wf n x -> a_wf n y ->
  yields (a_wf n) lval (a_bitxor n x y) (N.lxor (lval x) (lval y)).
Proof.
  intros Hx Hy. apply (a_op_spec n N.lxor x y _ _ xorb Hx Hy).
  - apply (binop_loop n N.lxor x y Hx Hy).
  - intros. now apply lxor_lt.
  - intros. apply N.lxor_spec.
  - apply lxor_lt; now apply wf_val_lt.
  - intros. apply N.lxor_spec.
Qed.
Lemma a_bitnot_spec n x : a_wf n x ->
  yields (a_wf n) lval (a_bitnot n x) (bnot (64 * N.of_nat n) (lval x)).
Proof.
  intros Hx. apply (a_op_spec n (fun a _ => bnot 64 a) x x _ _ (fun a _ => negb a) Hx Hx).
  - apply (for_range_upd n (fun _ a => bnot 64 a)); [apply Hx|].
    intros i m Hm Hi. rewrite (get_nth m i 0) by lia. rewrite bind_ret. apply set_ret. lia.
  - intros. now apply bnot_lt.
  - intros a b i Ha _ Hi. rewrite bnot_testbit by assumption. now rewrite (proj2 (N.ltb_lt _ _) Hi).
  - apply bnot_lt, wf_val_lt, Hx.
  - intros i Hi. rewrite bnot_testbit by now apply wf_val_lt. now rewrite (proj2 (N.ltb_lt _ _) Hi).
Qed.
Lemma a_and_not_spec n x y : a_wf n x -> a_wf n y ->
  yields (a_wf n) lval (a_and_not n x y) (N.ldiff (lval x) (lval y)).
Proof.
  intros Hx Hy. apply (a_op_spec n N.ldiff x y _ _ (fun a b => a && negb b) Hx Hy).
  - apply (for_range_upd n (fun i _ => N.ldiff (nth i x 0) (nth i y 0))); [apply repeat_length|].
    intros i m Hm Hi. destruct Hx as [Lx Ox], Hy as [Ly Oy].
    rewrite (get_nth x i 0) by lia. rewrite bind_ret.
    rewrite (get_nth y i 0) by lia. rewrite bind_ret.
    rewrite land_bnot_ldiff by now apply limbs_ok_nth. apply set_ret. lia.
  - intros. now apply ldiff_lt.
  - intros. apply N.ldiff_spec.
  - apply ldiff_lt, wf_val_lt, Hx.
  - intros. apply N.ldiff_spec.
Qed.

Lemma a_is_empty_spec n x : a_wf n x -> a_is_empty x = (lval x =? 0).
Proof.
  intros [_ H]. unfold a_is_empty. clear n. induction H as [|a l Ha Hl IH]; [reflexivity|].
  cbn [forallb lval]. rewrite IH.
  destruct (N.eqb_spec a 0), (N.eqb_spec (lval l) 0), (N.eqb_spec (a + 2 ^ 64 * lval l) 0); cbn; auto; lia.
Qed.

(** ** Single bits *)
Lemma split_bit_spec pw n b : b < 64 * N.of_nat n -> b < 2 ^ pw ->
  a_split_bit pw b = (N.to_nat (b / 64), b mod 64) /\ (N.to_nat (b / 64) < n)%nat /\ b mod 64 < 64.
Proof.
  intros Hb Hp. unfold a_split_bit. rewrite wrap_small by assumption. split; [reflexivity|]. lia.
Qed.

Lemma a_add_bit_spec pw n x b : a_wf n x -> b < 64 * N.of_nat n -> b < 2 ^ pw ->
  yields (a_wf n) lval (a_add_bit pw x b) (N.setbit (lval x) b).
Proof.
  intros Hx Hb Hp. unfold a_add_bit. destruct (split_bit_spec pw n b Hb Hp) as (-> & Hi & Hm).
  pose proof Hx as [Lx Ox]. rewrite (get_nth x _ 0) by lia. rewrite bind_ret.
  rewrite p_add_bit_spec by assumption. rewrite bind_ret. rewrite set_ret by lia.
  assert (Hlt : N.setbit (nth (N.to_nat (b / 64)) x 0) (b mod 64) < 2 ^ 64)
    by (apply setbit_lt; [assumption|now apply limbs_ok_nth]).
  eexists. split; [reflexivity|]. split; [now apply a_wf_upd|].
  apply bit_eq. intros i. rewrite lval_upd_testbit by (assumption || lia).
  rewrite !N.setbit_eqb. destruct (N.eqb_spec (i / 64) (N.of_nat (N.to_nat (b / 64)))).
  - replace (b mod 64 =? i mod 64) with (b =? i) by (destruct (N.eqb_spec b i), (N.eqb_spec (b mod 64) (i mod 64)); lia).
    f_equal. rewrite lval_testbit by assumption. now replace (N.to_nat (i / 64)) with (N.to_nat (b / 64)) by lia.
  - destruct (N.eqb_spec b i); [lia|]. reflexivity.
Qed.
Lemma a_remove_bit_spec pw n x b : a_wf n x -> b < 64 * N.of_nat n -> b < 2 ^ pw ->
  yields (a_wf n) lval (a_remove_bit pw x b) (N.clearbit (lval x) b).
Proof.
  intros Hx Hb Hp. unfold a_remove_bit. destruct (split_bit_spec pw n b Hb Hp) as (-> & Hi & Hm).
  pose proof Hx as [Lx Ox]. rewrite (get_nth x _ 0) by lia. rewrite bind_ret.
  rewrite p_remove_bit_spec by (assumption || now apply limbs_ok_nth). rewrite bind_ret. rewrite set_ret by lia.
  assert (Hlt : N.clearbit (nth (N.to_nat (b / 64)) x 0) (b mod 64) < 2 ^ 64)
    by (apply clearbit_lt; now apply limbs_ok_nth).
  eexists. split; [reflexivity|]. split; [now apply a_wf_upd|].
  apply bit_eq. intros i. rewrite lval_upd_testbit by (assumption || lia).
  rewrite !N.clearbit_eqb. destruct (N.eqb_spec (i / 64) (N.of_nat (N.to_nat (b / 64)))).
  - replace (b mod 64 =? i mod 64) with (b =? i) by (destruct (N.eqb_spec b i), (N.eqb_spec (b mod 64) (i mod 64)); lia).
    f_equal. rewrite lval_testbit by assumption. now replace (N.to_nat (i / 64)) with (N.to_nat (b / 64)) by lia.
  - destruct (N.eqb_spec b i); [lia|]. now rewrite andb_true_r.
Qed.
Lemma a_has_bit_spec pw n x b : a_wf n x -> b < 64 * N.of_nat n -> b < 2 ^ pw ->
  a_has_bit pw x b = Ret (N.testbit (lval x) b).
Proof.
  intros Hx Hb Hp. unfold a_has_bit. destruct (split_bit_spec pw n b Hb Hp) as (-> & Hi & Hm).
  pose proof Hx as [Lx Ox]. rewrite (get_nth x _ 0) by lia. rewrite bind_ret.
  rewrite p_has_bit_spec by assumption. now rewrite lval_testbit.
Qed.

(** ** Counting *)
Lemma sorted_app (l l' : list N) :
  StronglySorted N.lt l -> StronglySorted N.lt l' -> (forall a b, In a l -> In b l' -> a < b) ->
  StronglySorted N.lt (l ++ l').
Proof.
  intros H H' Hc. induction H as [|a l Hs IH Ha]; [assumption|]. cbn. constructor.
  - apply IH. intros; apply Hc; auto. now right.
  - apply Forall_forall. intros b Hb. apply in_app_iff in Hb. rewrite Forall_forall in Ha.
    destruct Hb; [auto|]. apply Hc; auto. now left.
Qed.
Lemma sorted_map_add k (l : list N) : StronglySorted N.lt l -> StronglySorted N.lt (map (N.add k) l).
Proof.
  intros H. induction H as [|a l Hs IH Ha]; cbn; constructor; auto.
  apply Forall_forall. intros b Hb. apply in_map_iff in Hb. destruct Hb as (c & <- & Hc).
  rewrite Forall_forall in Ha. specialize (Ha _ Hc). lia.
Qed.
Lemma bits_of_split w x y : x < 2 ^ w -> bits_of (x + 2 ^ w * y) = bits_of x ++ map (N.add w) (bits_of y).
Proof.
  intros Hx. symmetry. apply bits_of_unique.
  - apply sorted_app; [apply bits_of_sorted|apply sorted_map_add, bits_of_sorted|].
    intros a b Ha Hb. apply bits_of_In in Ha. apply in_map_iff in Hb. destruct Hb as (c & <- & _).
    destruct (N.lt_ge_cases a w); [lia|]. rewrite (testbit_high x w a) in Ha by assumption. discriminate.
  - intros i. rewrite in_app_iff, bits_of_In, in_map_iff, add_split_testbit by assumption.
    destruct (N.ltb_spec i w).
    + split; [|auto]. intros [?|(c & <- & _)]; [assumption|lia].
    + split.
      * intros [Hc|(c & <- & Hc)]. { rewrite (testbit_high x w i) in Hc by assumption. discriminate. }
        apply bits_of_In in Hc. now replace (w + c - w) with c by lia.
      * intros Hc. right. exists (i - w). split; [lia|]. now apply bits_of_In.
Qed.
Lemma count_ones_cons x l : x < 2 ^ 64 -> u_count_ones (lval (x :: l)) = u_count_ones x + u_count_ones (lval l).
Proof.
  intros Hx. cbn [lval]. rewrite <- !bits_of_length, bits_of_split by assumption.
  rewrite app_length, map_length. lia.
Qed.

Lemma a_count_ones_spec n x : a_wf n x -> 64 * N.of_nat n < 2 ^ 32 ->
  a_count_ones x = Ret (u_count_ones (lval x)).
Proof.
  intros Hx Hn. pose proof (count_ones_bound _ _ (wf_val_lt n x Hx)) as Hb.
  unfold a_count_ones. destruct Hx as [Lx Ox].
  assert (Hgo : forall s, s + u_count_ones (lval x) < 2 ^ 32 ->
    for_each x s (fun x sum => cadd 32 sum (p_count_ones x)) = Ret (s + u_count_ones (lval x))).
  { clear -Ox. induction Ox as [|a l Ha Hl IH]; intros s Hs.
    - cbn. f_equal. lia.
    - rewrite count_ones_cons in * by assumption. cbn [for_each]. unfold cadd at 1, p_count_ones at 1.
      rewrite (proj2 (N.ltb_lt _ _)) by (unfold p_count_ones; lia). rewrite bind_ret.
      rewrite IH by (unfold p_count_ones; lia). f_equal. unfold p_count_ones. lia. }
  rewrite Hgo by lia. f_equal.
Qed.

Lemma log2_limbs l k : limbs_ok l -> nth k l 0 <> 0 -> (forall i, (k < i)%nat -> nth i l 0 = 0) ->
  lval l <> 0 /\ N.log2 (lval l) = 64 * N.of_nat k + N.log2 (nth k l 0).
Proof.
  intros Ol Hk Hz.
  assert (Hlt : N.log2 (nth k l 0) < 64).
  { apply N.log2_lt_pow2; [lia|]. now apply limbs_ok_nth. }
  assert (Hb : N.testbit (lval l) (64 * N.of_nat k + N.log2 (nth k l 0)) = true).
  { rewrite lval_testbit_at by assumption. now apply N.bit_log2. }
  split. { intros E. rewrite E, N.bits_0 in Hb. discriminate. }
  apply N.log2_bits_unique; [assumption|]. intros i Hi. rewrite lval_testbit by assumption.
  destruct (N.lt_ge_cases (64 * N.of_nat (S k)) i).
  - rewrite Hz by lia. apply N.bits_0.
  - destruct (N.eq_dec (i / 64) (N.of_nat k)) as [E|E].
    + replace (N.to_nat (i / 64)) with k by lia. apply N.bits_above_log2. lia.
    + rewrite Hz by lia. apply N.bits_0.
Qed.

Lemma a_leading_zeros_spec n x : a_wf n x -> 64 * N.of_nat n < 2 ^ 32 ->
  a_leading_zeros n x = Ret (u_leading_zeros (64 * N.of_nat n) (lval x)).
Proof.
  intros [Lx Ox] Hn. unfold a_leading_zeros. unfold range. rewrite Nat.sub_0_r.
  assert (Hgo : forall k acc, (k <= n)%nat -> acc = 64 * N.of_nat (n - k) ->
    (forall i, (k <= i)%nat -> nth i x 0 = 0) ->
    exists r, for_ctrl (rev (seq 0 k)) acc (fun i accum =>
         x <- get x i ;;
         if negb (x =? 0) then r <- cadd 32 accum (p_leading_zeros 64 x) ;; Ret (Return r)
         else a <- cadd 32 accum 64 ;; Ret (Next a)) = Ret r /\
      match r with inr v => v = u_leading_zeros (64 * N.of_nat n) (lval x) | inl _ => lval x = 0 end).
  { induction k as [|k IH]; intros acc Hk Hacc Hz.
    - exists (inl acc). split; [reflexivity|]. apply lval_zero; [assumption|]. intros; apply Hz; lia.
    - rewrite seq_S, rev_app_distr. cbn [rev app Nat.add for_ctrl].
      rewrite (get_nth x k 0) by lia. rewrite bind_ret.
      destruct (N.eqb_spec (nth k x 0) 0) as [E0|E0]; cbn [negb].
      + unfold cadd at 1. rewrite (proj2 (N.ltb_lt _ _)) by lia. rewrite !bind_ret.
        apply IH; [lia|lia|]. intros i Hi. destruct (Nat.eq_dec i k) as [->|]; [assumption|]. apply Hz. lia.
      + destruct (log2_limbs x k Ox E0) as [Hnz Hlog]. { intros; apply Hz; lia. }
        pose proof (limbs_ok_nth x k Ox) as Hlt. pose proof (size_bound 64 _ Hlt) as Hsz.
        unfold p_leading_zeros, u_leading_zeros in *.
        rewrite (N.size_log2 _ E0) in *. rewrite (N.size_log2 _ Hnz).
        unfold cadd at 1. rewrite (proj2 (N.ltb_lt _ _)) by lia. rewrite !bind_ret.
        eexists. split; [reflexivity|]. cbn. lia. }
  destruct (Hgo n 0) as (r & E & Hr).
  - lia.
  - lia.
  - intros i Hi. apply nth_overflow. lia.
  - rewrite E, bind_ret. destruct r as [s|v].
    + rewrite Hr. unfold u_leading_zeros, a_width. cbn. f_equal. lia.
    + now subst v.
Qed.

Lemma u_ctz_unique w x b : N.testbit x b = true -> (forall i, i < b -> N.testbit x i = false) ->
  u_trailing_zeros w x = b.
Proof.
  intros Hb Hl. assert (Hz : x <> 0) by (intros ->; rewrite N.bits_0 in Hb; discriminate).
  destruct (ctz_spec w x Hz) as [H1 H2].
  destruct (N.lt_trichotomy (u_trailing_zeros w x) b) as [H|[H|H]]; [|assumption|].
  - rewrite Hl in H1 by assumption. discriminate.
  - rewrite H2 in Hb by assumption. discriminate.
Qed.

Lemma low_limbs l k : limbs_ok l -> nth k l 0 <> 0 -> (forall i, (i < k)%nat -> nth i l 0 = 0) ->
  let b := 64 * N.of_nat k + u_trailing_zeros 64 (nth k l 0) in
  N.testbit (lval l) b = true /\ forall i, i < b -> N.testbit (lval l) i = false.
Proof.
  intros Ol Hk Hz b. destruct (ctz_spec 64 _ Hk) as [H1 H2].
  pose proof (ctz_lt 64 _ Hk (limbs_ok_nth l k Ol)) as Hlt.
  split.
  - unfold b. now rewrite lval_testbit_at.
  - intros i Hi. rewrite lval_testbit by assumption. unfold b in Hi.
    destruct (N.eq_dec (i / 64) (N.of_nat k)) as [E|E].
    + replace (N.to_nat (i / 64)) with k by lia. apply H2. lia.
    + rewrite Hz by lia. apply N.bits_0.
Qed.

Lemma a_trailing_zeros_spec n x : a_wf n x -> 64 * N.of_nat n < 2 ^ 32 ->
  a_trailing_zeros n x = Ret (u_trailing_zeros (64 * N.of_nat n) (lval x)).
Proof.
  intros [Lx Ox] Hn. unfold a_trailing_zeros. unfold range. rewrite Nat.sub_0_r.
  assert (Hgo : forall k lo acc, (lo + k = n)%nat -> acc = 64 * N.of_nat lo ->
    (forall i, (i < lo)%nat -> nth i x 0 = 0) ->
    exists r, for_ctrl (seq lo k) acc (fun i accum =>
         x <- get x i ;;
         if negb (x =? 0) then r <- cadd 32 accum (p_trailing_zeros 64 x) ;; Ret (Return r)
         else a <- cadd 32 accum 64 ;; Ret (Next a)) = Ret r /\
      match r with inr v => v = u_trailing_zeros (64 * N.of_nat n) (lval x) | inl _ => lval x = 0 end).
  { induction k as [|k IH]; intros lo acc Hk Hacc Hz.
    - exists (inl acc). split; [reflexivity|]. apply lval_zero; [assumption|]. intros i.
      destruct (Nat.lt_ge_cases i lo); [auto|]. apply nth_overflow. lia.
    - cbn [seq for_ctrl]. rewrite (get_nth x lo 0) by lia. rewrite bind_ret.
      destruct (N.eqb_spec (nth lo x 0) 0) as [E0|E0]; cbn [negb].
      + unfold cadd at 1. rewrite (proj2 (N.ltb_lt _ _)) by lia. rewrite !bind_ret.
        apply IH; [lia|lia|]. intros i Hi. destruct (Nat.eq_dec i lo) as [->|]; [assumption|]. apply Hz. lia.
      + pose proof (ctz_lt 64 _ E0 (limbs_ok_nth x lo Ox)) as Hlt.
        destruct (low_limbs x lo Ox E0 Hz) as [H1 H2].
        unfold cadd at 1, p_trailing_zeros. rewrite (proj2 (N.ltb_lt _ _)) by lia. rewrite !bind_ret.
        eexists. split; [reflexivity|]. cbn. symmetry. subst acc. now apply u_ctz_unique. }
  destruct (Hgo n 0%nat 0) as (r & E & Hr).
  - lia.
  - lia.
  - intros i Hi. lia.
  - rewrite E, bind_ret. destruct r as [s|v].
    + rewrite Hr. unfold a_width. cbn. f_equal. lia.
    + now subst v.
Qed.

(** ** Integer conversions *)
Lemma testbit_lval0 l i : limbs_ok l -> i < 64 -> N.testbit (lval l) i = N.testbit (nth 0 l 0) i.
Proof.
  intros H Hi. rewrite lval_testbit by assumption. now rewrite N.div_small, N.mod_small by assumption.
Qed.

Lemma a_from_u64_spec n v : (0 < n)%nat -> v < 2 ^ 64 ->
  yields (a_wf n) lval (a_from_u64 n v) v.
Proof.
  intros Hn Hv. unfold a_from_u64. rewrite set_ret by (rewrite repeat_length; lia).
  eexists. split; [reflexivity|]. split.
  - apply a_wf_upd; [|assumption]. split; [apply repeat_length|apply limbs_ok_repeat].
  - destruct n as [|n]; [lia|]. cbn [repeat upd lval]. rewrite lval_repeat0. lia.
Qed.
Lemma a_from_u128_spec n v : (0 < n)%nat -> v < 2 ^ 128 ->
  yields (a_wf n) lval (a_from_u128 n v) (v mod 2 ^ (64 * N.of_nat n)).
Proof.
  intros Hn Hv. unfold a_from_u128. rewrite set_ret by (rewrite repeat_length; lia). rewrite bind_ret.
  assert (H0 : a_wf n (upd (repeat 0 n) 0 (wrap 64 v))).
  { apply a_wf_upd; [|apply wrap_lt]. split; [apply repeat_length|apply limbs_ok_repeat]. }
  destruct (Nat.eqb_spec n 1) as [->|Hn1]; cbn [negb].
  - eexists. split; [reflexivity|]. split; [assumption|]. cbn [repeat upd lval].
    change (2 ^ (64 * N.of_nat 1)) with (2 ^ 64). unfold wrap. lia.
  - rewrite set_ret by (destruct H0; lia). eexists. split; [reflexivity|].
    split; [apply a_wf_upd; [assumption|apply wrap_lt]|].
    destruct n as [|[|n]]; [lia|lia|]. cbn [repeat upd lval]. rewrite lval_repeat0.
    rewrite N.mul_0_r, N.add_0_r. rewrite (N.mod_small v).
    + unfold wrap. rewrite N.shiftr_div_pow2. rewrite (N.mod_small (v / 2 ^ 64)).
      * rewrite N.add_comm. symmetry. apply N.div_mod. apply N.pow_nonzero. lia.
      * apply N.div_lt_upper_bound; [apply N.pow_nonzero; lia|]. exact Hv.
    + eapply N.lt_le_trans; [exact Hv|]. apply N.pow_le_mono_r; lia.
Qed.
Lemma pow64_le n : (0 < n)%nat -> 2 ^ 64 <= 2 ^ (64 * N.of_nat n).
Proof. intros. apply N.pow_le_mono_r; lia. Qed.

Lemma ity_le64 pw t : pw <= 64 -> t <> U128 -> 2 ^ ity_bits pw t <= 2 ^ 64.
Proof. intros H Ht. apply N.pow_le_mono_r; [lia|]. destruct t; cbn; try lia. congruence. Qed.

Lemma a_from_spec pw n t v : (0 < n)%nat -> pw <= 64 -> v < 2 ^ ity_bits pw t ->
  yields (a_wf n) lval (a_from n t v) (v mod 2 ^ (64 * N.of_nat n)).
Proof.
  intros Hn Hp Hv. pose proof (pow64_le n Hn) as H64.
  destruct t; cbn [a_from]; try (now apply a_from_u128_spec);
    (assert (Hv64 : v < 2 ^ 64) by (eapply N.lt_le_trans; [exact Hv|]; apply ity_le64; [assumption|discriminate]);
     rewrite ?(wrap_small 64 v Hv64); rewrite N.mod_small by lia; now apply a_from_u64_spec).
Qed.

Lemma a_from_opt_spec pw n t v : (0 < n)%nat -> pw <= 64 -> v < 2 ^ ity_bits pw t ->
  yields_opt (a_wf n) lval (a_from_opt n t v) (if v <? 2 ^ (64 * N.of_nat n) then Some v else None).
Proof.
  intros Hn Hp Hv. pose proof (pow64_le n Hn) as H64.
  assert (Hgo : v < 2 ^ (64 * N.of_nat n) ->
    yields_opt (a_wf n) lval (r <- a_from n t v ;; Ret (Some r)) (if v <? 2 ^ (64 * N.of_nat n) then Some v else None)).
  { intros Hlt. rewrite (proj2 (N.ltb_lt _ _) Hlt). destruct (a_from_spec pw n t v Hn Hp Hv) as (z & -> & Hz & Ez).
    rewrite N.mod_small in Ez by assumption. cbn. eauto. }
  destruct t; cbn [a_from_opt];
    try (apply Hgo; eapply N.lt_le_trans; [exact Hv|]; etransitivity; [apply ity_le64; [assumption|discriminate]|assumption]).
  cbn [ity_bits] in Hv.
  destruct (Nat.eqb_spec n 1) as [->|Hn1]; cbn [andb].
  - change (64 * N.of_nat 1) with 64 in *. rewrite N.shiftr_div_pow2.
    destruct (N.ltb_spec v (2 ^ 64)) as [Hlt|Hge].
    + rewrite N.div_small by assumption. cbn [N.eqb negb].
      change (0 =? 0) with true. cbn [negb]. now apply Hgo.
    + destruct (N.eqb_spec (v / 2 ^ 64) 0) as [E|E]; [|reflexivity].
      apply N.div_small_iff in E; [lia|]. apply N.pow_nonzero; lia.
  - apply Hgo. eapply N.lt_le_trans; [exact Hv|]. apply N.pow_le_mono_r; lia.
Qed.

Lemma a_to_u64_spec n x : (0 < n)%nat -> a_wf n x -> a_to_u64 x = Ret (lval x mod 2 ^ 64).
Proof.
  intros Hn [Lx Ox]. unfold a_to_u64. rewrite (get_nth x 0 0) by lia.
  rewrite <- (limb_lval x 0 Ox), limb0. reflexivity.
Qed.
Lemma a_to_u128_spec n x : (0 < n)%nat -> a_wf n x -> a_to_u128 n x = Ret (lval x mod 2 ^ 128).
Proof.
  intros Hn [Lx Ox]. unfold a_to_u128. destruct (Nat.eqb_spec n 1) as [E|E].
  - rewrite bind_ret. rewrite (get_nth x 0 0) by lia. rewrite bind_ret, N.lor_0_r.
    rewrite <- (limb_lval x 0 Ox), limb0. f_equal. unfold wrap.
    assert (lval x < 2 ^ 64). { pose proof (lval_lt x Ox) as H. rewrite Lx, E in H. exact H. }
    rewrite !N.mod_small; auto. eapply N.lt_le_trans; [eassumption|]. apply N.pow_le_mono_r; lia.
  - destruct x as [|v0 [|v1 r]]; [cbn in Lx; lia|cbn in Lx; lia|].
    pose proof (p_join_spec v0 v1 r Ox) as H. unfold p_join in H.
    unfold get in *. cbn [nth_error] in *. rewrite !bind_ret in *.
    destruct (shl 128 v1 64); cbn [bind] in *; exact H.
Qed.
Lemma a_to_spec pw n t x : (0 < n)%nat -> pw <= 64 -> a_wf n x ->
  a_to pw n t x = Ret (lval x mod 2 ^ ity_bits pw t).
Proof.
  intros Hn Hp Hx.
  assert (Hgo : ity_bits pw t <= 64 -> (y <- a_to_u64 x ;; Ret (p_to pw t y)) = Ret (lval x mod 2 ^ ity_bits pw t)).
  { intros Hle. rewrite (a_to_u64_spec n) by assumption. rewrite bind_ret. f_equal. unfold p_to.
    change (?a mod 2 ^ 64) with (wrap 64 a). now rewrite wrap_wrap_le. }
  destruct t; cbn [a_to]; try (apply Hgo; cbn; lia).
  - now apply a_to_u64_spec with n.
  - now apply a_to_u128_spec.
Qed.

Lemma a_check_zero_spec {B} (l : list N) lo hi (k : M (option B)) : (hi <= length l)%nat ->
  a_check_zero l lo hi k = if forallb (fun i => nth i l 0 =? 0) (range lo hi) then k else Ret None.
Proof.
  intros H. unfold a_check_zero. rewrite for_ctrl_check_zero by assumption. rewrite bind_ret.
  destruct (forallb _ _); reflexivity.
Qed.
Lemma forallb_range_fits l lo : limbs_ok l ->
  forallb (fun i => nth i l 0 =? 0) (range lo (length l)) = (lval l <? 2 ^ (64 * N.of_nat lo)).
Proof.
  intros H. apply eq_iff_eq_true. rewrite forallb_range_zero, N.ltb_lt, lt_pow_limbs by assumption. reflexivity.
Qed.

Lemma try_into_mod b c x : b <= c ->
  (if x <? 2 ^ c then (if x mod 2 ^ c <? 2 ^ b then Some (x mod 2 ^ c) else None) else None)
  = if x <? 2 ^ b then Some x else None.
Proof.
  intros H. assert (2 ^ b <= 2 ^ c) by (apply N.pow_le_mono_r; lia).
  destruct (N.ltb_spec x (2 ^ c)).
  - now rewrite N.mod_small.
  - destruct (N.ltb_spec x (2 ^ b)); [lia|reflexivity].
Qed.

Lemma a_to_u64_opt_spec n x : (0 < n)%nat -> a_wf n x ->
  a_to_u64_opt n x = Ret (if lval x <? 2 ^ 64 then Some (lval x) else None).
Proof.
  intros Hn Hx. unfold a_to_u64_opt. rewrite (a_to_u64_spec n) by assumption. destruct Hx as [Lx Ox].
  rewrite a_check_zero_spec by lia. rewrite <- Lx, forallb_range_fits by assumption.
  change (64 * N.of_nat 1) with 64. destruct (N.ltb_spec (lval x) (2 ^ 64)); [|reflexivity].
  rewrite bind_ret. now rewrite N.mod_small.
Qed.
Lemma a_to_u128_opt_spec n x : (0 < n)%nat -> a_wf n x ->
  a_to_u128_opt n x = Ret (if lval x <? 2 ^ 128 then Some (lval x) else None).
Proof.
  intros Hn Hx. unfold a_to_u128_opt. rewrite (a_to_u128_spec n) by assumption. destruct Hx as [Lx Ox].
  rewrite a_check_zero_spec by lia. rewrite <- Lx, forallb_range_fits by assumption.
  change (64 * N.of_nat 2) with 128. destruct (N.ltb_spec (lval x) (2 ^ 128)); [|reflexivity].
  rewrite bind_ret. now rewrite N.mod_small.
Qed.
Lemma a_to_opt_spec pw n t x : (0 < n)%nat -> pw <= 64 -> a_wf n x ->
  a_to_opt pw n t x = Ret (if lval x <? 2 ^ ity_bits pw t then Some (lval x) else None).
Proof.
  intros Hn Hp Hx.
  assert (Hgo : ity_bits pw t <= 64 ->
    (o <- a_to_u64_opt n x ;; Ret (match o with Some x => p_to_opt pw t x | None => None end))
    = Ret (if lval x <? 2 ^ ity_bits pw t then Some (lval x) else None)).
  { intros Hle. rewrite a_to_u64_opt_spec by assumption. rewrite bind_ret. f_equal.
    rewrite <- (try_into_mod _ 64 (lval x) Hle). destruct (N.ltb_spec (lval x) (2 ^ 64)); [|reflexivity].
    unfold p_to_opt, try_into. now rewrite N.mod_small. }
  destruct t; cbn [a_to_opt]; try (apply Hgo; cbn; lia).
  - now apply a_to_u64_opt_spec.
  - now apply a_to_u128_opt_spec.
Qed.

(** ** Limb sequences *)
Lemma copy_prefix_nth (dst src : list N) k : (k <= length dst)%nat -> (k <= length src)%nat ->
  exists z, copy_prefix dst k src = Ret z /\ length z = length dst /\
    forall i, nth i z 0 = if Nat.ltb i k then nth i src 0 else nth i dst 0.
Proof.
  intros H1 H2. unfold copy_prefix.
  rewrite (proj2 (Nat.leb_le _ _) H1), (proj2 (Nat.leb_le _ _) H2). cbn [andb].
  eexists. split; [reflexivity|]. split. { rewrite app_length, firstn_length, skipn_length. lia. }
  intros i. assert (Lf : length (firstn k src) = k) by (rewrite firstn_length; lia).
  destruct (Nat.ltb_spec i k).
  - rewrite app_nth1 by lia. rewrite <- (firstn_skipn k src) at 2. now rewrite app_nth1 by lia.
  - rewrite app_nth2 by lia. rewrite <- (firstn_skipn k dst) at 2.
    assert (Ld : length (firstn k dst) = k) by (rewrite firstn_length; lia).
    rewrite app_nth2 by lia. now rewrite Lf, Ld.
Qed.

Lemma a_to_u64_array_limbs x k : limbs_ok x ->
  a_to_u64_array (length x) x k = Ret (limbs k (lval x)).
Proof.
  intros Ox. unfold a_to_u64_array.
  set (c := if Nat.ltb (length x) k then length x else k).
  assert (Hc : (c = Nat.min (length x) k)). { unfold c. destruct (Nat.ltb_spec (length x) k); lia. }
  destruct (copy_prefix_nth (repeat 0 k) x c) as (z & -> & Lz & En).
  { rewrite repeat_length. lia. } { lia. }
  f_equal. rewrite repeat_length in Lz. apply list_ext. { now rewrite limbs_length. }
  intros i Hi. rewrite En, nth_repeat, limbs_nth, limb_lval by assumption.
  destruct (Nat.ltb_spec i c), (Nat.ltb_spec i k); try lia; auto.
  symmetry. apply nth_overflow. lia.
Qed.
Lemma a_to_u64_array_opt_limbs x k : limbs_ok x ->
  a_to_u64_array_opt (length x) x k = Ret (if lval x <? 2 ^ (64 * N.of_nat k) then Some (limbs k (lval x)) else None).
Proof.
  intros Ox. unfold a_to_u64_array_opt. rewrite a_to_u64_array_limbs by assumption.
  destruct (Nat.ltb_spec k (length x)) as [Hk|Hk].
  - rewrite a_check_zero_spec, forallb_range_fits by (assumption || lia).
    destruct (lval x <? 2 ^ (64 * N.of_nat k)); reflexivity.
  - rewrite (proj2 (N.ltb_lt (lval x) (2 ^ (64 * N.of_nat k)))); [reflexivity|].
    eapply N.lt_le_trans; [apply lval_lt; assumption|]. apply N.pow_le_mono_r; lia.
Qed.

Lemma limbs_wf n v : a_wf n (limbs n v).
Proof. split; [apply limbs_length|apply limbs_limbs_ok]. Qed.

Lemma a_to_u64_slice_spec n x out : a_wf n x ->
  a_to_u64_slice n x out = Ret (limbs (length out) (lval x)).
Proof.
  intros [Lx Ox]. unfold a_to_u64_slice.
  set (c := if Nat.ltb n (length out) then n else length out).
  assert (Hc : (c = Nat.min n (length out))). { unfold c. destruct (Nat.ltb_spec n (length out)); lia. }
  destruct (copy_prefix_nth out x c) as (z & -> & Lz & En). { lia. } { lia. }
  rewrite bind_ret. unfold range.
  destruct (for_each_upd (fun _ _ => 0) (fun i out => set out i 0) c (length z - c) z) as (z' & -> & Lz' & En').
  - intros i m Hm Hi. apply set_ret. lia.
  - lia.
  - f_equal. apply list_ext. { rewrite limbs_length. lia. }
    intros i Hi. rewrite En', En, limbs_nth, limb_lval by assumption.
    destruct (Nat.leb_spec c i), (Nat.ltb_spec i (c + (length z - c))), (Nat.ltb_spec i c), (Nat.ltb_spec i (length out));
      cbn [andb]; try (exfalso; lia); auto.
    symmetry. apply nth_overflow. lia.
Qed.
Lemma a_to_u64_slice_opt_spec n x out : a_wf n x ->
  a_to_u64_slice_opt n x out =
    Ret (if lval x <? 2 ^ (64 * N.of_nat (length out)) then (Some tt, limbs (length out) (lval x)) else (None, out)).
Proof.
  intros Hx. unfold a_to_u64_slice_opt. rewrite a_to_u64_slice_spec by assumption. destruct Hx as [Lx Ox].
  destruct (Nat.ltb_spec (length out) n) as [Hk|Hk].
  - subst n. rewrite a_check_zero_spec, forallb_range_fits by (assumption || lia).
    destruct (lval x <? 2 ^ (64 * N.of_nat (length out))); reflexivity.
  - rewrite (proj2 (N.ltb_lt (lval x) (2 ^ (64 * N.of_nat (length out))))); [reflexivity|].
    eapply N.lt_le_trans; [apply lval_lt; assumption|]. apply N.pow_le_mono_r; lia.
Qed.

Lemma a_from_u64_slice_eq n v : a_from_u64_slice n v = a_from_u64_array n v.
Proof.
  unfold a_from_u64_slice, a_from_u64_array, a_to_u64_array.
  destruct (Nat.ltb_spec n (length v)), (Nat.ltb_spec (length v) n); try lia; try reflexivity.
  now replace (length v) with n by lia.
Qed.
Lemma a_from_u64_slice_opt_eq n v : a_from_u64_slice_opt n v = a_from_u64_array_opt n v.
Proof.
  unfold a_from_u64_slice_opt, a_from_u64_array_opt, a_to_u64_array_opt.
  now rewrite a_from_u64_slice_eq.
Qed.
Lemma a_from_u64_array_spec n v : limbs_ok v ->
  yields (a_wf n) lval (a_from_u64_array n v) (lval v mod 2 ^ (64 * N.of_nat n)).
Proof.
  intros Hv. unfold a_from_u64_array. rewrite a_to_u64_array_limbs by assumption.
  eexists. split; [reflexivity|]. split; [apply limbs_wf|]. apply lval_limbs.
Qed.
Lemma a_from_u64_array_opt_spec n v : limbs_ok v ->
  yields_opt (a_wf n) lval (a_from_u64_array_opt n v) (if lval v <? 2 ^ (64 * N.of_nat n) then Some (lval v) else None).
Proof.
  intros Hv. unfold a_from_u64_array_opt. rewrite a_to_u64_array_opt_limbs by assumption.
  destruct (N.ltb_spec (lval v) (2 ^ (64 * N.of_nat n))); [|reflexivity].
  cbn. eexists. split; [reflexivity|]. split; [apply limbs_wf|]. rewrite lval_limbs. now apply wrap_small.
Qed.

(** ** The iterator *)
Definition a_irel (n : nat) (it : a_iter) (l : list N) : Prop :=
  a_wf n (ai_data it) /\ (ai_r it < n)%nat /\ (ai_f it <= S (ai_r it))%nat /\
  (forall i, (i < ai_f it \/ ai_r it < i)%nat -> nth i (ai_data it) 0 = 0) /\
  (ai_done it = true -> lval (ai_data it) = 0) /\
  l = bits_of (lval (ai_data it)).

Lemma a_iter_new_spec n x : (0 < n)%nat -> a_wf n x ->
  exists it, a_iter_new n x = Ret it /\ a_irel n it (bits_of (lval x)).
Proof.
  intros Hn Hx. unfold a_iter_new. pose proof Hx as [Lx Ox].
  destruct (for_range_upd n (fun i _ => nth i x 0) (fun i new => y <- get x i ;; set new i y) (repeat 0 n)) as (z & -> & Lz & En).
  - apply repeat_length.
  - intros i m Hm Hi. rewrite (get_nth x i 0) by lia. rewrite bind_ret. apply set_ret. lia.
  - assert (z = x) as ->. { apply list_ext; [lia|]. intros i Hi. apply En. lia. }
    rewrite bind_ret, (proj2 (Nat.ltb_lt 0 n) Hn). eexists. split; [reflexivity|].
    unfold a_irel. cbn. repeat split; auto; try lia; try discriminate.
    intros i Hi. apply nth_overflow. lia.
Qed.

Lemma p_iter_next_eq x : x < 2 ^ 64 ->
  p_iter_next 64 x = if x =? 0 then Ret (None, x)
                     else Ret (Some (u_trailing_zeros 64 x), N.clearbit x (u_trailing_zeros 64 x)).
Proof.
  intros Hx. unfold p_iter_next, p_is_empty. destruct (N.eqb_spec x 0); [reflexivity|].
  unfold p_trailing_zeros. now rewrite p_remove_bit_spec by (assumption || now apply ctz_lt).
Qed.
Lemma p_iter_next_back_eq x : x < 2 ^ 64 ->
  p_iter_next_back 64 x = if x =? 0 then Ret (None, x)
                          else Ret (Some (N.log2 x), N.clearbit x (N.log2 x)).
Proof.
  intros Hx. destruct (N.eqb_spec x 0) as [->|Hz]; [reflexivity|].
  destruct (bits_of_last x (N.log2 x)) as (l' & E').
  { now apply N.bit_log2. } { intros i Hi. now apply N.bits_above_log2. }
  pose proof (size_bound 64 x Hx) as Hs. pose proof (N.size_log2 x Hz) as Hsz.
  unfold p_iter_next_back, p_is_empty. rewrite (proj2 (N.eqb_neq x 0) Hz).
  unfold p_leading_zeros, u_leading_zeros, csub.
  change (1 <=? 64) with true. cbn [bind].
  rewrite (proj2 (N.leb_le (64 - N.size x) (64 - 1))) by lia. rewrite bind_ret.
  replace (64 - 1 - (64 - N.size x)) with (N.log2 x) by lia.
  now rewrite p_remove_bit_spec by (assumption || lia).
Qed.

Lemma upd_same (l : list N) i : upd l i (nth i l 0) = l.
Proof.
  apply list_ext. { apply upd_length. }
  intros j Hj. rewrite nth_upd. destruct (Nat.eqb_spec j i); [subst|reflexivity].
  destruct (Nat.ltb_spec i (length l)); reflexivity.
Qed.

Lemma a_item_spec n idx x : (idx < n)%nat -> x < 64 -> 64 * N.of_nat n < 2 ^ 32 ->
  a_item idx x = Ret (64 * N.of_nat idx + x).
Proof.
  intros Hi Hx Hn. unfold a_item, cmul, cadd. rewrite wrap_small by lia.
  rewrite (proj2 (N.ltb_lt (N.of_nat idx * 64) _)) by lia. rewrite bind_ret.
  rewrite (proj2 (N.ltb_lt _ _)) by lia. f_equal. lia.
Qed.

Lemma clear_limb l k j i : limbs_ok l -> (k < length l)%nat -> j < 64 ->
  N.testbit (lval (upd l k (N.clearbit (nth k l 0) j))) i = N.testbit (lval l) i && negb (i =? 64 * N.of_nat k + j).
Proof.
  intros Ol Hk Hj.
  assert (N.clearbit (nth k l 0) j < 2 ^ 64) by (apply clearbit_lt; now apply limbs_ok_nth).
  rewrite lval_upd_testbit by assumption. destruct (N.eqb_spec (i / 64) (N.of_nat k)) as [E|E].
  - rewrite clearbit_bits, lval_testbit by assumption. replace (N.to_nat (i / 64)) with k by lia. f_equal. f_equal.
    destruct (N.eqb_spec (i mod 64) j), (N.eqb_spec i (64 * N.of_nat k + j)); lia.
  - destruct (N.eqb_spec i (64 * N.of_nat k + j)); [lia|]. now rewrite andb_true_r.
Qed.

Lemma a_next_loop_spec n : 64 * N.of_nat n < 2 ^ 32 -> forall fuel it l,
  (S (ai_r it) - ai_f it < fuel)%nat -> a_irel n it l -> ai_done it = false ->
  exists it', a_next_loop fuel it = Ret (hd_error l, it') /\ a_irel n it' (tl l).
Proof.
  intros Hn. induction fuel as [|fuel IH]; intros it l Hf Hrel Hd; [lia|].
  destruct Hrel as (Hwf & Hr & Hfr & Hz & Hdone & ->). pose proof Hwf as [Lw Ow]. cbn [a_next_loop].
  destruct (Nat.leb_spec (ai_f it) (ai_r it)) as [Hle|Hgt].
  - rewrite (get_nth _ _ 0) by lia. rewrite bind_ret.
    rewrite p_iter_next_eq by now apply limbs_ok_nth.
    destruct (N.eqb_spec (nth (ai_f it) (ai_data it) 0) 0) as [E0|E0]; rewrite bind_ret; cbn [fst snd];
      rewrite set_ret by lia; rewrite bind_ret.
    + rewrite upd_same. apply IH; [cbn; lia| |assumption].
      unfold a_irel; cbn. repeat split; auto; try lia.
      intros i Hi. destruct (Nat.eq_dec i (ai_f it)) as [->|]; [assumption|]. apply Hz. lia.
    + pose proof (ctz_lt 64 _ E0 (limbs_ok_nth _ _ Ow)) as Hlt.
      rewrite (a_item_spec n) by (assumption || lia). rewrite bind_ret.
      destruct (low_limbs (ai_data it) (ai_f it) Ow E0) as [H1 H2]. { intros; apply Hz; lia. }
      destruct (bits_of_first _ _ H1 H2) as (l & El). rewrite El. cbn [hd_error tl].
      eexists. split; [reflexivity|]. unfold a_irel; cbn. 
      split. { apply a_wf_upd; [assumption|]. apply clearbit_lt. now apply limbs_ok_nth. }
      repeat split; auto; try lia.
      * intros i Hi. rewrite nth_upd. destruct (Nat.eqb_spec i (ai_f it)); [lia|]. cbn. now apply Hz.
      * congruence.
      * symmetry. eapply bits_of_cons; [exact El|]. intros i. apply clear_limb; assumption || lia.
  - assert (E0 : lval (ai_data it) = 0). { apply lval_zero; [assumption|]. intros; apply Hz; lia. }
    rewrite E0. eexists. split; [reflexivity|]. unfold a_irel; cbn. rewrite E0. repeat split; auto.
Qed.

Lemma a_iter_next_spec n it l : 64 * N.of_nat n < 2 ^ 32 -> a_irel n it l ->
  exists it', a_iter_next it = Ret (hd_error l, it') /\ a_irel n it' (tl l).
Proof.
  intros Hn Hrel. unfold a_iter_next, a_iter_next_fuel. destruct (ai_done it) eqn:Hd.
  - pose proof Hrel as (_ & _ & _ & _ & Hdone & El). rewrite (Hdone Hd) in El. subst l. exists it. auto.
  - apply (a_next_loop_spec n Hn); auto. lia.
Qed.

Lemma a_next_back_loop_spec n : 64 * N.of_nat n < 2 ^ 32 -> forall fuel it l,
  (S (ai_r it) - ai_f it < fuel)%nat -> a_irel n it l -> ai_done it = false ->
  match l with
  | [] => exists it', a_next_back_loop fuel it = Ret (None, it') /\ a_irel n it' []
  | _ => exists b l' it', l = l' ++ [b] /\ a_next_back_loop fuel it = Ret (Some b, it') /\ a_irel n it' l'
  end.
Proof.
  intros Hn. induction fuel as [|fuel IH]; intros it l Hf Hrel Hd; [lia|].
  destruct Hrel as (Hwf & Hr & Hfr & Hz & Hdone & ->). pose proof Hwf as [Lw Ow]. cbn [a_next_back_loop].
  destruct (Nat.leb_spec (ai_f it) (ai_r it)) as [Hle|Hgt].
  - rewrite (get_nth _ _ 0) by lia. rewrite bind_ret.
    rewrite p_iter_next_back_eq by now apply limbs_ok_nth.
    destruct (N.eqb_spec (nth (ai_r it) (ai_data it) 0) 0) as [E0|E0]; rewrite bind_ret; cbn [fst snd];
      rewrite set_ret by lia; rewrite bind_ret.
    + rewrite upd_same. destruct (Nat.eqb_spec (ai_r it) 0) as [Er|Er].
      * assert (E : lval (ai_data it) = 0).
        { apply lval_zero; [assumption|]. intros i. destruct (Nat.eq_dec i 0) as [->|].
          - now rewrite <- Er. - apply Hz. lia. }
        rewrite E. cbn. eexists. split; [reflexivity|]. unfold a_irel; cbn. rewrite E. repeat split; auto.
      * apply (IH (MkAIter (ai_data it) (ai_done it) (ai_f it) (ai_r it - 1))); [cbn [ai_r ai_f]; lia| |assumption].
        unfold a_irel; cbn [ai_r ai_f ai_data ai_done]. repeat split; auto; try lia.
        intros i Hi. destruct (Nat.eq_dec i (ai_r it)) as [->|]; [assumption|]. apply Hz. lia.
    + pose proof (limbs_ok_nth _ (ai_r it) Ow) as Hlt64.
      assert (Hlt : N.log2 (nth (ai_r it) (ai_data it) 0) < 64) by (apply N.log2_lt_pow2; lia).
      rewrite (a_item_spec n) by (assumption || lia). rewrite bind_ret.
      destruct (log2_limbs (ai_data it) (ai_r it) Ow E0) as [Hnz Hlog]. { intros; apply Hz; lia. }
      rewrite <- Hlog.
      destruct (bits_of_last (lval (ai_data it)) (N.log2 (lval (ai_data it)))) as (l & El).
      { now apply N.bit_log2. } { intros i Hi. now apply N.bits_above_log2. }
      assert (Hgoal : exists b l' it', bits_of (lval (ai_data it)) = l' ++ [b] /\
        Ret (Some (N.log2 (lval (ai_data it))),
             MkAIter (upd (ai_data it) (ai_r it) (N.clearbit (nth (ai_r it) (ai_data it) 0) (N.log2 (nth (ai_r it) (ai_data it) 0))))
               (ai_done it) (ai_f it) (ai_r it)) = Ret (Some b, it') /\ a_irel n it' l').
      { exists (N.log2 (lval (ai_data it))), l. eexists. split; [exact El|]. split; [reflexivity|].
        unfold a_irel; cbn.
        split. { apply a_wf_upd; [assumption|]. now apply clearbit_lt. }
        split; [assumption|]. split; [lia|]. split; [|split].
        - intros i Hi. rewrite nth_upd. destruct (Nat.eqb_spec i (ai_r it)); [lia|]. cbn. now apply Hz.
        - intros Hd'. rewrite Hd in Hd'. discriminate.
        - symmetry. eapply bits_of_snoc; [exact El|]. intros i. rewrite Hlog. apply clear_limb; assumption || lia. }
      destruct (bits_of (lval (ai_data it))); [destruct l; discriminate|exact Hgoal].
  - assert (E0 : lval (ai_data it) = 0). { apply lval_zero; [assumption|]. intros; apply Hz; lia. }
    rewrite E0. cbn. eexists. split; [reflexivity|]. unfold a_irel; cbn. rewrite E0. repeat split; auto.
Qed.

Lemma a_iter_next_back_spec n it l b : 64 * N.of_nat n < 2 ^ 32 -> a_irel n it (l ++ [b]) ->
  exists it', a_iter_next_back it = Ret (Some b, it') /\ a_irel n it' l.
Proof.
  intros Hn Hrel. unfold a_iter_next_back, a_iter_next_back_fuel. destruct (ai_done it) eqn:Hd.
  - pose proof Hrel as (_ & _ & _ & _ & Hdone & El). rewrite (Hdone Hd) in El. destruct l; discriminate.
  - pose proof (a_next_back_loop_spec n Hn (S (S (ai_r it))) it (l ++ [b])) as H.
    destruct (l ++ [b]) as [|a l0] eqn:E; [destruct l; discriminate|].
    destruct H as (b' & l' & it' & E' & H1 & H2); auto; [lia|].
    rewrite <- E in E'. apply app_inj_tail in E'. destruct E' as [-> ->]. eauto.
Qed.
Lemma a_iter_next_back_nil n it : 64 * N.of_nat n < 2 ^ 32 -> a_irel n it [] ->
  exists it', a_iter_next_back it = Ret (None, it') /\ a_irel n it' [].
Proof.
  intros Hn Hrel. unfold a_iter_next_back, a_iter_next_back_fuel. destruct (ai_done it) eqn:Hd.
  - exists it. auto.
  - apply (a_next_back_loop_spec n Hn (S (S (ai_r it))) it []); auto. lia.
Qed.

(** size hint *)
Definition sum_ones (l : list N) (is : list nat) : N := fold_right (fun i s => u_count_ones (nth i l 0) + s) 0 is.
Lemma sum_ones_app l a b : sum_ones l (a ++ b) = sum_ones l a + sum_ones l b.
Proof.
  induction a as [|i a IH]; [reflexivity|].
  unfold sum_ones in *. cbn [app fold_right]. rewrite IH. lia.
Qed.
Lemma sum_ones_zero l is : (forall i, In i is -> nth i l 0 = 0) -> sum_ones l is = 0.
Proof.
  induction is as [|i is IH]; intros H; [reflexivity|]. cbn [sum_ones fold_right].
  rewrite H by now left. fold (sum_ones l is). rewrite IH; [reflexivity|]. intros; apply H; now right.
Qed.
Lemma sum_ones_all l : limbs_ok l -> sum_ones l (seq 0 (length l)) = u_count_ones (lval l).
Proof.
  intros H. induction H as [|a l Ha Hl IH]; [reflexivity|].
  rewrite count_ones_cons by assumption. rewrite <- IH. cbn [length seq sum_ones fold_right nth]. f_equal.
  fold (sum_ones (a :: l) (seq 1 (length l))). rewrite <- seq_shift.
  generalize (seq 0 (length l)) as is. induction is as [|i is IHis]; [reflexivity|].
  cbn [map sum_ones fold_right nth]. f_equal. exact IHis.
Qed.

Lemma a_size_hint_spec pw n it l : 7 <= pw -> a_irel n it l -> N.of_nat (length l) < 2 ^ pw ->
  a_iter_size_hint pw it = Ret (N.of_nat (length l), Some (N.of_nat (length l))).
Proof.
  intros Hpw (Hwf & Hr & Hfr & Hz & Hdone & ->) Hlen. rewrite bits_of_length in *.
  pose proof Hwf as [Lw Ow].
  assert (Hsum : sum_ones (ai_data it) (range (ai_f it) (S (ai_r it))) = u_count_ones (lval (ai_data it))).
  { rewrite <- sum_ones_all by assumption. unfold range.
    replace (length (ai_data it)) with (ai_f it + ((S (ai_r it) - ai_f it) + (n - S (ai_r it))))%nat by lia.
    rewrite !seq_app, !sum_ones_app.
    rewrite (sum_ones_zero _ (seq 0 _)), (sum_ones_zero _ (seq _ (n - S (ai_r it)))); [cbn; lia| |].
    - intros i Hi. apply in_seq in Hi. apply Hz. lia.
    - intros i Hi. apply in_seq in Hi. apply Hz. lia. }
  unfold a_iter_size_hint.
  assert (Hgo : forall is s, (forall i, In i is -> (i < n)%nat) -> s + sum_ones (ai_data it) is < 2 ^ pw ->
    for_each is s (fun i sum => w <- get (ai_data it) i ;; cadd pw sum (wrap pw (p_count_ones w)))
    = Ret (s + sum_ones (ai_data it) is)).
  { induction is as [|i is IH]; intros s Hin Hs.
    - cbn. f_equal. lia.
    - cbn [for_each sum_ones fold_right] in *. fold (sum_ones (ai_data it) is) in *.
      assert (i < n)%nat by (apply Hin; now left).
      rewrite (get_nth _ _ 0) by lia. rewrite bind_ret. unfold p_count_ones at 1.
      rewrite wrap_small by lia. unfold cadd at 1. rewrite (proj2 (N.ltb_lt _ _)) by lia. rewrite bind_ret.
      rewrite IH; [f_equal; lia| |lia]. intros; apply Hin; now right. }
  rewrite Hgo, Hsum.
  - rewrite bind_ret. now rewrite N.add_0_l.
  - intros i Hi. apply range_In in Hi. lia.
  - rewrite Hsum. lia.
Qed.

(** ** Equality, order *)
Lemma a_eqb_eq a b : a_eqb a b = true <-> a = b.
Proof.
  revert b. induction a as [|x a IH]; intros [|y b]; cbn; try (split; congruence).
  rewrite andb_true_iff, N.eqb_eq, IH. split; [intros [-> ->]; reflexivity|]. intros E; inversion E; auto.
Qed.
Lemma a_cmp_eq a b : a_cmp a b = Eq <-> a = b.
Proof.
  revert b. induction a as [|x a IH]; intros [|y b]; cbn; try (split; congruence).
  destruct (N.compare_spec x y) as [->|H|H].
  - rewrite IH. split; congruence.
  - split; [discriminate|]. intros E; inversion E; lia.
  - split; [discriminate|]. intros E; inversion E; lia.
Qed.
Lemma a_cmp_antisym a b : a_cmp b a = CompOpp (a_cmp a b).
Proof.
  revert b. induction a as [|x a IH]; intros [|y b]; cbn; try reflexivity.
  rewrite (N.compare_antisym x y). destruct (x ?= y); cbn; auto.
Qed.
Lemma a_cmp_trans a b c r : a_cmp a b = r -> a_cmp b c = r -> a_cmp a c = r.
Proof.
  revert b c. induction a as [|x a IH]; intros [|y b] [|z c]; cbn; try congruence.
  destruct (N.compare_spec x y), (N.compare_spec y z), (N.compare_spec x z); subst; try lia;
    try congruence; eauto.
Qed.

Theorem array_laws pw n : (0 < n)%nat -> 64 * N.of_nat n < 2 ^ 32 -> 7 <= pw <= 64 ->
  ReprLaws pw (array_repr md pw n) (a_wf n) lval (a_irel n).
Proof.
  intros Hn H32 Hpw.
  assert (HW : a_width n = 64 * N.of_nat n) by (unfold a_width; lia).
  constructor; cbn; rewrite ?HW.
  - lia.
  - assumption.
  - lia.
  - assumption.
  - apply wf_val_lt.
  - intros x y [Lx Ox] [Ly Oy] E. apply lval_inj; auto. congruence.
  - intros x y [Lx Ox] [Ly Oy]. apply eq_iff_eq_true. rewrite a_eqb_eq, N.eqb_eq.
    split; [congruence|]. intros E. apply lval_inj; auto. congruence.
  - split; [split; [apply repeat_length|apply limbs_ok_repeat]|apply lval_repeat0].
  - apply a_bitand_spec.
  - apply a_bitor_spec.
  - apply a_bitxor_spec.
  - apply a_bitnot_spec.
  - apply a_and_not_spec.
  - apply a_is_empty_spec.
  - intros. now apply a_add_bit_spec.
  - intros. now apply a_remove_bit_spec.
  - intros. now apply a_has_bit_spec with n.
  - intros. now apply a_count_ones_spec with n.
  - intros. now apply a_leading_zeros_spec.
  - intros. now apply a_trailing_zeros_spec.
  - intros. now apply a_iter_new_spec.
  - intros. now apply a_iter_next_spec.
  - intros. now apply a_iter_next_back_spec.
  - intros. now apply a_iter_next_back_nil.
  - intros it l Hrel Hl. apply a_size_hint_spec with n; auto. lia.
  - intros. apply a_from_spec with pw; auto. lia.
  - intros. apply a_to_spec; auto. lia.
  - intros. apply a_from_opt_spec with pw; auto. lia.
  - intros. apply a_to_opt_spec; auto. lia.
  - intros x k [<- Ox]. now apply a_to_u64_array_limbs.
  - intros x k [<- Ox]. now apply a_to_u64_array_opt_limbs.
  - apply a_from_u64_array_spec.
  - apply a_from_u64_array_opt_spec.
  - apply a_to_u64_slice_spec.
  - apply a_to_u64_slice_opt_spec.
  - intros v Hv. rewrite a_from_u64_slice_eq. now apply a_from_u64_array_spec.
  - intros v Hv. rewrite a_from_u64_slice_opt_eq. now apply a_from_u64_array_opt_spec.
  - congruence.
  - intros. apply a_cmp_eq.
  - intros x y _ _. apply a_cmp_antisym.
  - intros x y z c _ _ _. apply a_cmp_trans.
Qed.

End ArrayFacts.

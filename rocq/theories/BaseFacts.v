(** * Facts about Base: bits, limbs, loops *)
From Coq Require Export Arith ZArith Sorted.
From Coq Require Export ZifyBool ZifyNat ZifyN.
From Verif Require Import Base.

Arguments N.add : simpl never.
Arguments N.mul : simpl never.
Arguments N.sub : simpl never.
Arguments N.pow : simpl never.
Arguments N.modulo : simpl never.
Arguments N.div : simpl never.
Arguments N.testbit : simpl never.
Arguments N.shiftl : simpl never.
Arguments N.shiftr : simpl never.
Arguments N.land : simpl never.
Arguments N.lor : simpl never.
Arguments N.lxor : simpl never.
Arguments N.ltb : simpl never.
Arguments N.leb : simpl never.
Arguments N.eqb : simpl never.
Arguments N.lnot : simpl never.
Arguments wrap : simpl never.
Arguments Nat.ltb : simpl never.
Arguments Nat.leb : simpl never.
Arguments N.of_nat : simpl never.
Arguments N.to_nat : simpl never.

(** ** The monad *)
Lemma bind_ret {A B} (a : A) (f : A -> M B) : bind (Ret a) f = f a.
Proof. reflexivity. Qed.

Lemma bind_inv {A B} (m : M A) (f : A -> M B) b :
  bind m f = Ret b -> exists a, m = Ret a /\ f a = Ret b.
Proof. destruct m; cbn; intros H; try discriminate; eauto. Qed.

(** ** Bits *)
Lemma testbit_high x w i : x < 2 ^ w -> w <= i -> N.testbit x i = false.
Proof.
  intros Hx Hi. destruct (N.eq_dec x 0) as [->|Hz]. { apply N.bits_0. }
  apply N.bits_above_log2. apply N.lt_le_trans with w; [|exact Hi].
  apply N.log2_lt_pow2; lia.
Qed.

Lemma lt_pow2_of_bits x w : (forall i, w <= i -> N.testbit x i = false) -> x < 2 ^ w.
Proof.
  intros H. destruct (N.eq_dec x 0) as [->|Hz]. { apply N.neq_0_lt_0, N.pow_nonzero; lia. }
  apply N.log2_lt_pow2; [lia|].
  destruct (N.lt_ge_cases (N.log2 x) w) as [|Hge]; [assumption|].
  specialize (H _ Hge). rewrite N.bit_log2 in H by exact Hz. discriminate.
Qed.

Lemma pow2_pos w : 0 < 2 ^ w.
Proof. apply N.neq_0_lt_0, N.pow_nonzero; lia. Qed.

Lemma wrap_testbit w x i : N.testbit (wrap w x) i = N.testbit x i && (i <? w).
Proof.
  unfold wrap. destruct (N.ltb_spec i w).
  - rewrite N.mod_pow2_bits_low by assumption. now rewrite andb_true_r.
  - rewrite N.mod_pow2_bits_high by assumption. now rewrite andb_false_r.
Qed.

Lemma wrap_lt w x : wrap w x < 2 ^ w.
Proof. unfold wrap. apply N.mod_lt. pose proof (pow2_pos w). lia. Qed.

Lemma wrap_small w x : x < 2 ^ w -> wrap w x = x.
Proof. apply N.mod_small. Qed.

Lemma bit_eq x y : (forall i, N.testbit x i = N.testbit y i) -> x = y.
Proof. intros H. now apply N.bits_inj. Qed.

Lemma shl_one {md : build} w k : k < w -> shl w 1 k = Ret (2 ^ k).
Proof.
  intros H. unfold shl. rewrite (proj2 (N.ltb_lt _ _) H). f_equal.
  rewrite N.shiftl_mul_pow2, N.mul_1_l. apply wrap_small, N.pow_lt_mono_r; lia.
Qed.

Lemma pow2_testbit k i : N.testbit (2 ^ k) i = (i =? k).
Proof.
  destruct (N.eqb_spec i k) as [->|Hne]. { apply N.pow2_bits_true. }
  apply N.pow2_bits_false. congruence.
Qed.

Lemma bnot_testbit w x i : x < 2 ^ w -> N.testbit (bnot w x) i = (i <? w) && negb (N.testbit x i).
Proof.
  intros Hx. unfold bnot. destruct (N.ltb_spec i w).
  - rewrite N.lnot_spec_low by assumption. reflexivity.
  - rewrite N.lnot_spec_high by assumption. now apply testbit_high with w.
Qed.

Lemma land_lt a b w : a < 2 ^ w -> N.land a b < 2 ^ w.
Proof.
  intros H. apply lt_pow2_of_bits. intros i Hi. rewrite N.land_spec.
  now rewrite (testbit_high a w i).
Qed.
Lemma lor_lt a b w : a < 2 ^ w -> b < 2 ^ w -> N.lor a b < 2 ^ w.
Proof.
  intros H H'. apply lt_pow2_of_bits. intros i Hi. rewrite N.lor_spec.
  rewrite (testbit_high a w i), (testbit_high b w i); auto.
Qed.
Lemma lxor_lt a b w : a < 2 ^ w -> b < 2 ^ w -> N.lxor a b < 2 ^ w.
Proof.
  intros H H'. apply lt_pow2_of_bits. intros i Hi. rewrite N.lxor_spec.
  rewrite (testbit_high a w i), (testbit_high b w i); auto.
Qed.
Lemma bnot_lt w x : x < 2 ^ w -> bnot w x < 2 ^ w.
Proof.
  intros H. apply lt_pow2_of_bits. intros i Hi. rewrite bnot_testbit by assumption.
  destruct (N.ltb_spec i w); [lia|reflexivity].
Qed.

Lemma land_pow2_zero x k : (N.land x (2 ^ k) =? 0) = negb (N.testbit x k).
Proof.
  destruct (N.testbit x k) eqn:E; cbn.
  - apply N.eqb_neq. intros H. apply (f_equal (fun y => N.testbit y k)) in H.
    rewrite N.land_spec, E, pow2_testbit, N.eqb_refl, N.bits_0 in H. discriminate.
  - apply N.eqb_eq, bit_eq. intros i. rewrite N.land_spec, pow2_testbit, N.bits_0.
    destruct (N.eqb_spec i k) as [->|]; [rewrite E|]; now rewrite ?andb_false_r.
Qed.

Lemma add_split_testbit w x y i : x < 2 ^ w ->
  N.testbit (x + 2 ^ w * y) i = if i <? w then N.testbit x i else N.testbit y (i - w).
Proof.
  intros Hx.
  assert (Hlor : x + 2 ^ w * y = N.lor x (N.shiftl y w)).
  { rewrite N.shiftl_mul_pow2, (N.mul_comm (2 ^ w)).
    rewrite <- N.shiftl_mul_pow2. rewrite N.add_nocarry_lxor.
    - symmetry. rewrite <- N.lxor_lor; [reflexivity|].
      apply bit_eq. intros j. rewrite N.land_spec, N.bits_0.
      destruct (N.lt_ge_cases j w).
      + rewrite N.shiftl_spec_low by assumption. apply andb_false_r.
      + now rewrite (testbit_high x w j).
    - apply bit_eq. intros j. rewrite N.land_spec, N.bits_0.
      destruct (N.lt_ge_cases j w).
      + rewrite N.shiftl_spec_low by assumption. apply andb_false_r.
      + now rewrite (testbit_high x w j). }
  rewrite Hlor, N.lor_spec. destruct (N.ltb_spec i w).
  - rewrite N.shiftl_spec_low by assumption. apply orb_false_r.
  - rewrite N.shiftl_spec_high' by assumption. now rewrite (testbit_high x w i).
Qed.

(** ** The ascending list of set bits *)
Fixpoint pos_bits (p : positive) (k : N) : list N :=
  match p with
  | xH => [k]
  | xO q => pos_bits q (N.succ k)
  | xI q => k :: pos_bits q (N.succ k)
  end.
Definition bits_of (x : N) : list N := match x with N0 => [] | Npos p => pos_bits p 0 end.

Lemma pos_testbit_O p i : N.testbit (N.pos p~0) i = if i =? 0 then false else N.testbit (N.pos p) (N.pred i).
Proof.
  destruct (N.eqb_spec i 0) as [->|Hi]. { reflexivity. }
  replace i with (N.succ (N.pred i)) at 1 by lia.
  change (N.pos p~0) with (2 * N.pos p). now rewrite N.testbit_even_succ by lia.
Qed.
Lemma pos_testbit_I p i : N.testbit (N.pos p~1) i = if i =? 0 then true else N.testbit (N.pos p) (N.pred i).
Proof.
  destruct (N.eqb_spec i 0) as [->|Hi]. { reflexivity. }
  replace i with (N.succ (N.pred i)) at 1 by lia.
  change (N.pos p~1) with (2 * N.pos p + 1). now rewrite N.testbit_odd_succ by lia.
Qed.
Lemma pos_testbit_H i : N.testbit 1 i = (i =? 0).
Proof. change 1 with (2 ^ 0) at 1. apply pow2_testbit. Qed.

Lemma pos_bits_In p k i : In i (pos_bits p k) <-> k <= i /\ N.testbit (N.pos p) (i - k) = true.
Proof.
  revert k. induction p as [q IH|q IH|]; intros k; cbn [pos_bits].
  - rewrite pos_testbit_I. cbn [In]. rewrite IH.
    destruct (N.eqb_spec (i - k) 0).
    + split; [intros [->|[]]; lia|]. intros [? _]. left. lia.
    + replace (N.pred (i - k)) with (i - N.succ k) by lia.
      split; [intros [->|[? ?]]; [lia|split; [lia|assumption]]|].
      intros [? ?]. right. split; [lia|assumption].
  - rewrite pos_testbit_O, IH. destruct (N.eqb_spec (i - k) 0).
    + split; [intros [? ?]; lia|intros [? ?]; discriminate].
    + replace (N.pred (i - k)) with (i - N.succ k) by lia.
      split; intros [? ?]; (split; [lia|assumption]).
  - rewrite pos_testbit_H. cbn. rewrite N.eqb_eq. split; [intros [->|[]]; lia|].
    intros [? ?]. left. lia.
Qed.

Lemma bits_of_In x i : In i (bits_of x) <-> N.testbit x i = true.
Proof.
  destruct x as [|p]; cbn [bits_of].
  - rewrite N.bits_0. split; [intros []|discriminate].
  - rewrite pos_bits_In, N.sub_0_r. split; [intros [? ?]; assumption|]. intros; split; [lia|assumption].
Qed.

Lemma pos_bits_sorted p k : StronglySorted N.lt (pos_bits p k).
Proof.
  revert k. induction p as [q IH|q IH|]; intros k; cbn [pos_bits].
  - constructor; [apply IH|]. apply Forall_forall. intros i Hi. apply pos_bits_In in Hi. lia.
  - apply IH.
  - constructor; constructor.
Qed.
Lemma bits_of_sorted x : StronglySorted N.lt (bits_of x).
Proof. destruct x; cbn; [constructor|apply pos_bits_sorted]. Qed.

Lemma pos_bits_length p k : N.of_nat (length (pos_bits p k)) = pos_count_ones p.
Proof.
  revert k. induction p as [q IH|q IH|]; intros k; cbn [pos_bits pos_count_ones length]; auto.
  rewrite Nat2N.inj_succ, IH. lia.
Qed.
Lemma bits_of_length x : N.of_nat (length (bits_of x)) = u_count_ones x.
Proof. destruct x; cbn; [reflexivity|apply pos_bits_length]. Qed.

Lemma sorted_unique (l l' : list N) :
  StronglySorted N.lt l -> StronglySorted N.lt l' -> (forall i, In i l <-> In i l') -> l = l'.
Proof.
  revert l'. induction l as [|a l IH]; intros l' Hs Hs' Hin.
  - destruct l' as [|b l']; [reflexivity|]. exfalso. apply (proj2 (Hin b)). now left.
  - destruct l' as [|b l']. { exfalso. apply (proj1 (Hin a)). now left. }
    inversion Hs as [|? ? Hsl Ha]; inversion Hs' as [|? ? Hsl' Hb]; subst.
    rewrite Forall_forall in Ha, Hb.
    assert (a = b).
    { destruct (proj1 (Hin a) (or_introl eq_refl)) as [|H1]; [congruence|].
      destruct (proj2 (Hin b) (or_introl eq_refl)) as [|H2]; [congruence|].
      specialize (Ha _ H2). specialize (Hb _ H1). lia. }
    subst b. f_equal. apply IH; auto. intros i. split; intros Hi.
    + destruct (proj1 (Hin i) (or_intror Hi)) as [->|]; [|assumption].
      specialize (Ha _ Hi). lia.
    + destruct (proj2 (Hin i) (or_intror Hi)) as [->|]; [|assumption].
      specialize (Hb _ Hi). lia.
Qed.

Lemma bits_of_unique x l :
  StronglySorted N.lt l -> (forall i, In i l <-> N.testbit x i = true) -> l = bits_of x.
Proof.
  intros Hs Hin. apply sorted_unique; [assumption|apply bits_of_sorted|].
  intros i. rewrite bits_of_In. apply Hin.
Qed.

Lemma sorted_app_inv (l l' : list N) :
  StronglySorted N.lt (l ++ l') ->
  StronglySorted N.lt l /\ StronglySorted N.lt l' /\ (forall a b, In a l -> In b l' -> a < b).
Proof.
  induction l as [|a l IH]; cbn; intros H.
  - repeat split; [constructor|assumption|intros ? ? []].
  - inversion H as [|? ? Hs Ha]; subst. destruct (IH Hs) as (H1 & H2 & H3).
    rewrite Forall_forall in Ha. repeat split; auto.
    + constructor; auto. apply Forall_forall. intros; apply Ha, in_or_app; auto.
    + intros x b [->|Hx] Hb; [apply Ha, in_or_app; auto|auto].
Qed.

(** Removing the lowest / highest set bit removes the first / last entry. *)
Lemma bits_of_cons x y b l :
  bits_of x = b :: l -> (forall i, N.testbit y i = N.testbit x i && negb (i =? b)) -> bits_of y = l.
Proof.
  intros Hx Hy. symmetry. apply bits_of_unique.
  - pose proof (bits_of_sorted x) as Hs. rewrite Hx in Hs. now inversion Hs.
  - intros i. rewrite Hy.
    pose proof (bits_of_sorted x) as Hs. rewrite Hx in Hs. inversion Hs as [|? ? _ Hb]; subst.
    rewrite Forall_forall in Hb. pose proof (bits_of_In x i) as Hin. rewrite Hx in Hin. cbn in Hin.
    rewrite andb_true_iff, <- Hin. destruct (N.eqb_spec i b) as [->|Hne]; cbn.
    + split; [intros Hi; specialize (Hb _ Hi); lia|intros [_ ?]; discriminate].
    + split; [auto|]. intros [[->|?] _]; [congruence|assumption].
Qed.
Lemma bits_of_snoc x y b l :
  bits_of x = l ++ [b] -> (forall i, N.testbit y i = N.testbit x i && negb (i =? b)) -> bits_of y = l.
Proof.
  intros Hx Hy. symmetry. pose proof (bits_of_sorted x) as Hs. rewrite Hx in Hs.
  destruct (sorted_app_inv _ _ Hs) as (H1 & _ & H3).
  apply bits_of_unique; [assumption|].
  intros i. pose proof (bits_of_In x i) as Hin. rewrite Hx, in_app_iff in Hin. cbn in Hin.
  rewrite Hy, andb_true_iff, <- Hin. destruct (N.eqb_spec i b) as [->|Hne]; cbn.
  - split; [intros Hi; specialize (H3 b b Hi (or_introl eq_refl)); lia|intros [_ ?]; discriminate].
  - split; [auto|]. intros [[?|[->|[]]] _]; [assumption|congruence].
Qed.

Lemma bits_of_first x b :
  N.testbit x b = true -> (forall i, i < b -> N.testbit x i = false) ->
  exists l, bits_of x = b :: l.
Proof.
  intros Hb Hlow. pose proof (proj2 (bits_of_In x b) Hb) as Hin.
  destruct (bits_of x) as [|c l] eqn:E; [destruct Hin|]. exists l. f_equal.
  assert (Hc : N.testbit x c = true) by (apply bits_of_In; rewrite E; now left).
  destruct Hin as [|Hin]; [congruence|].
  pose proof (bits_of_sorted x) as Hs. rewrite E in Hs. inversion Hs as [|? ? _ Hf]; subst.
  rewrite Forall_forall in Hf. specialize (Hf _ Hin). rewrite Hlow in Hc by lia. discriminate.
Qed.
Lemma bits_of_last x b :
  N.testbit x b = true -> (forall i, b < i -> N.testbit x i = false) ->
  exists l, bits_of x = l ++ [b].
Proof.
  intros Hb Hhigh. pose proof (proj2 (bits_of_In x b) Hb) as Hin.
  destruct (bits_of x) as [|a l0] eqn:E0; [destruct Hin|].
  destruct (@exists_last _ (a :: l0)) as (l & c & E); [discriminate|].
  rewrite E in *. clear E. exists l. f_equal. f_equal.
  assert (Hc : N.testbit x c = true). { apply bits_of_In. rewrite E0. apply in_or_app. right. now left. }
  apply in_app_iff in Hin. destruct Hin as [Hin|[?|[]]]; [|congruence].
  pose proof (bits_of_sorted x) as Hs. rewrite E0 in Hs. destruct (sorted_app_inv _ _ Hs) as (_ & _ & H3).
  specialize (H3 b c Hin (or_introl eq_refl)). rewrite Hhigh in Hc by lia. discriminate.
Qed.

Lemma bits_of_nil x : bits_of x = [] <-> x = 0.
Proof.
  split; [|intros ->; reflexivity]. intros H. apply bit_eq. intros i. rewrite N.bits_0.
  destruct (N.testbit x i) eqn:E; [|reflexivity]. apply bits_of_In in E. rewrite H in E. destruct E.
Qed.

(** trailing zeros *)
Lemma pos_ctz_spec p :
  N.testbit (N.pos p) (pos_trailing_zeros p) = true /\
  forall i, i < pos_trailing_zeros p -> N.testbit (N.pos p) i = false.
Proof.
  induction p as [q IH|q IH|]; cbn [pos_trailing_zeros].
  - split; [reflexivity|intros i Hi; lia].
  - destruct IH as [H1 H2]. split.
    + rewrite pos_testbit_O. destruct (N.eqb_spec (1 + pos_trailing_zeros q) 0); [lia|].
      now replace (N.pred (1 + pos_trailing_zeros q)) with (pos_trailing_zeros q) by lia.
    + intros i Hi. rewrite pos_testbit_O. destruct (N.eqb_spec i 0); [reflexivity|]. apply H2. lia.
  - split; [reflexivity|intros i Hi; lia].
Qed.
Lemma ctz_spec w x : x <> 0 ->
  N.testbit x (u_trailing_zeros w x) = true /\
  forall i, i < u_trailing_zeros w x -> N.testbit x i = false.
Proof. destruct x as [|p]; [congruence|]. intros _. apply pos_ctz_spec. Qed.

Lemma size_bound w x : x < 2 ^ w -> N.size x <= w.
Proof.
  intros H. destruct (N.eq_dec x 0) as [->|Hz]. { cbn. lia. }
  rewrite N.size_log2 by assumption. assert (N.log2 x < w); [|lia]. apply N.log2_lt_pow2; lia.
Qed.

Lemma count_ones_bound w x : x < 2 ^ w -> u_count_ones x <= w.
Proof.
  intros H. rewrite <- bits_of_length.
  assert (Hincl : incl (bits_of x) (map N.of_nat (seq 0 (N.to_nat w)))).
  { intros i Hi. apply bits_of_In in Hi. apply in_map_iff. exists (N.to_nat i).
    split; [lia|]. apply in_seq. destruct (N.lt_ge_cases i w) as [|Hge]; [lia|].
    rewrite (testbit_high x w i) in Hi; [discriminate|assumption|assumption]. }
  assert (Hnd : NoDup (bits_of x)).
  { pose proof (bits_of_sorted x) as Hs. induction Hs as [|a l Hs IH Ha]; constructor; auto.
    - rewrite Forall_forall in Ha. intros Hc. specialize (Ha _ Hc). lia.
    - apply IH. intros i Hi. apply Hincl. now right. }
  apply (NoDup_incl_length Hnd) in Hincl. rewrite map_length, seq_length in Hincl. lia.
Qed.

(** ** Lists *)
Lemma upd_length {A} (l : list A) i x : length (upd l i x) = length l.
Proof. revert i; induction l; intros [|i]; cbn; auto. Qed.
Lemma nth_upd {A} (l : list A) i j x d :
  nth j (upd l i x) d = if Nat.eqb j i && Nat.ltb i (length l) then x else nth j l d.
Proof.
  revert i j. induction l as [|a l IH]; intros [|i] [|j]; cbn [upd nth length]; auto.
  all: rewrite ?andb_false_r; auto.
  rewrite IH. reflexivity.
Qed.
Lemma upd_Forall {A} (P : A -> Prop) l i x : Forall P l -> P x -> Forall P (upd l i x).
Proof.
  intros Hl Hx. revert i. induction Hl; intros [|i]; cbn; constructor; auto.
Qed.
Lemma get_nth {A} (l : list A) i d : (i < length l)%nat -> get l i = Ret (nth i l d).
Proof.
  intros H. unfold get. rewrite (nth_error_nth' l d H). reflexivity.
Qed.
Lemma set_ret {A} (l : list A) i x : (i < length l)%nat -> set l i x = Ret (upd l i x).
Proof. intros H. unfold set. now rewrite (proj2 (Nat.ltb_lt _ _) H). Qed.
Lemma list_ext (l l' : list N) :
  length l = length l' -> (forall i, (i < length l)%nat -> nth i l 0 = nth i l' 0) -> l = l'.
Proof. intros H1 H2. eapply nth_ext; eauto. Qed.
Lemma Forall_nth_lt {P : N -> Prop} l i : Forall P l -> P 0 -> P (nth i l 0).
Proof.
  intros H H0. destruct (Nat.lt_ge_cases i (length l)) as [Hi|Hi].
  - rewrite Forall_forall in H. apply H, nth_In, Hi.
  - now rewrite nth_overflow.
Qed.

(** ** Loops *)
Lemma range_In lo hi i : In i (range lo hi) <-> (lo <= i < hi)%nat.
Proof. unfold range. rewrite in_seq. lia. Qed.

(** A loop that updates position [i] of an array from its old value there. *)
Lemma for_each_upd (f : nat -> N -> N) (body : nat -> list N -> M (list N)) lo k (l : list N) :
  (forall i m, length m = length l -> (lo <= i < lo + k)%nat -> body i m = Ret (upd m i (f i (nth i m 0)))) ->
  (lo + k <= length l)%nat ->
  exists l', for_each (seq lo k) l body = Ret l' /\ length l' = length l /\
    forall j, nth j l' 0 = if Nat.leb lo j && Nat.ltb j (lo + k) then f j (nth j l 0) else nth j l 0.
Proof.
  revert lo l. induction k as [|k IH]; intros lo l Hb Hlen; cbn [seq for_each].
  - exists l. repeat split; auto. intros j.
    destruct (Nat.leb_spec lo j), (Nat.ltb_spec j (lo + 0)); cbn; auto; lia.
  - rewrite Hb by lia. rewrite bind_ret.
    set (l1 := upd l lo (f lo (nth lo l 0))).
    assert (Hl1 : length l1 = length l) by apply upd_length.
    destruct (IH (S lo) l1) as (l' & E & El & En).
    + intros i m Hm Hi. apply Hb; lia.
    + lia.
    + exists l'. split; [exact E|]. split; [lia|]. intros j. rewrite En.
      unfold l1. rewrite nth_upd.
      destruct (Nat.leb_spec (S lo) j), (Nat.ltb_spec j (S lo + k)), (Nat.leb_spec lo j),
        (Nat.ltb_spec j (lo + S k)), (Nat.eqb_spec j lo), (Nat.ltb_spec lo (length l));
        cbn [andb]; subst; try lia; auto.
Qed.

(** Search loops. *)
Lemma for_ctrl_check_zero {B} (l : list N) lo hi (ret : B) :
  (hi <= length l)%nat ->
  for_ctrl (range lo hi) tt (fun i s => x <- get l i ;; Ret (if negb (x =? 0) then Return ret else Next s))
  = Ret (if forallb (fun i => nth i l 0 =? 0) (range lo hi) then inl tt else inr ret).
Proof.
  unfold range. intros Hhi. remember (hi - lo)%nat as k eqn:Ek.
  assert (Hk : (k = 0 \/ lo + k <= length l)%nat) by lia. clear Ek Hhi hi.
  revert lo Hk. induction k as [|k IH]; intros lo Hk; cbn [seq for_ctrl forallb]; [reflexivity|].
  rewrite (get_nth l lo 0) by lia. rewrite !bind_ret.
  destruct (nth lo l 0 =? 0); cbn; [|reflexivity].
  apply IH. lia.
Qed.

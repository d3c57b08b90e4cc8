(** * Claims about the storages themselves *)

From Verif Require Import Base BaseFacts LimbFacts Repr ReprLaws Prim PrimFacts ArrayRepr ArrayFacts Spec StorageSpec.
Ltac Zify.zify_post_hook ::= Z.div_mod_to_equations.

Lemma words_value_lval l : words_value l = lval l.
Proof. induction l; cbn; congruence. Qed.
Lemma words_ok_limbs l : words_ok l <-> limbs_ok l.
Proof. reflexivity. Qed.
Lemma storage_laws pw R value : pw = 16 \/ pw = 32 \/ pw = 64 -> Storage pw R value ->
  exists val irel, (forall x, value x = val x) /\ ReprLaws pw R (r_ok R) val irel.
Proof.
  intros Hpw [md w pl Hw|md n Hn Hn'].
  - exists (fun x => x), (p_irel w). split; [reflexivity|]. apply (prim_laws pw w pl).
    cbn in Hw. repeat destruct Hw as [Hw|Hw]; try contradiction; inversion Hw; subst; unfold prim_ok; lia.
  - exists lval, (a_irel n). split; [exact words_value_lval|]. apply (array_laws pw n); auto. lia.
Qed.
Ltac laws := match goal with HS : Storage _ _ _, Hp : _ = 16 \/ _ |- _ =>
  let val := fresh "val" in let irel := fresh "irel" in let E := fresh "E" in let HL := fresh "HL" in
  destruct (storage_laws _ _ _ Hp HS) as (val & irel & E & HL) end.

(** ** From the laws *)
Lemma laws_bits pw R value x y val irel : (forall x, value x = val x) -> ReprLaws pw R (r_ok R) val irel -> r_ok R x -> r_ok R y ->
  let bit z i := N.testbit (value z) i in
  r_ok R (r_empty R) /\ value (r_empty R) = 0 /\ value x < 2 ^ r_width R /\
  gives value (r_bitand R x y) (fun i => bit x i && bit y i) /\
  gives value (r_bitor R x y) (fun i => bit x i || bit y i) /\
  gives value (r_bitxor R x y) (fun i => xorb (bit x i) (bit y i)) /\
  gives value (r_and_not R x y) (fun i => bit x i && negb (bit y i)) /\
  gives value (r_not R x) (fun i => (i <? r_width R) && negb (bit x i)) /\
  (forall b, b < r_width R -> b < 2 ^ pw ->
     r_has_bit R x b = Ret (bit x b) /\
     gives value (r_add_bit R x b) (fun i => (i =? b) || bit x i) /\
     gives value (r_remove_bit R x b) (fun i => negb (i =? b) && bit x i)) /\
  (r_is_empty R x = true <-> forall i, bit x i = false) /\
  (r_eqb R x y = true <-> x = y) /\ (value x = value y <-> x = y) /\ (r_hash R x = r_hash R y <-> x = y).
Proof.
  intros E HL Hx Hy. cbv zeta. unfold gives.
  assert (G : forall m v f, yields (r_ok R) val m v -> (forall i, N.testbit v i = f i) ->
    exists z, m = Ret z /\ r_ok R z /\ forall i, N.testbit (value z) i = f i).
  { intros m v f (z & -> & Hz & Ez) Hf. exists z. split; [reflexivity|]. split; [assumption|]. intros i. now rewrite E, Ez. }
  destruct (rl_empty _ _ _ _ _ HL) as [He0 He1]. rewrite !E.
  split; [assumption|]. split; [assumption|]. split; [now apply (rl_val_lt _ _ _ _ _ HL)|].
  split; [|split; [|split; [|split; [|split; [|split; [|split; [|split; [|split]]]]]]]].
  - eapply G; [now apply (rl_bitand _ _ _ _ _ HL)|]. intros i. apply N.land_spec.
  - eapply G; [now apply (rl_bitor _ _ _ _ _ HL)|]. intros i. apply N.lor_spec.
  - eapply G; [now apply (rl_bitxor _ _ _ _ _ HL)|]. intros i. apply N.lxor_spec.
  - eapply G; [now apply (rl_and_not _ _ _ _ _ HL)|]. intros i. apply N.ldiff_spec.
  - eapply G; [now apply (rl_not _ _ _ _ _ HL)|]. intros i.
    rewrite bnot_testbit by now apply (rl_val_lt _ _ _ _ _ HL). reflexivity.
  - intros b Hb Hb'. split; [now apply (rl_has_bit _ _ _ _ _ HL)|]. split.
    + eapply G; [now apply (rl_add_bit _ _ _ _ _ HL)|]. intros i. rewrite N.setbit_eqb. now rewrite N.eqb_sym.
    + eapply G; [now apply (rl_remove_bit _ _ _ _ _ HL)|]. intros i. rewrite N.clearbit_eqb, N.eqb_sym. apply andb_comm.
  - rewrite (rl_is_empty _ _ _ _ _ HL) by assumption. rewrite N.eqb_eq. split.
    + intros -> i. apply N.bits_0.
    + intros H. apply N.bits_inj. intros i. now rewrite H, N.bits_0.
  - rewrite (rl_eqb _ _ _ _ _ HL), N.eqb_eq by assumption. split; [now apply (rl_inj _ _ _ _ _ HL)|now intros ->].
  - split; [now apply (rl_inj _ _ _ _ _ HL)|now intros ->].
  - split; [now apply (rl_hash_inj _ _ _ _ _ HL)|now intros ->].
Qed.
Lemma laws_counts pw R value x val irel : (forall x, value x = val x) -> ReprLaws pw R (r_ok R) val irel -> r_ok R x ->
  let bit i := N.testbit (value x) i in
  (exists n, r_count_ones R x = Ret n /\
     n = N.of_nat (length (filter (fun k => bit (N.of_nat k)) (seq 0 (N.to_nat (r_width R)))))) /\
  (exists n, r_leading_zeros R x = Ret n /\ n <= r_width R /\
     (forall i, r_width R - n <= i -> bit i = false) /\ (n = r_width R \/ bit (r_width R - n - 1) = true)) /\
  (exists n, r_trailing_zeros R x = Ret n /\ n <= r_width R /\
     (forall i, i < n -> bit i = false) /\ (n = r_width R \/ bit n = true)).
Proof.
  intros E HL Hx. cbv zeta. rewrite E. pose proof (rl_val_lt _ _ _ _ _ HL x Hx) as Hlt.
  split; [|split].
  - eexists. split; [now apply (rl_count_ones _ _ _ _ _ HL)|]. rewrite <- bits_of_length. f_equal.
    rewrite <- (map_length N.of_nat). f_equal. symmetry. apply bits_of_unique.
    + set (P := fun k => N.testbit (val x) (N.of_nat k)). generalize 0%nat. induction (N.to_nat (r_width R)) as [|n IH]; intros a; cbn [seq filter]; [constructor|].
      destruct (P a); [|apply IH]. cbn [map]. constructor; [apply IH|]. apply Forall_forall. intros k Hk.
      apply in_map_iff in Hk as (j & <- & Hj). apply filter_In in Hj as [Hj _]. apply in_seq in Hj. lia.
    + intros i. rewrite in_map_iff. split.
      * intros (k & <- & Hk). now apply filter_In in Hk.
      * intros Hi. exists (N.to_nat i). split; [apply N2Nat.id|]. apply filter_In. rewrite N2Nat.id. split; [|assumption].
        apply in_seq. assert (i < r_width R); [|lia]. apply N.nle_gt. intros Hge.
        rewrite (testbit_high _ _ _ Hlt Hge) in Hi. discriminate.
  - eexists. split; [now apply (rl_leading_zeros _ _ _ _ _ HL)|]. unfold u_leading_zeros.
    assert (Hs : N.size (val x) <= r_width R).
    { destruct (N.eq_dec (val x) 0) as [->|Hn]; [cbn; lia|]. rewrite N.size_log2 by assumption.
      apply N.le_succ_l. apply N.log2_lt_pow2; lia. }
    split; [lia|]. replace (r_width R - (r_width R - N.size (val x))) with (N.size (val x)) by lia.
    destruct (N.eq_dec (val x) 0) as [->|Hn].
    + split; [intros; apply N.bits_0|left; cbn; lia].
    + rewrite N.size_log2 by assumption. split.
      * intros i Hi. apply N.bits_above_log2. lia.
      * right. replace (N.succ (N.log2 (val x)) - 1) with (N.log2 (val x)) by lia. now apply N.bit_log2.
  - eexists. split; [now apply (rl_trailing_zeros _ _ _ _ _ HL)|].
    destruct (N.eq_dec (val x) 0) as [->|Hn].
    + cbn. split; [lia|]. split; [reflexivity|now left].
    + destruct (ctz_spec (r_width R) (val x) Hn) as [H1 H2]. split; [|auto].
      apply N.lt_le_incl, N.nle_gt. intros Hge. rewrite (testbit_high _ _ _ Hlt Hge) in H1. discriminate.
Qed.
Lemma laws_iter pw R value x val irel : (forall x, value x = val x) -> ReprLaws pw R (r_ok R) val irel -> r_ok R x ->
  exists it l, r_iter R x = Ret it /\ StronglySorted N.lt l /\ (forall i, In i l <-> N.testbit (value x) i = true) /\
    forall ps, exists it', r_pops R ps it = Ret (fst (pops ps l), it') /\
      let k := N.of_nat (length (snd (pops ps l))) in
      (k < 2 ^ pw -> r_iter_size_hint R it' = Ret (k, Some k)).
Proof.
  intros E HL Hx. destruct (rl_iter _ _ _ _ _ HL x Hx) as (it & Ei & Hi).
  exists it, (bits_of (val x)). split; [assumption|]. split; [apply bits_of_sorted|].
  split. { intros i. rewrite E. apply bits_of_In. }
  intros ps. enough (H : forall it l, irel it l -> exists it', r_pops R ps it = Ret (fst (pops ps l), it') /\ irel it' (snd (pops ps l))).
  { destruct (H _ _ Hi) as (it' & E' & Hi'). exists it'. split; [assumption|]. cbv zeta. intros Hk. now apply (rl_size_hint _ _ _ _ _ HL). }
  clear it Ei Hi. induction ps as [|p ps IH]; intros it l Hi; cbn [r_pops pops].
  - exists it. auto.
  - assert (H1 : exists it1, (match p with Front => r_iter_next R it | Back => r_iter_next_back R it end) = Ret (fst (pop_end p l), it1) /\ irel it1 (snd (pop_end p l))).
    { destruct p; cbn [pop_end fst snd]; [now apply (rl_next _ _ _ _ _ HL)|].
      destruct (rev l) as [|b r] eqn:Er.
      - assert (l = []) as -> by (rewrite <- (rev_involutive l), Er; reflexivity). cbn. now apply (rl_next_back_nil _ _ _ _ _ HL).
      - assert (El : l = rev r ++ [b]) by (rewrite <- (rev_involutive l), Er; reflexivity). cbn [hd_error tl].
        rewrite El in Hi. now apply (rl_next_back _ _ _ _ _ HL). }
    destruct H1 as (it1 & E1 & H1). rewrite E1. cbn [bind]. destruct (pop_end p l) as [o l1]. cbn [fst snd] in *.
    destruct (IH it1 l1 H1) as (it2 & E2 & H2). rewrite E2. cbn [bind].
    destruct (pops ps l1) as [os l2]. cbn [fst snd] in *. exists it2. auto.
Qed.
Lemma laws_numbers pw R value x val irel : (forall x, value x = val x) -> ReprLaws pw R (r_ok R) val irel -> r_ok R x ->
  (forall t, let w := ity_bits pw t in
     r_to R t x = Ret (value x mod 2 ^ w) /\
     r_to_opt R t x = Ret (if value x <? 2 ^ w then Some (value x) else None) /\
     forall v, v < 2 ^ w ->
       gives_value value (r_from R t v) (v mod 2 ^ r_width R) /\
       gives_option value (r_from_opt R t v) (if v <? 2 ^ r_width R then Some v else None)) /\
  (forall k, exists l, length l = k /\ words_ok l /\ words_value l = value x mod 2 ^ (64 * N.of_nat k) /\
     let fits := value x <? 2 ^ (64 * N.of_nat k) in
     r_to_u64_array R x k = Ret l /\
     r_to_u64_array_opt R x k = Ret (if fits then Some l else None) /\
     forall out, length out = k ->
       r_to_u64_slice R x out = Ret l /\
       r_to_u64_slice_opt R x out = Ret (if fits then (Some tt, l) else (None, out))) /\
  (forall l, words_ok l ->
     gives_value value (r_from_u64_array R l) (words_value l mod 2 ^ r_width R) /\
     gives_value value (r_from_u64_slice R l) (words_value l mod 2 ^ r_width R) /\
     gives_option value (r_from_u64_array_opt R l) (if words_value l <? 2 ^ r_width R then Some (words_value l) else None) /\
     gives_option value (r_from_u64_slice_opt R l) (if words_value l <? 2 ^ r_width R then Some (words_value l) else None)).
Proof.
  intros E HL Hx. rewrite E.
  assert (GV : forall m v, yields (r_ok R) val m v -> gives_value value m v).
  { intros m v (z & -> & Hz & Ez). exists z. rewrite E. auto. }
  assert (GO : forall m o, yields_opt (r_ok R) val m o -> gives_option value m o).
  { intros m [v|] H; [|exact H]. destruct H as (z & -> & Hz & Ez). exists z. rewrite E. auto. }
  split; [|split].
  - intros t. cbv zeta. split; [now apply (rl_to _ _ _ _ _ HL)|]. split; [now apply (rl_to_opt _ _ _ _ _ HL)|].
    intros v Hv. split; [apply GV; now apply (rl_from _ _ _ _ _ HL)|apply GO; now apply (rl_from_opt _ _ _ _ _ HL)].
  - intros k. exists (limbs k (val x)). split; [apply limbs_length|]. split; [apply words_ok_limbs, limbs_limbs_ok|].
    split; [rewrite words_value_lval; apply lval_limbs|]. cbv zeta.
    split; [now apply (rl_to_array _ _ _ _ _ HL)|]. split; [now apply (rl_to_array_opt _ _ _ _ _ HL)|].
    intros out <-. split; [now apply (rl_to_slice _ _ _ _ _ HL)|now apply (rl_to_slice_opt _ _ _ _ _ HL)].
  - intros l Hl. rewrite words_value_lval. apply words_ok_limbs in Hl.
    split; [apply GV; now apply (rl_from_array _ _ _ _ _ HL)|]. split; [apply GV; now apply (rl_from_slice _ _ _ _ _ HL)|].
    split; [apply GO; now apply (rl_from_array_opt _ _ _ _ _ HL)|apply GO; now apply (rl_from_slice_opt _ _ _ _ _ HL)].
Qed.

(** ** C55 *)
Lemma storage_bits pw R value x y : pw = 16 \/ pw = 32 \/ pw = 64 -> Storage pw R value -> r_ok R x -> r_ok R y ->
  let bit z i := N.testbit (value z) i in
  r_ok R (r_empty R) /\ value (r_empty R) = 0 /\ value x < 2 ^ r_width R /\
  gives value (r_bitand R x y) (fun i => bit x i && bit y i) /\
  gives value (r_bitor R x y) (fun i => bit x i || bit y i) /\
  gives value (r_bitxor R x y) (fun i => xorb (bit x i) (bit y i)) /\
  gives value (r_and_not R x y) (fun i => bit x i && negb (bit y i)) /\
  gives value (r_not R x) (fun i => (i <? r_width R) && negb (bit x i)) /\
  (forall b, b < r_width R -> b < 2 ^ pw ->
     r_has_bit R x b = Ret (bit x b) /\
     gives value (r_add_bit R x b) (fun i => (i =? b) || bit x i) /\
     gives value (r_remove_bit R x b) (fun i => negb (i =? b) && bit x i)) /\
  (r_is_empty R x = true <-> forall i, bit x i = false) /\
  (r_eqb R x y = true <-> x = y) /\ (value x = value y <-> x = y) /\ (r_hash R x = r_hash R y <-> x = y).
Proof.
  intros Hp HS. laws. exact (laws_bits _ _ _ x y val irel E HL).
Qed.
Lemma storage_counts pw R value x : pw = 16 \/ pw = 32 \/ pw = 64 -> Storage pw R value -> r_ok R x ->
  let bit i := N.testbit (value x) i in
  (exists n, r_count_ones R x = Ret n /\
     n = N.of_nat (length (filter (fun k => bit (N.of_nat k)) (seq 0 (N.to_nat (r_width R)))))) /\
  (exists n, r_leading_zeros R x = Ret n /\ n <= r_width R /\
     (forall i, r_width R - n <= i -> bit i = false) /\ (n = r_width R \/ bit (r_width R - n - 1) = true)) /\
  (exists n, r_trailing_zeros R x = Ret n /\ n <= r_width R /\
     (forall i, i < n -> bit i = false) /\ (n = r_width R \/ bit n = true)).
Proof.
  intros Hp HS. laws. exact (laws_counts _ _ _ x val irel E HL).
Qed.
Lemma storage_iter pw R value x : pw = 16 \/ pw = 32 \/ pw = 64 -> Storage pw R value -> r_ok R x ->
  exists it l, r_iter R x = Ret it /\ StronglySorted N.lt l /\ (forall i, In i l <-> N.testbit (value x) i = true) /\
    forall ps, exists it', r_pops R ps it = Ret (fst (pops ps l), it') /\
      let k := N.of_nat (length (snd (pops ps l))) in
      (k < 2 ^ pw -> r_iter_size_hint R it' = Ret (k, Some k)).
Proof.
  intros Hp HS. laws. exact (laws_iter _ _ _ x val irel E HL).
Qed.
Lemma storage_numbers pw R value x : pw = 16 \/ pw = 32 \/ pw = 64 -> Storage pw R value -> r_ok R x ->
  (forall t, let w := ity_bits pw t in
     r_to R t x = Ret (value x mod 2 ^ w) /\
     r_to_opt R t x = Ret (if value x <? 2 ^ w then Some (value x) else None) /\
     forall v, v < 2 ^ w ->
       gives_value value (r_from R t v) (v mod 2 ^ r_width R) /\
       gives_option value (r_from_opt R t v) (if v <? 2 ^ r_width R then Some v else None)) /\
  (forall k, exists l, length l = k /\ words_ok l /\ words_value l = value x mod 2 ^ (64 * N.of_nat k) /\
     let fits := value x <? 2 ^ (64 * N.of_nat k) in
     r_to_u64_array R x k = Ret l /\
     r_to_u64_array_opt R x k = Ret (if fits then Some l else None) /\
     forall out, length out = k ->
       r_to_u64_slice R x out = Ret l /\
       r_to_u64_slice_opt R x out = Ret (if fits then (Some tt, l) else (None, out))) /\
  (forall l, words_ok l ->
     gives_value value (r_from_u64_array R l) (words_value l mod 2 ^ r_width R) /\
     gives_value value (r_from_u64_slice R l) (words_value l mod 2 ^ r_width R) /\
     gives_option value (r_from_u64_array_opt R l) (if words_value l <? 2 ^ r_width R then Some (words_value l) else None) /\
     gives_option value (r_from_u64_slice_opt R l) (if words_value l <? 2 ^ r_width R then Some (words_value l) else None)).
Proof.
  intros Hp HS. laws. exact (laws_numbers _ _ _ x val irel E HL).
Qed.

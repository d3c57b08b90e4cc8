(** * Claims about the texts of integer literals *)
From Coq Require Import Ascii.
From Verif Require Import Base BaseFacts Syntax Spec Derive Literal LiteralSpec.
From Verif Require DeriveClaims.
Ltac Zify.zify_post_hook ::= Z.div_mod_to_equations.

(** ** Characters *)
Ltac upto n i := match n with O => idtac | S ?m => destruct i as [|i]; [|upto m i] end.
Lemma code_inj a b : N_of_ascii a = N_of_ascii b -> a = b.
Proof. intros E. rewrite <- (ascii_N_embedding a), E. apply ascii_N_embedding. Qed.
Lemma get_none s i : (String.length s <= i)%nat -> String.get i s = None.
Proof. revert i. induction s as [|c s IH]; intros [|i] H; cbn in *; try reflexivity; [lia|]. apply IH. lia. Qed.
Lemma get_some s i c : String.get i s = Some c -> (i < String.length s)%nat.
Proof. intros H. destruct (Nat.lt_ge_cases i (String.length s)) as [Hl|Hl]; [exact Hl|]. rewrite get_none in H by assumption. discriminate. Qed.
Lemma digit_code c d : digit_is c d <->
  (d < 10 /\ N_of_ascii c = 48 + d) \/ (10 <= d < 16 /\ (N_of_ascii c = 87 + d \/ N_of_ascii c = 55 + d)).
Proof.
  unfold digit_is. assert (Ed : d = N.of_nat (N.to_nat d)) by lia. revert Ed. generalize (N.to_nat d). intros n ->. rewrite ?Nat2N.id. split.
  - intros H. assert (Hd : (n < 16)%nat) by (destruct H as [H|H]; apply get_some in H; exact H).
    do 16 (destruct n as [|n]; [destruct H as [H|H]; cbn [String.get] in H;
      match type of H with Some ?x = Some ?y => assert (Ec : y = x) by congruence; rewrite Ec end;
      first [left; split; reflexivity|right; split; [split; [discriminate|reflexivity]|first [left; reflexivity|right; reflexivity]]]|]).
    lia.
  - intros H. assert (Hn : (n < 16)%nat) by lia.
    do 16 (destruct n as [|n];
      [cbn [String.get]; first
        [left; f_equal; apply code_inj; destruct H as [[H1 H2]|[H1 [H2|H2]]]; [rewrite H2; reflexivity|lia|lia]
        |destruct H as [[H1 H2]|[H1 [H2|H2]]]; [lia|left|right]; f_equal; apply code_inj; rewrite H2; reflexivity]|]).
    lia.
Qed.
Lemma decimal_code c : decimal c <-> 48 <= N_of_ascii c <= 57.
Proof.
  unfold decimal. split.
  - intros [n H]. assert (Hn : (n < 10)%nat) by (apply get_some in H; exact H).
    do 10 (destruct n as [|n]; [cbn [String.get] in H;
      match type of H with Some ?x = Some ?y => assert (Ec : y = x) by congruence; rewrite Ec end; split; discriminate|]). lia.
  - intros H. exists (N.to_nat (N_of_ascii c - 48)). assert (Ec : N_of_ascii c = 48 + (N_of_ascii c - 48)) by lia.
    assert (Hd : N_of_ascii c - 48 < 10) by lia. revert Ec Hd. generalize (N_of_ascii c - 48). intros d Ec Hd.
    assert (H' : digit_is c d) by (apply digit_code; lia). destruct H' as [H'|H'];
      rewrite <- (N2Nat.id d) in Hd; revert H'; generalize dependent (N.to_nat d); intros n Hn;
      do 10 (destruct n as [|n]; [exact (fun x => x)|]); lia.
Qed.
Lemma letter_code c : letter c <-> 97 <= N_of_ascii c <= 122 \/ 65 <= N_of_ascii c <= 90.
Proof.
  unfold letter. split.
  - intros [n H]. assert (Hn : (n < 26)%nat) by (destruct H as [H|H]; apply get_some in H; exact H).
    do 26 (destruct n as [|n]; [destruct H as [H|H]; cbn [String.get] in H;
      match type of H with Some ?x = Some ?y => assert (Ec : y = x) by congruence; rewrite Ec end;
      first [left; split; discriminate|right; split; discriminate]|]). lia.
  - intros [H|H].
    + exists (N.to_nat (N_of_ascii c - 97)). left. assert (Ec : N_of_ascii c = 97 + N.of_nat (N.to_nat (N_of_ascii c - 97))) by lia.
      assert (Hn : (N.to_nat (N_of_ascii c - 97) < 26)%nat) by lia. revert Ec Hn. generalize (N.to_nat (N_of_ascii c - 97)). intros n Ec Hn. clear H.
      do 26 (destruct n as [|n]; [cbn [String.get]; f_equal; apply code_inj; rewrite Ec; reflexivity|]). lia.
    + exists (N.to_nat (N_of_ascii c - 65)). right. assert (Ec : N_of_ascii c = 65 + N.of_nat (N.to_nat (N_of_ascii c - 65))) by lia.
      assert (Hn : (N.to_nat (N_of_ascii c - 65) < 26)%nat) by lia. revert Ec Hn. generalize (N.to_nat (N_of_ascii c - 65)). intros n Ec Hn. clear H.
      do 26 (destruct n as [|n]; [cbn [String.get]; f_equal; apply code_inj; rewrite Ec; reflexivity|]). lia.
Qed.
Lemma char_code c k : k < 256 -> (c = ascii_of_N k <-> N_of_ascii c = k).
Proof. intros Hk. split; [intros ->; now apply N_ascii_embedding|]. intros <-. symmetry. apply ascii_N_embedding. Qed.
Lemma between_spec a n b : between a n b = true <-> a <= n <= b.
Proof. unfold between. rewrite andb_true_iff, !N.leb_le. reflexivity. Qed.
Lemma underscore_code c : c = "_"%char <-> N_of_ascii c = 95.
Proof. exact (char_code c 95 eq_refl). Qed.

Lemma continue_code c : xid_continue (N_of_ascii c) = true <-> letter c \/ decimal c \/ c = "_"%char.
Proof.
  unfold xid_continue, xid_start. rewrite !orb_true_iff, !between_spec, N.eqb_eq, letter_code, decimal_code, underscore_code. tauto.
Qed.
Lemma all_continue_spec s : all_continue s = true <-> forall i c, String.get i s = Some c -> letter c \/ decimal c \/ c = "_"%char.
Proof.
  induction s as [|c s IH]; cbn [all_continue].
  - split; [intros _ [|i] c H; discriminate|reflexivity].
  - rewrite andb_true_iff, IH, continue_code. split.
    + intros [H1 H2] [|i] c' H; cbn [String.get] in H; [injection H as <-; exact H1|eauto].
    + intros H. split; [exact (H O c eq_refl)|]. intros i c'. exact (H (S i) c').
Qed.
(** What the loop over the digits stops at *)
Lemma suffix_spec s : suffix_word s <-> ((s =? "")%string || xid_ok s = true /\ ~ begins (eq "_"%char) s).
Proof.
  unfold suffix_word. destruct s as [|c s].
  - split; [|auto]. intros _. split; [reflexivity|]. intros (c & r & E & _). discriminate.
  - assert (Eb : forall P : ascii -> Prop, begins P (String c s) <-> P c).
    { intros P. split; [intros (c' & r & E & H); injection E as -> ->; exact H|intros H; exists c, s; auto]. }
    rewrite !Eb. cbn [String.eqb orb xid_ok]. rewrite andb_true_iff, all_continue_spec. unfold xid_start.
    rewrite !orb_true_iff, !between_spec, N.eqb_eq, <- underscore_code, letter_code. split.
    + intros [H|[H1 H2]]; [discriminate|]. split; [split; [tauto|intros i c'; exact (H2 (S i) c')]|].
      intros E. symmetry in E. apply underscore_code in E. rewrite E in H1. lia.
    + intros [[H1 H2] H3]. right. split; [destruct H1 as [[H1|H1]|H1]; [now rewrite H1 in H3|tauto|tauto]|].
      intros [|i] c' H; cbn [String.get] in H; [injection H as <-|eauto].
      destruct H1 as [[H1|H1]|H1]; [now rewrite H1 in H3| |]; left; apply letter_code; tauto.
Qed.

(** What makes a decimal number a float *)
Lemma exponent_true s : all_continue s = true -> exponent true s = true.
Proof.
  induction s as [|c s IH]; [reflexivity|]. cbn [exponent]. intros H. pose proof H as Hx. cbn [all_continue] in H. apply andb_true_iff in H. destruct H as [Hc Hs].
  destruct (N.eqb_spec (N_of_ascii c) 95); [auto|]. destruct ((N_of_ascii c =? 45) || (N_of_ascii c =? 43)); [reflexivity|].
  destruct (between 48 (N_of_ascii c) 57) eqn:Ed; [auto|]. cbn [andb xid_ok]. rewrite Hs, andb_true_r.
  unfold xid_continue in Hc. now rewrite Ed, orb_false_r in Hc.
Qed.
Lemma exponent_spec s : all_continue s = true ->
  (exponent false s = true <->
   exists k d, decimal d /\ (forall i, (i < k)%nat -> String.get i s = Some "_"%char) /\ String.get k s = Some d).
Proof.
  induction s as [|c s IH].
  { intros _. split; [discriminate|]. intros ([|k] & d & _ & _ & H); discriminate. }
  cbn [exponent all_continue]. intros H. apply andb_true_iff in H. destruct H as [Hc Hs]. apply continue_code in Hc.
  destruct (N.eqb_spec (N_of_ascii c) 95) as [E|E].
  - rewrite (IH Hs). apply underscore_code in E. subst c. split; intros (k & d & Hd & Hu & Hk).
    + exists (S k), d. split; [exact Hd|]. split; [|exact Hk]. intros [|i] Hi; [reflexivity|]. apply Hu. lia.
    + destruct k as [|k]; [injection Hk as <-; apply decimal_code in Hd; cbn in Hd; lia|].
      exists k, d. split; [exact Hd|]. split; [|exact Hk]. intros i Hi. apply (Hu (S i)). lia.
  - assert (Hn : 48 <= N_of_ascii c <= 57 \/ 97 <= N_of_ascii c <= 122 \/ 65 <= N_of_ascii c <= 90).
    { rewrite letter_code, decimal_code, underscore_code in Hc. tauto. }
    destruct (N.eqb_spec (N_of_ascii c) 45); [lia|]. destruct (N.eqb_spec (N_of_ascii c) 43); [lia|]. cbn [orb].
    destruct (between 48 (N_of_ascii c) 57) eqn:Ed.
    + rewrite (exponent_true s Hs). split; [intros _|reflexivity]. exists O, c. split; [|split; [lia|reflexivity]].
      apply decimal_code. now apply between_spec.
    + split; [discriminate|]. intros (k & d & Hd & Hu & Hk). exfalso. destruct k as [|k].
      * injection Hk as <-. apply decimal_code, between_spec in Hd. congruence.
      * specialize (Hu O ltac:(lia)). injection Hu as ->. now apply E.
Qed.
Lemma exponent_suffix_spec c s : suffix_word (String c s) -> letter_e c -> (exponent_suffix (String c s) <-> exponent false s = true).
Proof.
  intros [Hw|[_ Hw]] He; [discriminate|]. rewrite exponent_spec by (apply all_continue_spec; intros i; exact (Hw (S i))). split.
  - intros (e & k & d & rest & E & _ & H). injection E as <- <-. now exists k, d.
  - intros (k & d & H). exists c, k, d, s. auto.
Qed.
Lemma letter_e_code c : letter_e c <-> (N_of_ascii c =? 101) || (N_of_ascii c =? 69) = true.
Proof.
  unfold letter_e. rewrite orb_true_iff, !N.eqb_eq. rewrite (char_code c 101 eq_refl), (char_code c 69 eq_refl). reflexivity.
Qed.

Section Digits.
Context (base : N) (Hbase : base = 2 \/ base = 8 \/ base = 10 \/ base = 16).
Definition nonempty {X} (l : list X) : bool := match l with [] => false | _ => true end.
Definition total (value : N) (ds : list N) : N := value * base ^ N.of_nat (length ds) + number base ds.
Lemma total_cons value d ds : total (value * base + d) ds = total value (d :: ds).
Proof.
  unfold total. cbn [length number]. rewrite Nat2N.inj_succ, N.pow_succ_r'. lia.
Qed.
Lemma digit_of_code c :
  (exists d, digit_is c d /\ d < base) <->
  (between 48 (N_of_ascii c) 57 = true /\ N_of_ascii c - 48 < base) \/
  (10 < base /\ (between 97 (N_of_ascii c) 102 = true \/ between 65 (N_of_ascii c) 70 = true)).
Proof.
  rewrite !between_spec. split.
  - intros (d & Hd & Hlt). apply digit_code in Hd. lia.
  - intros H. destruct (N.le_gt_cases (N_of_ascii c) 57) as [H1|H1].
    + exists (N_of_ascii c - 48). rewrite digit_code. lia.
    + destruct (N.le_gt_cases (N_of_ascii c) 70) as [H2|H2].
      * exists (N_of_ascii c - 55). rewrite digit_code. lia.
      * exists (N_of_ascii c - 87). rewrite digit_code. lia.
Qed.

Lemma digits_read s ds suffix : digits base s ds -> forall value has,
  lit_digits base value has (s ++ suffix) = lit_digits base (total value ds) (has || nonempty ds) suffix.
Proof.
  induction 1 as [|s ds _ IH|c d s ds Hd Hlt _ IH]; intros value has.
  - cbn [append nonempty]. unfold total. cbn [length number]. rewrite orb_false_r. f_equal. cbn. lia.
  - cbn [append lit_digits]. change (N_of_ascii "_") with 95. cbn [between N.leb N.eqb N.compare Pos.compare Pos.compare_cont andb Pos.eqb].
    rewrite !andb_false_r. apply IH.
  - cbn [append lit_digits nonempty]. rewrite orb_true_r, <- total_cons. apply digit_code in Hd.
    specialize (IH (value * base + d) true). cbn [orb] in IH.
    destruct Hd as [[H1 H2]|[H1 [H2|H2]]]; rewrite H2.
    + rewrite (proj2 (between_spec 48 (48 + d) 57)) by lia. replace (48 + d - 48) with d by lia.
      destruct (N.leb_spec base d); [lia|]. exact IH.
    + replace (between 48 (87 + d) 57) with false by (symmetry; apply not_true_iff_false; rewrite between_spec; lia).
      rewrite (proj2 (between_spec 97 (87 + d) 102)) by lia. destruct (N.ltb_spec 10 base); [|lia]. cbn [andb].
      replace (87 + d - 97 + 10) with d by lia. destruct (N.leb_spec base d); [lia|]. exact IH.
    + replace (between 48 (55 + d) 57) with false by (symmetry; apply not_true_iff_false; rewrite between_spec; lia).
      replace (between 97 (55 + d) 102) with false by (symmetry; apply not_true_iff_false; rewrite between_spec; lia).
      rewrite (proj2 (between_spec 65 (55 + d) 70)) by lia. destruct (N.ltb_spec 10 base); [|lia]. cbn [andb].
      replace (55 + d - 65 + 10) with d by lia. destruct (N.leb_spec base d); [lia|]. exact IH.
Qed.
Lemma digits_stop suffix value has : suffix_word suffix ->
  (base = 10 -> ~ exponent_suffix suffix) ->
  ~ begins (fun c => exists d, digit_is c d /\ d < base) suffix ->
  lit_digits base value has suffix = Some (value, has, suffix).
Proof.
  intros Hw He Hd. destruct suffix as [|c r]; [reflexivity|]. cbn [lit_digits].
  pose proof (exponent_suffix_spec c r Hw) as HX.
  destruct Hw as [Hw|[(c' & r' & E & Hl) _]]; [discriminate|]. injection E as <- <-. apply letter_code in Hl.
  assert (Hc : ~ exists d, digit_is c d /\ d < base) by (intros H; apply Hd; exists c, r; auto). rewrite digit_of_code in Hc.
  replace (between 48 (N_of_ascii c) 57) with false by (symmetry; apply not_true_iff_false; rewrite between_spec; lia).
  destruct (N.ltb_spec 10 base); cbn [andb].
  - destruct (between 97 (N_of_ascii c) 102) eqn:E1; [exfalso; apply Hc; tauto|].
    destruct (between 65 (N_of_ascii c) 70) eqn:E2; [exfalso; apply Hc; tauto|].
    destruct (N.eqb_spec (N_of_ascii c) 95); [lia|]. destruct (N.eqb_spec base 10); [lia|]. reflexivity.
  - destruct (N.eqb_spec (N_of_ascii c) 95); [lia|]. destruct (N.eqb_spec (N_of_ascii c) 46); [lia|].
    rewrite andb_false_r. destruct (N.eqb_spec base 10) as [Eb|Eb]; [|reflexivity]. cbn [andb].
    destruct ((N_of_ascii c =? 101) || (N_of_ascii c =? 69)) eqn:Ec; [|reflexivity]. apply letter_e_code in Ec.
    destruct (exponent false r); [|reflexivity]. exfalso. apply (He Eb). now apply HX.
Qed.
Lemma digits_found s : forall value has v h suffix, lit_digits base value has s = Some (v, h, suffix) ->
  exists b ds, s = (b ++ suffix)%string /\ digits base b ds /\ v = total value ds /\ h = has || nonempty ds /\
    ~ begins (eq "_"%char) suffix /\ ~ begins (fun c => exists d, digit_is c d /\ d < base) suffix /\
    (suffix_word suffix -> base = 10 -> ~ exponent_suffix suffix).
Proof.
  assert (Ht : forall value, value = total value []).
  { intros value. unfold total. cbn [length number]. rewrite N.pow_0_r. lia. }
  induction s as [|c s IH]; intros value has v h suffix E; cbn [lit_digits] in E.
  - injection E as <- <- <-. exists ""%string, []. cbn [nonempty]. rewrite orb_false_r. repeat split; auto; [constructor| | |];
      [intros (c & r & E & _); discriminate|intros (c & r & E & _); discriminate|].
    intros _ _ (e & k & d & r & E & _). discriminate.
  - assert (Hdig : forall d, d < base -> digit_is c d -> lit_digits base (value * base + d) true s = Some (v, h, suffix) ->
      exists b ds, String c s = (b ++ suffix)%string /\ digits base b ds /\ v = total value ds /\ h = has || nonempty ds /\
        ~ begins (eq "_"%char) suffix /\ ~ begins (fun c => exists d, digit_is c d /\ d < base) suffix /\
        (suffix_word suffix -> base = 10 -> ~ exponent_suffix suffix)).
    { intros d Hd Hc E'. destruct (IH _ _ _ _ _ E') as (b & ds & -> & H1 & -> & -> & H2 & H3 & H4).
      exists (String c b), (d :: ds). rewrite total_cons. cbn [nonempty]. rewrite orb_true_r. repeat split; auto. now apply (digits_digit _ c d). }
    assert (Hend : Some (value, has, String c s) = Some (v, h, suffix) -> N_of_ascii c <> 95 ->
      between 48 (N_of_ascii c) 57 = false ->
      (10 < base -> between 97 (N_of_ascii c) 102 = false /\ between 65 (N_of_ascii c) 70 = false) ->
      (base = 10 -> letter_e c -> exponent false s = false) ->
      exists b ds, String c s = (b ++ suffix)%string /\ digits base b ds /\ v = total value ds /\ h = has || nonempty ds /\
        ~ begins (eq "_"%char) suffix /\ ~ begins (fun c => exists d, digit_is c d /\ d < base) suffix /\
        (suffix_word suffix -> base = 10 -> ~ exponent_suffix suffix)).
    { intros E' Hu H1 H2 HX. injection E' as <- <- <-. exists ""%string, []. cbn [nonempty]. rewrite orb_false_r. repeat split; auto; [constructor| | |].
      - intros (c' & r & E' & Hc). injection E' as -> ->. apply Hu. now rewrite <- Hc.
      - intros (c' & r & E' & Hc). injection E' as -> ->. apply digit_of_code in Hc. destruct Hc as [[Hc _]|[Hb Hc]]; [congruence|].
        destruct (H2 Hb). destruct Hc; congruence.
      - intros Hw Hb He. pose proof He as (e & k & d & r & E' & Hl & _). injection E' as <- <-.
        apply (exponent_suffix_spec c s Hw Hl) in He. rewrite HX in He by assumption. discriminate. }
    destruct (between 48 (N_of_ascii c) 57) eqn:E1.
    { apply between_spec in E1. destruct (N.leb_spec base (N_of_ascii c - 48)); [discriminate|]. apply (Hdig (N_of_ascii c - 48)); auto. apply digit_code. lia. }
    destruct (N.ltb_spec 10 base) as [Hb|Hb]; cbn [andb] in E.
    + destruct (between 97 (N_of_ascii c) 102) eqn:E2.
      { apply between_spec in E2. destruct (N.leb_spec base (N_of_ascii c - 97 + 10)); [discriminate|]. eapply Hdig; [| |exact E]; [lia|]. apply digit_code. lia. }
      destruct (between 65 (N_of_ascii c) 70) eqn:E3.
      { apply between_spec in E3. destruct (N.leb_spec base (N_of_ascii c - 65 + 10)); [discriminate|]. eapply Hdig; [| |exact E]; [lia|]. apply digit_code. lia. }
      destruct (N.eqb_spec (N_of_ascii c) 95) as [Eu|Eu].
      { destruct (IH _ _ _ _ _ E) as (b & ds & -> & H1 & -> & -> & H2 & H3 & H4). apply underscore_code in Eu. subst c.
        exists ("_" ++ b)%string, ds. repeat split; auto. now constructor. }
      destruct (N.eqb_spec base 10); [lia|]. cbn [andb] in E. apply Hend; auto. intros H. contradiction.
    + destruct (N.eqb_spec (N_of_ascii c) 95) as [Eu|Eu].
      { destruct (IH _ _ _ _ _ E) as (b & ds & -> & H1 & -> & -> & H2 & H3 & H4). apply underscore_code in Eu. subst c.
        exists ("_" ++ b)%string, ds. repeat split; auto. now constructor. }
      destruct ((base =? 10) && (N_of_ascii c =? 46)); [discriminate|].
      assert (Es : Some (value, has, String c s) = Some (v, h, suffix)).
      { destruct ((base =? 10) && _); [destruct (exponent false s); [discriminate|exact E]|exact E]. }
      apply Hend; auto; [intros H; lia|]. intros Hb10 Hl. apply letter_e_code in Hl. rewrite Hl in E. apply N.eqb_eq in Hb10. rewrite Hb10 in E.
      cbn [andb] in E. now destruct (exponent false s).
Qed.
End Digits.

(** ** C74 *)
Lemma bases prefix base : prefixed prefix base -> base = 2 \/ base = 8 \/ base = 10 \/ base = 16.
Proof. destruct 1; auto. Qed.
Lemma suffix_checked s : suffix_word s -> (s =? "")%string || xid_ok s = true.
Proof. intros H. now apply suffix_spec. Qed.
Lemma body_read base body ds suffix : base = 2 \/ base = 8 \/ base = 10 \/ base = 16 ->
  digits base body ds -> ds <> [] -> suffix_word suffix -> (base = 10 -> ~ exponent_suffix suffix) ->
  ~ begins (fun c => exists d, digit_is c d /\ d < base) suffix ->
  match lit_digits base 0 false (body ++ suffix) with
  | Some (value, true, suffix) => if (suffix =? "")%string || xid_ok suffix then Some (value, suffix) else None
  | _ => None
  end = Some (number base ds, suffix).
Proof.
  intros Hb HD Hne Hw He Hd. rewrite (digits_read base Hb body ds suffix HD), (digits_stop base Hb) by assumption.
  destruct ds as [|d ds]; [contradiction|]. cbn [nonempty orb]. rewrite suffix_checked by assumption. reflexivity.
Qed.
Lemma integer_int text n suffix : integer_text text n suffix -> lit_int text = Some (n, suffix).
Proof.
  intros [prefix base body ds suf HP HD Hne Hw He Hd Hu Hx].
  pose proof (body_read base body ds suf (bases _ _ HP) HD Hne Hw He Hd) as HR. unfold lit_int.
  destruct HP; cbn [append first_byte rest_of]; try exact HR.
  assert (Hb : exists c b, body = String c b /\ between 48 (N_of_ascii c) 57 = true /\
    (b = ""%string \/ exists c2 b2, b = String c2 b2 /\ (N_of_ascii c2 = 95 \/ 48 <= N_of_ascii c2 <= 57))).
  { destruct HD as [|s ds _|c d s ds Hc Hlt HD]; [contradiction|exfalso; apply (Hu eq_refl); now exists "_"%char, s|].
    apply digit_code in Hc. exists c, s. split; [reflexivity|]. split; [rewrite between_spec; lia|].
    destruct HD as [|s ds _|c2 d2 s ds Hc2 Hlt2 _]; [now left|right; exists "_"%char, s; split; [reflexivity|now left]|].
    apply digit_code in Hc2. right. exists c2, s. split; [reflexivity|]. lia. }
  destruct Hb as (c & b & -> & Hc & Hb). cbn [append first_byte rest_of]. rewrite Hc.
  assert (Hn : N_of_ascii c = 48 -> forall k, k = 120 \/ k = 111 \/ k = 98 -> first_byte (b ++ suf) <> k).
  { intros E0 k Hk E. destruct Hb as [->|(c2 & b2 & -> & Hc2)]; [|cbn [append first_byte] in E; lia].
    cbn [append] in E. apply Hx. split; [reflexivity|]. split.
    - f_equal. apply code_inj. rewrite E0. reflexivity.
    - destruct suf as [|c2 r]; [cbn in E; lia|]. exists c2, r. split; [reflexivity|]. cbn [first_byte] in E.
      destruct Hk as [-> |[-> | ->]]; [right; right|right; left|left]; apply code_inj; rewrite E; reflexivity. }
  destruct (N.eqb_spec (N_of_ascii c) 48) as [E0|E0]; cbn [andb]; [|exact HR].
  destruct (N.eqb_spec (first_byte (b ++ suf)) 120); [exfalso; eapply (Hn E0 120); auto|].
  destruct (N.eqb_spec (first_byte (b ++ suf)) 111); [exfalso; eapply (Hn E0 111); auto|].
  destruct (N.eqb_spec (first_byte (b ++ suf)) 98); [exfalso; eapply (Hn E0 98); auto|]. exact HR.
Qed.
Lemma found_body base s n suffix : base = 2 \/ base = 8 \/ base = 10 \/ base = 16 ->
  match lit_digits base 0 false s with
  | Some (value, true, suffix) => if (suffix =? "")%string || xid_ok suffix then Some (value, suffix) else None
  | _ => None
  end = Some (n, suffix) ->
  exists body ds, s = (body ++ suffix)%string /\ digits base body ds /\ ds <> [] /\ n = number base ds /\ suffix_word suffix /\
    ~ begins (fun c => exists d, digit_is c d /\ d < base) suffix /\ (base = 10 -> ~ exponent_suffix suffix).
Proof.
  intros Hb E. destruct (lit_digits base 0 false s) as [[[v [|]] suf]|] eqn:El; try discriminate.
  destruct ((suf =? "")%string || xid_ok suf) eqn:Es; [|discriminate]. injection E as <- <-.
  destruct (digits_found base Hb _ _ _ _ _ _ El) as (body & ds & -> & HD & -> & Eh & Hu & Hd & HX).
  exists body, ds. split; [reflexivity|]. split; [exact HD|]. split; [intros ->; discriminate|]. split; [reflexivity|].
  assert (Hw : suffix_word suf) by now apply suffix_spec. split; [exact Hw|]. split; [exact Hd|]. now apply HX.
Qed.
Lemma int_integer text n suffix : lit_int text = Some (n, suffix) -> integer_text text n suffix.
Proof.
  intros E. unfold lit_int in E.
  assert (Hp : forall k, (first_byte text =? 48) && (first_byte (rest_of text) =? k) = true -> 0 < k -> k < 256 ->
    text = String "0" (String (ascii_of_N k) (rest_of (rest_of text)))).
  { intros k H Hk1 Hk2. apply andb_true_iff in H. destruct H as [H1 H2]. apply N.eqb_eq in H1, H2.
    destruct text as [|c [|c2 r]]; cbn [first_byte rest_of] in *; try lia. f_equal; [apply code_inj; rewrite H1; reflexivity|f_equal; now apply char_code]. }
  destruct ((first_byte text =? 48) && (first_byte (rest_of text) =? 120)) eqn:E1.
  { destruct (found_body 16 _ _ _ (bases _ _ base_16) E) as (body & ds & Er & HD & Hne & -> & Hw & Hd & He).
    rewrite (Hp 120 E1 eq_refl eq_refl), Er. apply (integer_of "0x" 16 body ds suffix base_16); auto; [discriminate|]. intros [H _]; discriminate. }
  destruct ((first_byte text =? 48) && (first_byte (rest_of text) =? 111)) eqn:E2.
  { destruct (found_body 8 _ _ _ (bases _ _ base_8) E) as (body & ds & Er & HD & Hne & -> & Hw & Hd & He).
    rewrite (Hp 111 E2 eq_refl eq_refl), Er. apply (integer_of "0o" 8 body ds suffix base_8); auto; [discriminate|]. intros [H _]; discriminate. }
  destruct ((first_byte text =? 48) && (first_byte (rest_of text) =? 98)) eqn:E3.
  { destruct (found_body 2 _ _ _ (bases _ _ base_2) E) as (body & ds & Er & HD & Hne & -> & Hw & Hd & He).
    rewrite (Hp 98 E3 eq_refl eq_refl), Er. apply (integer_of "0b" 2 body ds suffix base_2); auto; [discriminate|]. intros [H _]; discriminate. }
  destruct (between 48 (first_byte text) 57) eqn:E4; [|discriminate]. apply between_spec in E4.
  destruct (found_body 10 _ _ _ (bases _ _ base_10) E) as (body & ds & Er & HD & Hne & -> & Hw & Hd & He).
  rewrite Er. apply (integer_of "" 10 body ds suffix base_10); auto.
  - intros _ (c & r & -> & <-). rewrite Er in E4. cbn in E4. lia.
  - intros (_ & -> & c & r & -> & Hc). rewrite Er in E1, E2, E3. cbn [append first_byte rest_of andb N.eqb] in *.
    destruct Hc as [-> |[-> | ->]]; discriminate.
Qed.
Lemma literal_read text n suffix : integer_text text n suffix <-> lit_int text = Some (n, suffix).
Proof. split; [apply integer_int|apply int_integer]. Qed.
Lemma literal_int text n suffix : literal text n suffix -> lit_int text = Some (n, suffix).
Proof. intros [H _]. now apply integer_int. Qed.

Lemma read_discrs vs : (forall t, In (Some t) (map snd vs) -> exists n suffix, literal t n suffix) ->
  forall next, text_discrs next (map snd vs) (rustc_discrs_from next (read_variants vs)).
Proof.
  induction vs as [|[name [t|]] vs IH]; intros H next; cbn [map snd fst read_variants rustc_discrs_from vd_discr option_map].
  - constructor.
  - destruct (H t) as (n & suffix & HL); [now left|]. unfold discr_of_text. rewrite (literal_int _ _ _ HL).
    apply td_explicit with suffix; [exact HL|]. apply IH. intros u Hu. apply H. now right.
  - constructor. apply IH. intros u Hu. apply H. now right.
Qed.
Lemma declared_discriminants md pw reprs a vs T :
  (forall t, In (Some t) (map snd vs) -> exists n suffix, literal t n suffix) ->
  derive md pw (MkInput false true reprs a (read_variants vs)) = Ret (Ok T) ->
  text_discrs 0 (map snd vs) (map snd (et_variants T)).
Proof.
  intros H E. destruct (DeriveClaims.derive_discriminants md pw _ T E) as (_ & -> & _). exact (read_discrs vs H 0).
Qed.
Lemma spelling_irrelevant md pw reprs a vs vs' : map fst vs = map fst vs' ->
  Forall2 (fun o o' => match o, o' with
                       | Some t, Some t' => exists n s s', literal t n s /\ literal t' n s'
                       | None, None => True
                       | _, _ => False
                       end) (map snd vs) (map snd vs') ->
  derive md pw (MkInput false true reprs a (read_variants vs)) = derive md pw (MkInput false true reprs a (read_variants vs')).
Proof.
  intros Hn HF. replace (read_variants vs') with (read_variants vs); [reflexivity|].
  revert vs' Hn HF. induction vs as [|[x o] vs IH]; intros [|[x' o'] vs'] Hn HF; try discriminate; [reflexivity|].
  cbn [map fst snd] in *. injection Hn as -> Hn. inversion HF as [|? ? ? ? H1 H2]; subst. unfold read_variants in *. cbn [map fst snd]. rewrite (IH vs' Hn H2). f_equal.
  destruct o as [t|], o' as [t'|]; try contradiction; [|reflexivity]. destruct H1 as (n & s & s' & L1 & L2). cbn [option_map].
  unfold discr_of_text. now rewrite (literal_int _ _ _ L1), (literal_int _ _ _ L2).
Qed.
Lemma accepted_literals md pw reprs a vs T t :
  derive md pw (MkInput false true reprs a (read_variants vs)) = Ret (Ok T) -> In (Some t) (map snd vs) ->
  exists n suffix, n <= 0xFFFFFFBF /\ integer_text t n suffix.
Proof.
  intros E Ht. destruct (DeriveClaims.derive_total md pw (MkInput false true reprs a (read_variants vs))) as (r & Er & HW & _).
  rewrite E in Er. injection Er as <-. destruct (proj1 HW) as [_ _ _ _ _ _ _ HL HM _ _ _]; [eauto|]. cbn [in_variants] in *.
  apply in_map_iff in Ht. destruct Ht as ([name o] & Eo & Hin). cbn [snd] in Eo. subst o.
  assert (Hv : In (MkVariant name true (Some (discr_of_text t))) (read_variants vs)).
  { unfold read_variants. apply in_map_iff. exists (name, Some t). auto. }
  specialize (HL _ Hv). unfold literal_discr in HL. cbn [vd_discr] in HL. unfold discr_of_text in HL, Hv.
  destruct (lit_int t) as [[n suffix]|] eqn:El; [|contradiction]. exists n, suffix. split.
  - apply HM. unfold discrs, rustc_discrs. cbn [in_variants]. clear - Hv. generalize 0. induction (read_variants vs) as [|v l IH]; intros k; [contradiction|].
    cbn [rustc_discrs_from]. destruct Hv as [->|Hv]; [now left|]. right. now apply IH.
  - now apply int_integer.
Qed.

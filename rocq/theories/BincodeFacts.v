(** * Facts about the model of bincode *)
From Verif Require Import Base BaseFacts LimbFacts Syntax Spec Derive EnumSet Serde Bincode WireSpec.
Ltac Zify.zify_post_hook ::= Z.div_mod_to_equations.

Lemma le_length n x : length (le_bytes n x) = n.
Proof. revert x. induction n as [|n IH]; intros x; cbn [le_bytes length]; auto. Qed.
Lemma le_ok n x : bytes_ok (le_bytes n x).
Proof.
  revert x. induction n as [|n IH]; intros x; cbn [le_bytes]; constructor; [|apply IH]. apply N.mod_lt. discriminate.
Qed.
Lemma pow256_S n : 2 ^ (8 * N.of_nat (S n)) = 256 * 2 ^ (8 * N.of_nat n).
Proof. change 256 with (2 ^ 8). rewrite <- N.pow_add_r. f_equal. lia. Qed.
Lemma le_value_bytes n x : x < 2 ^ (8 * N.of_nat n) -> le_value (le_bytes n x) = x.
Proof.
  revert x. induction n as [|n IH]; intros x H; cbn [le_bytes le_value].
  - change (8 * N.of_nat 0) with 0 in H. rewrite N.pow_0_r in H. lia.
  - rewrite pow256_S in H. rewrite IH by lia. lia.
Qed.
Lemma le_value_lt l : bytes_ok l -> le_value l < 2 ^ (8 * N.of_nat (length l)).
Proof.
  induction 1 as [|b l Hb Hl IH]; cbn [le_value length].
  - change (8 * N.of_nat 0) with 0. rewrite N.pow_0_r. lia.
  - rewrite pow256_S. lia.
Qed.
Lemma byte_bit_cons b l i : byte_bit (b :: l) i = if i <? 8 then N.testbit b i else byte_bit l (i - 8).
Proof.
  unfold byte_bit. destruct (N.ltb_spec i 8) as [H|H].
  - rewrite N.div_small, N.mod_small by assumption. reflexivity.
  - replace (i / 8) with (N.succ ((i - 8) / 8)) by lia. rewrite N2Nat.inj_succ. cbn [nth].
    f_equal. lia.
Qed.
Lemma byte_bit_app l l' i : byte_bit (l ++ l') i =
  if i <? 8 * N.of_nat (length l) then byte_bit l i else byte_bit l' (i - 8 * N.of_nat (length l)).
Proof.
  revert i. induction l as [|b l IH]; intros i.
  - cbn [length app]. change (8 * N.of_nat 0) with 0. destruct (N.ltb_spec i 0); [lia|]. now rewrite N.sub_0_r.
  - cbn [app]. rewrite !byte_bit_cons, IH. cbn [length].
    destruct (N.ltb_spec i 8), (N.ltb_spec i (8 * N.of_nat (S (length l)))); try lia; try reflexivity.
    + destruct (N.ltb_spec (i - 8) (8 * N.of_nat (length l))); [reflexivity|lia].
    + destruct (N.ltb_spec (i - 8) (8 * N.of_nat (length l))); [lia|]. f_equal. lia.
Qed.
Lemma byte_bit_nil i : byte_bit [] i = false.
Proof. unfold byte_bit. destruct (N.to_nat (i / 8)); apply N.bits_0. Qed.
Lemma le_bit n x i : byte_bit (le_bytes n x) i = if i <? 8 * N.of_nat n then N.testbit x i else false.
Proof.
  revert x i. induction n as [|n IH]; intros x i; cbn [le_bytes].
  - rewrite byte_bit_nil. destruct (N.ltb_spec i (8 * N.of_nat 0)); [lia|reflexivity].
  - rewrite byte_bit_cons, IH. change 256 with (2 ^ 8). destruct (N.ltb_spec i 8) as [H|H].
    + rewrite N.mod_pow2_bits_low by assumption. destruct (N.ltb_spec i (8 * N.of_nat (S n))); [reflexivity|lia].
    + rewrite N.div_pow2_bits. replace (i - 8 + 8) with i by lia.
      destruct (N.ltb_spec (i - 8) (8 * N.of_nat n)), (N.ltb_spec i (8 * N.of_nat (S n))); try lia; reflexivity.
Qed.
Lemma le_spec n x : x < 2 ^ (8 * N.of_nat n) -> little_endian (N.of_nat n) x (le_bytes n x).
Proof.
  intros H. split; [now rewrite le_length|]. split; [apply le_ok|]. intros i. rewrite le_bit.
  destruct (N.ltb_spec i (8 * N.of_nat n)) as [Hi|Hi]; [reflexivity|]. symmetry. now apply (testbit_high _ _ _ H).
Qed.

(** ** Reading back *)
Lemma read_int_app n l rest : length l = n -> read_int n (l ++ rest) = Ok (le_value l, rest).
Proof.
  intros <-. unfold read_int. rewrite app_length. destruct (Nat.ltb_spec (length l + length rest) (length l)); [lia|].
  rewrite firstn_app, skipn_app, Nat.sub_diag, firstn_all, skipn_all. cbn [firstn skipn]. now rewrite app_nil_r.
Qed.
Lemma read_le n x rest : x < 2 ^ (8 * N.of_nat n) -> read_int n (le_bytes n x ++ rest) = Ok (x, rest).
Proof. intros H. rewrite read_int_app by apply le_length. now rewrite le_value_bytes. Qed.
Lemma read_int_short n l : (length l < n)%nat -> read_int n l = Err bin_eof.
Proof. intros H. unfold read_int. apply Nat.ltb_lt in H. now rewrite H. Qed.
Lemma bytes_app l l' : bytes_ok (l ++ l') <-> bytes_ok l /\ bytes_ok l'.
Proof. apply Forall_app. Qed.
Lemma read_int_ok n input x rest : bytes_ok input -> read_int n input = Ok (x, rest) ->
  x < 2 ^ (8 * N.of_nat n) /\ bytes_ok rest.
Proof.
  intros H E. unfold read_int in E. destruct (Nat.ltb_spec (length input) n) as [L|L]; [discriminate|].
  injection E as <- <-. rewrite <- (firstn_skipn n input) in H. apply bytes_app in H. destruct H as [H1 H2].
  split; [|assumption]. apply le_value_lt in H1. now rewrite firstn_length_le in H1.
Qed.
Lemma read_variant_ok n input v rest : read_variant n input = Ok (v, rest) -> (v < n)%nat.
Proof.
  unfold read_variant. destruct (read_int 4 input) as [[x r]|e]; [|discriminate].
  destruct (N.ltb_spec x (N.of_nat n)); intros E; inversion E; subst. lia.
Qed.
Lemma read_entry_ok n input v b rest : read_entry n input = Ok (v, b, rest) -> (v < n)%nat.
Proof.
  unfold read_entry. destruct (read_variant n input) as [[x r]|e] eqn:E; [|discriminate]. apply read_variant_ok in E.
  destruct (read_bool r) as [[b' r']|e]; intros H; inversion H; now subst.
Qed.

(** A reader that reads what [enc] writes, and complains about anything shorter *)
Record codec {A} (P : A -> Prop) (enc : A -> list N) (item : reader A) : Prop := {
  cd_nonempty : forall x, P x -> (0 < length (enc x))%nat;
  cd_read : forall x rest, P x -> item (enc x ++ rest) = Ok (x, rest);
  cd_short : forall x p q, P x -> enc x = p ++ q -> q <> [] -> item p = Err bin_eof
}.
Lemma read_items_all {A} P enc (item : reader A) l rest fuel : codec P enc item -> Forall P l -> (length l <= fuel)%nat ->
  read_items item fuel (N.of_nat (length l)) (concat (map enc l) ++ rest) = map Ok l.
Proof.
  intros HC HP. revert fuel. induction HP as [|x l Hx Hl IH]; intros fuel Hf; cbn [length map concat app] in *.
  - destruct fuel; reflexivity.
  - destruct fuel as [|fuel]; [lia|]. cbn [read_items]. destruct (N.eqb_spec (N.of_nat (S (length l))) 0); [lia|].
    rewrite <- app_assoc, (cd_read _ _ _ HC) by assumption. f_equal.
    replace (N.of_nat (S (length l)) - 1) with (N.of_nat (length l)) by lia. apply IH. lia.
Qed.
Lemma concat_length {A} P enc (item : reader A) l : codec P enc item -> Forall P l -> (length l <= length (concat (map enc l)))%nat.
Proof.
  intros HC. induction 1 as [|x l Hx Hl IH]; cbn [length map concat]; [lia|]. rewrite app_length.
  pose proof (cd_nonempty _ _ _ HC x Hx). lia.
Qed.
Lemma app_split {X} (a b p q : list X) : a ++ b = p ++ q -> (exists m, a = p ++ m /\ q = m ++ b /\ m <> []) \/ (exists m, p = a ++ m /\ b = m ++ q).
Proof.
  revert p. induction a as [|x a IH]; intros p E.
  - right. exists p. auto.
  - destruct p as [|y p].
    + left. exists (x :: a). cbn in E. repeat split; auto. discriminate.
    + injection E as -> E. destruct (IH p E) as [(m & -> & -> & Hm)|(m & -> & ->)]; [left|right]; exists m; auto.
Qed.
Lemma read_items_short {A} P enc (item : reader A) l p q fuel : codec P enc item -> Forall P l ->
  concat (map enc l) = p ++ q -> q <> [] -> (length p < fuel)%nat ->
  all_ok (read_items item fuel (N.of_nat (length l)) p) = Err bin_eof.
Proof.
  intros HC HP. revert p fuel. induction HP as [|x l Hx Hl IH]; intros p fuel E Hq Hf; cbn [length map concat] in *.
  - symmetry in E. apply app_eq_nil in E. tauto.
  - destruct fuel as [|fuel]; [lia|]. cbn [read_items]. destruct (N.eqb_spec (N.of_nat (S (length l))) 0); [lia|].
    replace (N.of_nat (S (length l)) - 1) with (N.of_nat (length l)) by lia.
    apply app_split in E. destruct E as [(m & E & -> & Hm)|(m & -> & E)].
    + rewrite (cd_short _ _ _ HC x p m Hx E Hm). reflexivity.
    + rewrite (cd_read _ _ _ HC) by assumption. cbn [all_ok]. rewrite (IH m fuel); auto.
      rewrite app_length in Hf. pose proof (cd_nonempty _ _ _ HC x Hx). lia.
Qed.
(** More fuel changes nothing. *)
Lemma read_items_fuel {A} (item : reader A) fuel fuel' count input :
  (forall i x r, item i = Ok (x, r) -> (length r < length i)%nat) ->
  (length input < fuel)%nat -> (length input < fuel')%nat ->
  read_items item fuel count input = read_items item fuel' count input.
Proof.
  intros Hi. revert fuel' count input. induction fuel as [|fuel IH]; intros fuel' count input H H'; [lia|].
  destruct fuel' as [|fuel']; [lia|]. cbn [read_items]. destruct (count =? 0); [reflexivity|].
  destruct (item input) as [[x r]|e] eqn:E; [|reflexivity]. f_equal. apply Hi in E. apply IH; lia.
Qed.
Lemma read_seq_all {A} P enc (item : reader A) pw l rest : codec P enc item -> Forall P l ->
  pw <= 64 -> N.of_nat (length l) < 2 ^ pw ->
  read_seq pw item (le_bytes 8 (N.of_nat (length l)) ++ concat (map enc l) ++ rest) = Ok (map Ok l).
Proof.
  intros HC HP Hpw Hl. unfold read_seq.
  assert (H64 : 2 ^ pw <= 2 ^ 64) by (apply N.pow_le_mono_r; [discriminate|assumption]).
  rewrite read_le by (change (8 * N.of_nat 8) with 64; lia).
  destruct (N.ltb_spec (N.of_nat (length l)) (2 ^ pw)); [|lia]. f_equal.
  apply (read_items_all P enc); auto. rewrite app_length. pose proof (concat_length P enc item l HC HP). lia.
Qed.
Lemma read_seq_short {A} P enc (item : reader A) pw l p q : codec P enc item -> Forall P l ->
  pw <= 64 -> N.of_nat (length l) < 2 ^ pw ->
  le_bytes 8 (N.of_nat (length l)) ++ concat (map enc l) = p ++ q -> q <> [] ->
  match read_seq pw item p with Ok items => all_ok items = Err bin_eof | Err e => e = bin_eof end.
Proof.
  intros HC HP Hpw Hl E Hq. unfold read_seq.
  assert (H64 : 2 ^ pw <= 2 ^ 64) by (apply N.pow_le_mono_r; [discriminate|assumption]).
  apply app_split in E. destruct E as [(m & E & -> & Hm)|(m & -> & E)].
  - rewrite read_int_short; [reflexivity|]. apply (f_equal (@length N)) in E. rewrite le_length, app_length in E.
    destruct m; [congruence|]. cbn [length] in E. lia.
  - rewrite read_le by (change (8 * N.of_nat 8) with 64; lia).
    destruct (N.ltb_spec (N.of_nat (length l)) (2 ^ pw)); [|lia].
    apply (read_items_short P enc item l m q); auto.
Qed.

Lemma prefix_length {X} (e p q : list X) : e = p ++ q -> q <> [] -> (length p < length e)%nat.
Proof. intros -> Hq. rewrite app_length. destruct q; [congruence|]. cbn [length]. lia. Qed.
Lemma int_codec n : (0 < n)%nat -> codec (fun x => x < 2 ^ (8 * N.of_nat n)) (le_bytes n) (read_int n).
Proof.
  intros Hn. split.
  - intros x _. now rewrite le_length.
  - intros x rest. apply read_le.
  - intros x p q _ E Hq. apply read_int_short. apply prefix_length in E; [|assumption]. now rewrite le_length in E.
Qed.
Lemma variant_codec n : N.of_nat n <= 2 ^ 32 -> codec (fun v => (v < n)%nat) (fun v => le_bytes 4 (N.of_nat v)) (read_variant n).
Proof.
  intros Hn. assert (C : codec _ (le_bytes 4) (read_int 4)) by (apply int_codec; lia). split.
  - intros v _. rewrite le_length. lia.
  - intros v rest Hv. unfold read_variant. rewrite (cd_read _ _ _ C) by (change (8 * N.of_nat 4) with 32; lia).
    destruct (N.ltb_spec (N.of_nat v) (N.of_nat n)); [|lia]. now rewrite Nat2N.id.
  - intros v p q Hv E Hq. unfold read_variant. rewrite (cd_short _ _ _ C (N.of_nat v) p q); auto.
    change (8 * N.of_nat 4) with 32. lia.
Qed.
Definition enc_entry (e : nat * bool) : list N := le_bytes 4 (N.of_nat (fst e)) ++ [if snd e then 1 else 0].
Lemma entry_codec n : N.of_nat n <= 2 ^ 32 -> codec (fun e => (fst e < n)%nat) enc_entry (read_entry n).
Proof.
  intros Hn. pose proof (variant_codec n Hn) as C. split.
  - intros v _. unfold enc_entry. rewrite app_length, le_length. lia.
  - intros [v b] rest Hv. unfold enc_entry, read_entry. cbn [fst snd] in *. rewrite <- app_assoc.
    rewrite (cd_read _ _ _ C v) by assumption. destruct b; reflexivity.
  - intros [v b] p q Hv E Hq. unfold enc_entry, read_entry in *. cbn [fst snd] in *.
    apply app_split in E. destruct E as [(m & E & -> & Hm)|(m & -> & E)].
    + now rewrite (cd_short _ _ _ C v p m).
    + rewrite (cd_read _ _ _ C v) by assumption. destruct m as [|y m]; [reflexivity|].
      injection E as _ E. symmetry in E. apply app_eq_nil in E. tauto.
Qed.
Lemma read_items_In {A} (P : A -> Prop) (Q : list N -> Prop) (item : reader A) fuel count input x :
  (forall i x r, Q i -> item i = Ok (x, r) -> P x /\ Q r) -> Q input ->
  In (Ok x) (read_items item fuel count input) -> P x.
Proof.
  intros HI. revert count input. induction fuel as [|fuel IH]; intros count input HQ H; cbn [read_items] in H; [destruct H|].
  destruct (count =? 0); [destruct H|]. destruct (item input) as [[y r]|e] eqn:E.
  - apply HI in E; auto. destruct E as [Hy Hr]. destruct H as [H|H]; [injection H as <-; assumption|]. eapply IH; eauto.
  - destruct H as [H|[]]. discriminate.
Qed.
Lemma read_seq_In {A} (P : A -> Prop) (Q : list N -> Prop) pw (item : reader A) input items x :
  (forall i x r, Q i -> item i = Ok (x, r) -> P x /\ Q r) ->
  (forall i y r, Q i -> read_int 8 i = Ok (y, r) -> Q r) -> Q input ->
  read_seq pw item input = Ok items -> In (Ok x) items -> P x.
Proof.
  intros HI H8 HQ E Hin. unfold read_seq in E. destruct (read_int 8 input) as [[c r]|e] eqn:E8; [|discriminate].
  apply H8 in E8; [|assumption]. destruct (c <? 2 ^ pw); [|discriminate]. injection E as <-.
  exact (read_items_In P Q item (S (length r)) c r x HI E8 Hin).
Qed.
Lemma perform_bin pw es w : perform (bin_emit pw) es w = (true, w ++ concat (map (bin_bytes pw) es)).
Proof.
  revert w. induction es as [|e es IH]; intros w; cbn [perform bin_emit map concat]; [now rewrite app_nil_r|].
  rewrite IH, <- app_assoc. reflexivity.
Qed.

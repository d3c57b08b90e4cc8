(** * Facts about the bytes the model of bincode accepts *)
From Verif Require Import Base BaseFacts LimbFacts Syntax Spec Derive EnumSet Serde SerdeFacts Bincode WireSpec BincodeFacts.
Ltac Zify.zify_post_hook ::= Z.div_mod_to_equations.

Lemma le_bytes_value l : bytes_ok l -> le_bytes (length l) (le_value l) = l.
Proof.
  induction 1 as [|b l Hb Hl IH]; cbn [length le_bytes le_value]; [reflexivity|].
  replace ((b + 256 * le_value l) mod 256) with b by lia. replace ((b + 256 * le_value l) / 256) with (le_value l) by lia. now rewrite IH.
Qed.
Lemma little_endian_inv n x l : little_endian n x l -> l = le_bytes (N.to_nat n) x /\ x < 2 ^ (8 * n).
Proof.
  intros (Hl & Hb & Hx). subst n. rewrite Nat2N.id. pose proof (le_value_lt l Hb) as Hv. pose proof (le_bytes_value l Hb) as E.
  destruct (le_spec _ _ Hv) as (_ & _ & Hs). rewrite E in Hs.
  assert (x = le_value l) as -> by (apply N.bits_inj; intros i; now rewrite <- Hx, <- Hs). auto.
Qed.
Lemma read_int_inv n input x rest : bytes_ok input -> read_int n input = Ok (x, rest) ->
  x < 2 ^ (8 * N.of_nat n) /\ input = le_bytes n x ++ rest /\ bytes_ok rest.
Proof.
  intros H E. destruct (read_int_ok n input x rest H E) as [Hx Hr]. split; [assumption|]. split; [|assumption].
  unfold read_int in E. destruct (Nat.ltb_spec (length input) n) as [L|L]; [discriminate|]. injection E as <- <-.
  rewrite <- (firstn_skipn n input) in H. apply bytes_app in H. destruct H as [H _]. apply le_bytes_value in H.
  rewrite firstn_length_le in H by assumption. now rewrite H, firstn_skipn.
Qed.

(** A reader that reads only what [enc] writes *)
Definition exact {A} (P : A -> Prop) (enc : A -> list N) (item : reader A) : Prop :=
  forall input x rest, bytes_ok input -> item input = Ok (x, rest) -> P x /\ input = enc x ++ rest /\ bytes_ok rest.
Lemma int_exact n : exact (fun x => x < 2 ^ (8 * N.of_nat n)) (le_bytes n) (read_int n).
Proof. intros input x rest. apply read_int_inv. Qed.
Lemma variant_exact n : exact (fun v => (v < n)%nat) (fun v => le_bytes 4 (N.of_nat v)) (read_variant n).
Proof.
  intros input v rest Hb. unfold read_variant. destruct (read_int 4 input) as [[x r]|e] eqn:E; [|discriminate].
  apply read_int_inv in E as (Hx & -> & Hr); [|assumption].
  destruct (N.ltb_spec x (N.of_nat n)); intros H'; inversion H'; subst. rewrite N2Nat.id. repeat split; auto. lia.
Qed.
Lemma entry_exact n : exact (fun e => (fst e < n)%nat) enc_entry (read_entry n).
Proof.
  intros input [v b] rest Hb. unfold read_entry. destruct (read_variant n input) as [[u r]|e] eqn:E; [|discriminate].
  apply variant_exact in E as (Hv & -> & Hr); [|assumption].
  destruct (read_bool r) as [[c r']|e] eqn:Eb; intros H'; inversion H'; subst. unfold enc_entry. cbn [fst snd].
  assert (r = (if b then 1 else 0) :: rest) as ->.
  { destruct r as [|[|[]] r]; cbn [read_bool] in Eb; inversion Eb; subst; reflexivity. }
  split; [assumption|]. split; [now rewrite <- app_assoc|]. inversion Hr; assumption.
Qed.
Lemma read_items_inv {A} P enc (item : reader A) fuel count input l : exact P enc item -> (forall x, P x -> (0 < length (enc x))%nat) ->
  bytes_ok input -> (length input < fuel)%nat -> all_ok (read_items item fuel count input) = Ok l ->
  Forall P l /\ N.of_nat (length l) = count /\ exists rest, input = concat (map enc l) ++ rest.
Proof.
  intros HX Hp. revert count input l. induction fuel as [|fuel IH]; intros count input l Hb Hf E; [lia|].
  cbn [read_items] in E. destruct (N.eqb_spec count 0) as [->|Hc].
  - injection E as <-. repeat split; [constructor|]. exists input. reflexivity.
  - destruct (item input) as [[x r]|e] eqn:Ei; [|discriminate]. destruct (HX _ _ _ Hb Ei) as (Hx & -> & Hr).
    cbn [all_ok] in E. destruct (all_ok (read_items item fuel (count - 1) r)) as [l'|e] eqn:El; [|discriminate]. injection E as <-.
    rewrite app_length in Hf. pose proof (Hp x Hx).
    destruct (IH (count - 1) r l' Hr ltac:(lia) El) as (H1 & H2 & rest & ->).
    split; [constructor; assumption|]. split; [cbn [length]; lia|]. exists rest. cbn [map concat]. now rewrite <- app_assoc.
Qed.
Lemma read_seq_inv {A} P enc (item : reader A) pw input items l : exact P enc item -> (forall x, P x -> (0 < length (enc x))%nat) ->
  bytes_ok input -> read_seq pw item input = Ok items -> all_ok items = Ok l ->
  Forall P l /\ N.of_nat (length l) < 2 ^ pw /\ little_endian 8 (N.of_nat (length l)) (le_bytes 8 (N.of_nat (length l))) /\
  exists rest, input = (le_bytes 8 (N.of_nat (length l)) ++ concat (map enc l)) ++ rest.
Proof.
  intros HX Hp Hb E El. unfold read_seq in E. destruct (read_int 8 input) as [[c r]|e] eqn:E8; [|discriminate].
  apply read_int_inv in E8 as (Hc & -> & Hr); [|assumption].
  destruct (N.ltb_spec c (2 ^ pw)) as [Hl|]; [|discriminate]. injection E as <-.
  destruct (read_items_inv P enc item (S (length r)) c r l HX Hp Hr ltac:(lia) El) as (H1 & <- & rest & ->).
  split; [assumption|]. split; [assumption|]. split; [now apply (le_spec 8)|]. exists rest. now rewrite <- app_assoc.
Qed.
Lemma items_map {A} (enc : A -> list N) (R : A -> list N -> Prop) l items : (forall x i, R x i -> i = enc x) ->
  Forall2 R l items -> items = map enc l.
Proof. intros H. induction 1; cbn [map]; [reflexivity|]. f_equal; auto. Qed.
Lemma map_items {A} (enc : A -> list N) (R : A -> list N -> Prop) (P : A -> Prop) l : (forall x, P x -> R x (enc x)) ->
  Forall P l -> Forall2 R l (map enc l).
Proof. intros H. induction 1; cbn [map]; constructor; auto. Qed.

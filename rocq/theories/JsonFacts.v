(** * Facts about the model of JSON *)
From Coq Require Import Ascii DecimalString Decimal DecimalN.
From Verif Require Import Base BaseFacts Syntax Spec Derive EnumSet Serde Json JsonSpec.
From Verif Require FmtFacts.

Definition append_assoc := FmtFacts.append_assoc.
Definition append_nil_r := FmtFacts.append_nil_r.

Lemma plain_body s : plain s -> string_body s.
Proof.
  induction s as [|c s IH]; intros H; [constructor|]. destruct (H c (or_introl eq_refl)) as (H1 & H2 & H3).
  apply body_char; auto. apply IH. intros d Hd. apply H. now right.
Qed.
Lemma plain_literal unescape s : Unescapes unescape -> plain s -> literal unescape s (quoted s).
Proof. intros HU H. exists s. auto using plain_body. Qed.

(** ** Text made of tokens *)
Lemma unspaced_app a b : unspaced (a ++ b) = (unspaced a ++ unspaced b)%string.
Proof. induction a as [|t a IH]; cbn [unspaced fold_right app append]; [reflexivity|].
  change (fold_right append "" (a ++ b))%string with (unspaced (a ++ b)). rewrite IH. now rewrite append_assoc. Qed.
Lemma spaced_unspaced ts : spaced ts (unspaced ts).
Proof.
  induction ts as [|t ts IH]; [apply spaced_end; intros c []|].
  change (unspaced (t :: ts)) with ("" ++ t ++ unspaced ts)%string. apply spaced_token; [intros c []|assumption].
Qed.

Section Lex.
Context (unescape : string -> option string).
Notation lex := (json_tokens unescape).

Lemma lex_white w rest : white w -> lex LStart (w ++ rest) = lex LStart rest.
Proof.
  induction w as [|c w IH]; intros Hw; [reflexivity|].
  cbn [append json_tokens json_char].
  assert (Hc : is_space c = true).
  { specialize (Hw c (or_introl eq_refl)). unfold is_space. cbn [In] in Hw.
    repeat destruct Hw as [<-|Hw]; try reflexivity. destruct Hw. }
  unfold json_begin. rewrite Hc. cbn [app]. apply IH. intros d Hd. apply Hw. now right.
Qed.
Lemma white_end w : white w -> lex LStart w = [].
Proof. intros Hw. rewrite <- (append_nil_r w), lex_white by assumption. reflexivity. Qed.

(** The characters behind a number or a word. *)
Definition breaks (rest : string) : Prop :=
  match rest with
  | EmptyString => True
  | String c _ => In (Ascii.N_of_ascii c) [9; 10; 13; 32; 44; 58; 91; 93; 123; 125]
  end.
Definition lexes (t : string) (j : jtoken) : Prop :=
  forall rest, breaks rest -> lex LStart (t ++ rest) = j :: lex LStart rest.

Lemma break_char c rest : breaks (String c rest) -> digit_of c = None /\ fraction c = false /\ is_letter c = false.
Proof.
  unfold breaks, digit_of, fraction, is_letter. cbn [In]. intros H.
  repeat destruct H as [<-|H]; try (repeat split; reflexivity). destruct H.
Qed.

Lemma lex_string s body u rest : string_body body -> unescape (s ++ body)%string = Some u ->
  lex (LString s) (body ++ String """"%char rest) = JString u :: lex LStart rest.
Proof.
  intros Hb. revert s. induction Hb as [|c body H1 H2 H3 Hb IH|c body Hb IH]; intros s Hu.
  - cbn [append json_tokens json_char]. change (Ascii.N_of_ascii """"%char =? 34) with true. cbn match.
    rewrite append_nil_r in Hu. unfold string_token. now rewrite Hu.
  - cbn [append json_tokens json_char].
    destruct (N.eqb_spec (Ascii.N_of_ascii c) 34) as [|_]; [contradiction|].
    destruct (N.eqb_spec (Ascii.N_of_ascii c) 92) as [|_]; [contradiction|].
    destruct (N.ltb_spec (Ascii.N_of_ascii c) 32) as [|_]; [lia|]. cbn [app].
    apply IH. rewrite append_assoc. exact Hu.
  - cbn [append json_tokens json_char].
    change (Ascii.N_of_ascii "\"%char =? 34) with false. change (Ascii.N_of_ascii "\"%char =? 92) with true. cbn [app].
    apply IH. rewrite append_assoc. exact Hu.
Qed.
Lemma lexes_literal s t : literal unescape s t -> lexes t (JString s).
Proof.
  intros (body & -> & Hb & Hu) rest _. unfold quoted. rewrite !append_assoc. cbn [append].
  cbn [json_tokens]. change (json_char unescape LStart """"%char) with (@nil jtoken, Some (LString "")). cbn [app].
  now rewrite (lex_string "" body s rest).
Qed.

(** Numbers *)
Fixpoint value_from (x : N) (d : uint) : N :=
  match d with
  | Nil => x
  | D0 d => value_from (10 * x + 0) d
  | D1 d => value_from (10 * x + 1) d
  | D2 d => value_from (10 * x + 2) d
  | D3 d => value_from (10 * x + 3) d
  | D4 d => value_from (10 * x + 4) d
  | D5 d => value_from (10 * x + 5) d
  | D6 d => value_from (10 * x + 6) d
  | D7 d => value_from (10 * x + 7) d
  | D8 d => value_from (10 * x + 8) d
  | D9 d => value_from (10 * x + 9) d
  end.
Lemma value_from_acc d p : value_from (Npos p) d = Npos (Pos.of_uint_acc d p).
Proof.
  revert p. induction d as [|d IH|d IH|d IH|d IH|d IH|d IH|d IH|d IH|d IH|d IH]; intros p; [reflexivity|..];
    cbn [value_from Pos.of_uint_acc]; rewrite <- IH; f_equal; lia.
Qed.
Lemma lex_digits x d rest :
  lex (LNumber x) (NilEmpty.string_of_uint d ++ rest) = lex (LNumber (value_from x d)) rest.
Proof.
  revert x. induction d as [|d IH|d IH|d IH|d IH|d IH|d IH|d IH|d IH|d IH|d IH]; intros x; [reflexivity|..];
    cbn [NilEmpty.string_of_uint append json_tokens json_char value_from];
    match goal with |- context [digit_of ?c] => let y := eval vm_compute in (digit_of c) in change (digit_of c) with y end;
    cbn [app]; apply IH.
Qed.
Lemma lex_number x rest : breaks rest -> lex (LNumber x) rest = JNumber x :: lex LStart rest.
Proof.
  destruct rest as [|c rest]; [reflexivity|]. intros Hb. destruct (break_char c rest Hb) as (H1 & H2 & _).
  cbn [json_tokens json_char]. rewrite H1, H2. destruct (json_begin c) as [ts [st|]]; reflexivity.
Qed.
Lemma lex_zero rest : breaks rest -> lex LZero rest = JNumber 0 :: lex LStart rest.
Proof.
  destruct rest as [|c rest]; [reflexivity|]. intros Hb. destruct (break_char c rest Hb) as (H1 & H2 & _).
  cbn [json_tokens json_char]. rewrite H1, H2. destruct (json_begin c) as [ts [st|]]; reflexivity.
Qed.
Lemma nzhead_not_zero d : match Decimal.nzhead d with D0 _ => False | _ => True end.
Proof. induction d; cbn [Decimal.nzhead]; auto. Qed.
Lemma lexes_decimal x : lexes (decimal x) (JNumber x).
Proof.
  intros rest Hb. unfold decimal.
  pose proof (DecimalN.Unsigned.of_to x) as E. pose proof (DecimalN.Unsigned.to_of (N.to_uint x)) as E'. rewrite E in E'.
  unfold unorm in E'. pose proof (nzhead_not_zero (N.to_uint x)) as Hn.
  destruct (nzhead (N.to_uint x)) as [|d|d|d|d|d|d|d|d|d|d] eqn:Ez; [|destruct Hn|..]; rewrite E' in E |- *;
    [cbn in E; subst x; exact (lex_zero rest Hb)|..];
    cbn [NilZero.string_of_uint NilEmpty.string_of_uint append json_tokens json_char];
    match goal with |- context [json_begin ?c] => let y := eval vm_compute in (json_begin c) in change (json_begin c) with y end;
    cbn [app]; rewrite lex_digits, lex_number by assumption; f_equal; f_equal; rewrite value_from_acc; exact E.
Qed.

(** Words *)
Lemma lexes_word s j : word_token s = j -> j <> JOther ->
  (forall rest, lex LStart (s ++ rest) = lex (LWord s) rest) -> lexes s j.
Proof.
  intros Hj Hn Hs rest Hb. rewrite Hs. destruct rest as [|c rest].
  - cbn. now rewrite Hj.
  - destruct (break_char c rest Hb) as (_ & _ & H3). cbn [json_tokens json_char]. rewrite H3, Hj.
    destruct j; try congruence; destruct (json_begin c) as [ts [st|]]; reflexivity.
Qed.
Lemma lexes_bool b : lexes (bool_text b) (if b then JTrue else JFalse).
Proof. destruct b; apply lexes_word; try reflexivity; discriminate. Qed.
Lemma lexes_null : lexes "null" JNull.
Proof. apply lexes_word; try reflexivity; discriminate. Qed.

(** Punctuation *)
Definition punct (t : string) : Prop := In t ["["; "]"; "{"; "}"; ":"; ","]%string.
Definition punct_token (t : string) (j : jtoken) : Prop := punct t /\ forall rest, lex LStart (t ++ rest) = j :: lex LStart rest.
Lemma lex_open : punct_token "[" JOpen. Proof. split; [cbn; auto 7|reflexivity]. Qed.
Lemma lex_close : punct_token "]" JClose. Proof. split; [cbn; auto 7|reflexivity]. Qed.
Lemma lex_begin : punct_token "{" JBegin. Proof. split; [cbn; auto 7|reflexivity]. Qed.
Lemma lex_end : punct_token "}" JEnd. Proof. split; [cbn; auto 7|reflexivity]. Qed.
Lemma lex_colon : punct_token ":" JColon. Proof. split; [cbn; auto 7|reflexivity]. Qed.
Lemma lex_comma : punct_token "," JComma. Proof. split; [cbn; auto 7|reflexivity]. Qed.
Lemma punct_lexes t j : punct_token t j -> lexes t j.
Proof. intros [_ H] rest _. apply H. Qed.

(** Of two neighbouring tokens at least one is punctuation. *)
Inductive apart : list string -> Prop :=
| apart_nil : apart []
| apart_one t : apart [t]
| apart_more t t' ts : punct t \/ punct t' -> apart (t' :: ts) -> apart (t :: t' :: ts).
Lemma apart_punct p ts : punct p -> apart ts -> apart (p :: ts).
Proof. intros Hp [|t|t t' ts' H1 H2]; constructor; auto; now constructor. Qed.
Lemma apart_app a p b : apart a -> punct p -> apart (p :: b) -> apart (a ++ p :: b).
Proof.
  intros Ha Hp Hb. induction Ha as [|t|t t' ts H1 H2 IH]; cbn [app]; [assumption|constructor; auto|constructor; auto].
Qed.
Lemma apart_tail t ts : apart (t :: ts) -> apart ts.
Proof. intros H. inversion H; subst; [constructor|assumption]. Qed.
Lemma apart_joined items p : punct p -> Forall apart items -> apart (joined ","%string items ++ [p]).
Proof.
  intros Hp. induction 1 as [|x items Hx Hi IH]; [constructor|].
  destruct items as [|y items]; cbn [joined].
  - apply apart_app; auto; constructor.
  - rewrite <- app_assoc. cbn [app]. apply apart_app; [assumption|cbn; auto 7|]. apply apart_punct; [cbn; auto 7|exact IH].
Qed.

Lemma spaced_breaks t ts text : apart (t :: ts) -> ~ punct t -> spaced ts text -> breaks text.
Proof.
  intros Ha Hn Hs. assert (Hw : forall w rest, white w -> (w = ""%string -> breaks rest) -> breaks (w ++ rest)).
  { intros [|c w] rest Hw Hr; [now apply Hr|]. cbn [append breaks]. specialize (Hw c (or_introl eq_refl)). cbn [In] in Hw |- *. tauto. }
  inversion Hs; subst.
  - rewrite <- (append_nil_r text). apply Hw; [assumption|]. intros _. exact I.
  - apply Hw; [assumption|]. intros _. inversion Ha; subst. destruct H3 as [|Hp]; [contradiction|].
    unfold punct in Hp. cbn [In] in Hp. repeat destruct Hp as [<-|Hp]; try (cbn; auto 20). destruct Hp.
Qed.
Lemma punct_dec t : {punct t} + {~ punct t}.
Proof. apply in_dec. exact string_dec. Qed.
Definition token_of (t : string) (j : jtoken) : Prop := lexes t j /\ (punct t -> punct_token t j).
Lemma lex_spaced ts js text : Forall2 token_of ts js -> apart ts -> spaced ts text -> lex LStart text = js.
Proof.
  intros HF. revert text. induction HF as [|t j ts js [Ht Hp] HF IH]; intros text Ha Hs; inversion Hs; subst.
  - now apply white_end.
  - rewrite lex_white by assumption. destruct (punct_dec t) as [Hpt|Hnp].
    + destruct (Hp Hpt) as [_ Hl]. rewrite Hl. f_equal. apply IH; [now apply apart_tail in Ha|assumption].
    + rewrite (Ht text0) by (eapply spaced_breaks; eassumption). f_equal. apply IH; [now apply apart_tail in Ha|assumption].
Qed.
Lemma token_punct t j : punct_token t j -> token_of t j.
Proof. intros H. split; [now apply punct_lexes|auto]. Qed.
Lemma quoted_not_punct s : ~ punct (quoted s).
Proof. unfold punct, quoted. cbn [In append]. intros H. repeat destruct H as [H|H]; try discriminate. destruct H. Qed.
Lemma token_literal s t : literal unescape s t -> token_of t (JString s).
Proof. intros H. split; [now apply lexes_literal|]. intros Hp. destruct H as (body & -> & _). destruct (quoted_not_punct body Hp). Qed.
Lemma token_word s j : lexes s j -> ~ punct s -> token_of s j.
Proof. split; [assumption|contradiction]. Qed.
Lemma not_punct s : (if in_dec string_dec s ["["; "]"; "{"; "}"; ":"; ","]%string then false else true) = true -> ~ punct s.
Proof. unfold punct. destruct (in_dec _ _ _); [discriminate|auto]. Qed.
Lemma token_bool b : token_of (bool_text b) (if b then JTrue else JFalse).
Proof. apply token_word; [apply lexes_bool|]. apply not_punct. now destruct b. Qed.
Lemma token_null : token_of "null" JNull.
Proof. apply token_word; [apply lexes_null|]. now apply not_punct. Qed.
Lemma decimal_not_punct x : ~ punct (decimal x).
Proof.
  unfold decimal, punct. intros H.
  destruct (N.to_uint x); cbn [NilZero.string_of_uint NilEmpty.string_of_uint In] in H; repeat destruct H as [H|H]; try discriminate; destruct H.
Qed.
Lemma token_decimal x : token_of (decimal x) (JNumber x).
Proof. apply token_word; [apply lexes_decimal|apply decimal_not_punct]. Qed.

Lemma joined_tokens items jitems p j : Forall2 (Forall2 token_of) items jitems -> punct_token p j ->
  Forall2 token_of (joined ","%string items ++ [p]) (joined JComma jitems ++ [j]).
Proof.
  intros HF Hp. induction HF as [|x y items jitems Hx HF IH]; cbn [joined app].
  - constructor; [now apply token_punct|constructor].
  - destruct HF as [|x' y' items jitems Hx' HF]; cbn [joined].
    + apply Forall2_app; [assumption|]. constructor; [now apply token_punct|constructor].
    + rewrite <- !app_assoc. cbn [app]. apply Forall2_app; [assumption|]. constructor; [apply token_punct, lex_comma|exact IH].
Qed.
End Lex.

(** ** Parsing *)
Section Parse.
Context (inp : derive_input) (names : list string) (HN : Names inp names).

Lemma find_name_nth l v k : NoDup l -> (v < length l)%nat -> find_name l (nth v l ""%string) k = Some (v + k)%nat.
Proof.
  revert v k. induction l as [|n l IH]; intros v k Hd Hv; cbn [length] in Hv; [lia|]. inversion Hd; subst.
  destruct v as [|v]; cbn [nth find_name].
  - now rewrite String.eqb_refl.
  - destruct (String.eqb_spec n (nth v l ""%string)) as [E|_].
    + destruct H1. rewrite E. apply nth_In. lia.
    + rewrite IH by (auto; lia). f_equal. lia.
Qed.
Lemma find_name_lt l s k v : find_name l s k = Some v -> (v < k + length l)%nat.
Proof.
  revert k. induction l as [|n l IH]; intros k; cbn [find_name length]; [discriminate|].
  destruct (n =? s)%string; [intros [= <-]; lia|]. intros H. apply IH in H. lia.
Qed.
Lemma read_name_nth v : variant inp v -> read_name names (nth v names ""%string) = Ok v.
Proof.
  intros Hv. unfold read_name. rewrite find_name_nth; [now rewrite Nat.add_0_r|apply (nm_distinct _ _ HN)|].
  rewrite (nm_length _ _ HN). exact Hv.
Qed.
Lemma read_name_variant s v : read_name names s = Ok v -> variant inp v.
Proof.
  unfold read_name. destruct (find_name names s 0) as [u|] eqn:E; [|discriminate]. intros [= <-].
  apply find_name_lt in E. unfold variant. rewrite <- (nm_length _ _ HN). lia.
Qed.

Inductive element_tokens (v : nat) : list jtoken -> Prop :=
| et_string : element_tokens v [JString (nth v names ""%string)]
| et_object : element_tokens v [JBegin; JString (nth v names ""%string); JColon; JNull; JEnd].
Lemma more_variants_all l jitems rest : Forall2 (fun v js => variant inp v /\ element_tokens v js) l jitems ->
  more_variants names (concat (map (cons JComma) jitems) ++ JClose :: rest) = (map Ok l, Some rest).
Proof.
  induction 1 as [|v js l jitems [Hv He] HF IH]; [reflexivity|].
  cbn [map concat]. destruct He; cbn [app more_variants]; rewrite read_name_nth by assumption; cbn [item]; now rewrite IH.
Qed.
Lemma more_words_all l rest : words_ok l ->
  more_words (concat (map (fun x => [JComma; JNumber x]) l) ++ JClose :: rest) = (map Ok l, Some rest).
Proof.
  induction 1 as [|x l Hx HF IH]; [reflexivity|]. cbn [map concat app more_words].
  destruct (N.ltb_spec x (2 ^ 64)) as [_|]; [|lia]. cbn [item]. now rewrite IH.
Qed.
Lemma more_entries_all l rest : Forall (fun e => variant inp (fst e)) l ->
  more_entries names (concat (map (fun e => [JComma; JString (nth (fst e) names ""%string); JColon; if snd e : bool then JTrue else JFalse]) l)
                      ++ JEnd :: rest) = (map Ok l, Some rest).
Proof.
  induction 1 as [|[v b] l Hv HF IH]; [reflexivity|]. cbn [map concat app more_entries fst snd] in *.
  rewrite read_name_nth by assumption. destruct b; cbn [item]; now rewrite IH.
Qed.
Lemma joined_comma {A} (sep : A) items rest : items <> [] ->
  sep :: joined sep items ++ rest = concat (map (cons sep) items) ++ rest.
Proof.
  intros Hn. induction items as [|x items IH]; [contradiction|]. destruct items as [|y items].
  - cbn [joined map concat]. now rewrite app_nil_r.
  - cbn [joined map concat] in *. rewrite <- !app_assoc in *. cbn [app] in *. rewrite <- ?app_assoc in *. f_equal. f_equal. apply IH. discriminate.
Qed.

(** Items are what the reader is asked for, whatever the text. *)
Lemma item_In {A} (x : result A de_error) more y : In (Ok y) (fst (item x more)) -> x = Ok y \/ In (Ok y) (fst more).
Proof. destruct x as [x|e]; cbn [item fst In]; intros [H|H]; auto; destruct H. Qed.
End Parse.

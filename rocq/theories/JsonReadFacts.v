(** * Facts about the texts the model of JSON accepts *)
From Coq Require Import Ascii DecimalString Decimal DecimalN.
From Verif Require Import Base BaseFacts Syntax Spec Derive EnumSet Serde SerdeFacts Json JsonSpec JsonFacts.

(** ** From tokens back to text *)
Section Unlex.
Context (unescape : string -> option string).
Notation lex := (json_tokens unescape).

(** The text of a token. *)
Definition token_text (t : string) (j : jtoken) : Prop :=
  match j with
  | JOpen => t = "[" | JClose => t = "]" | JBegin => t = "{" | JEnd => t = "}" | JColon => t = ":" | JComma => t = ","
  | JString s => literal unescape s t
  | JNumber x => t = decimal x
  | JTrue => t = "true" | JFalse => t = "false" | JNull => t = "null"
  | JOther => False
  end%string.

Lemma space_white c : is_space c = true -> In (Ascii.N_of_ascii c) [32; 9; 10; 13].
Proof.
  unfold is_space. rewrite !orb_true_iff, !N.eqb_eq. cbn [In]. intuition auto.
Qed.
Lemma spaced_space c ts text : is_space c = true -> spaced ts text -> spaced ts (String c text).
Proof.
  intros Hc Hs. assert (Hw : forall w, white w -> white (String c w)).
  { intros w Hw d [<-|Hd]; [|now apply Hw]. apply space_white in Hc. cbn [In] in Hc |- *. tauto. }
  destruct Hs as [w H|w t ts text H Hs].
  - apply spaced_end. auto.
  - change (String c (w ++ t ++ text)) with (String c w ++ t ++ text)%string. apply spaced_token; auto.
Qed.
Lemma punctuation_text c j : punctuation c = Some j -> token_text (String c "") j /\ j <> JOther.
Proof.
  intros H. destruct c as [[] [] [] [] [] [] [] []]; vm_compute in H; try discriminate H; injection H as <-; split; try reflexivity; discriminate.
Qed.
Lemma word_text s : word_token s <> JOther -> token_text s (word_token s).
Proof.
  unfold word_token. destruct (String.eqb_spec s "true") as [->|_]; [reflexivity|].
  destruct (String.eqb_spec s "false") as [->|_]; [reflexivity|].
  destruct (String.eqb_spec s "null") as [->|_]; [reflexivity|]. congruence.
Qed.

(** Digits *)
Fixpoint snoc (d last : uint) : uint :=
  match d with
  | Nil => last
  | D0 d => D0 (snoc d last) | D1 d => D1 (snoc d last) | D2 d => D2 (snoc d last) | D3 d => D3 (snoc d last)
  | D4 d => D4 (snoc d last) | D5 d => D5 (snoc d last) | D6 d => D6 (snoc d last) | D7 d => D7 (snoc d last)
  | D8 d => D8 (snoc d last) | D9 d => D9 (snoc d last)
  end.
Lemma snoc_text d last :
  NilEmpty.string_of_uint (snoc d last) = (NilEmpty.string_of_uint d ++ NilEmpty.string_of_uint last)%string.
Proof. induction d; cbn [snoc NilEmpty.string_of_uint append]; congruence. Qed.
Lemma snoc_value d last x : value_from x (snoc d last) = value_from (value_from x d) last.
Proof. revert x. induction d; intros x; cbn [snoc value_from]; auto. Qed.
Definition leads (d : uint) : Prop := match d with Nil | D0 _ => False | _ => True end.
Lemma leads_value d : leads d -> N.of_uint d = value_from 0 d.
Proof. destruct d; cbn [leads]; try contradiction; intros _; cbn [value_from];
    match goal with |- context [10 * 0 + ?k] => change (10 * 0 + k) with k end; rewrite value_from_acc; reflexivity. Qed.
Lemma leads_decimal d : leads d -> decimal (value_from 0 d) = NilEmpty.string_of_uint d.
Proof.
  intros H. rewrite <- (leads_value d H). unfold decimal. rewrite DecimalN.Unsigned.to_of.
  destruct d; cbn [leads] in H; try contradiction; reflexivity.
Qed.
Lemma digit_char c k : digit_of c = Some k -> exists d, NilEmpty.string_of_uint d = String c "" /\
  (forall x, value_from x d = 10 * x + k) /\ (k <> 0 -> leads d) /\ (k = 0 -> c = "0"%char).
Proof.
  intros H. destruct c as [[] [] [] [] [] [] [] []]; vm_compute in H; try discriminate H; injection H as <-.
  all: try (exists (D0 Nil); split; [reflexivity|]; split; [reflexivity|]; split; [congruence|reflexivity]).
  all: try (exists (D1 Nil); split; [reflexivity|]; split; [reflexivity|]; split; [exact (fun _ => I)|discriminate]).
  all: try (exists (D2 Nil); split; [reflexivity|]; split; [reflexivity|]; split; [exact (fun _ => I)|discriminate]).
  all: try (exists (D3 Nil); split; [reflexivity|]; split; [reflexivity|]; split; [exact (fun _ => I)|discriminate]).
  all: try (exists (D4 Nil); split; [reflexivity|]; split; [reflexivity|]; split; [exact (fun _ => I)|discriminate]).
  all: try (exists (D5 Nil); split; [reflexivity|]; split; [reflexivity|]; split; [exact (fun _ => I)|discriminate]).
  all: try (exists (D6 Nil); split; [reflexivity|]; split; [reflexivity|]; split; [exact (fun _ => I)|discriminate]).
  all: try (exists (D7 Nil); split; [reflexivity|]; split; [reflexivity|]; split; [exact (fun _ => I)|discriminate]).
  all: try (exists (D8 Nil); split; [reflexivity|]; split; [reflexivity|]; split; [exact (fun _ => I)|discriminate]).
  all: try (exists (D9 Nil); split; [reflexivity|]; split; [reflexivity|]; split; [exact (fun _ => I)|discriminate]).
Qed.

(** The text the reader has seen of an unfinished token. *)
Definition pending (st : jstate) (p : string) : Prop :=
  match st with
  | LStart => p = ""%string
  | LString s => p = ("""" ++ s)%string /\ forall r, string_body r -> string_body (s ++ r)
  | LEscape s => p = ("""" ++ s ++ "\")%string /\ forall r, string_body r -> string_body (s ++ r)
  | LNumber x => exists d, leads d /\ p = NilEmpty.string_of_uint d /\ x = value_from 0 d
  | LZero => p = "0"%string
  | LWord s => p = s
  end.
Definition unlexes (st : jstate) (text : string) : Prop :=
  ~ In JOther (lex st text) -> forall p, pending st p ->
  exists ts, Forall2 token_text ts (lex st text) /\ spaced ts (p ++ text).

Lemma spaced_next t ts text : spaced ts text -> spaced (t :: ts) (t ++ text).
Proof. intros H. change (t ++ text)%string with ("" ++ t ++ text)%string. apply spaced_token; [intros c []|assumption]. Qed.
Lemma unlex_start c text : (forall st, unlexes st text) -> unlexes LStart (String c text).
Proof.
  intros IH Hn p Hp. cbn [pending] in Hp. subst p. cbn [append].
  cbn [json_tokens json_char] in *. unfold json_begin in *.
  destruct (is_space c) eqn:Ec.
  { cbn [app] in *. destruct (IH LStart Hn ""%string eq_refl) as (ts & H1 & H2). exists ts. split; [assumption|].
    now apply spaced_space. }
  destruct (punctuation c) as [j|] eqn:Ep.
  { cbn [app] in *. destruct (punctuation_text c j Ep) as [Hj _].
    destruct (IH LStart (fun H => Hn (or_intror H)) ""%string eq_refl) as (ts & H1 & H2).
    exists (String c "" :: ts). split; [constructor; assumption|]. exact (spaced_next (String c "") ts text H2). }
  destruct (digit_of c) as [k|] eqn:Ed.
  { destruct (digit_char c k Ed) as (d & Hd1 & Hd2 & Hd3 & Hd4). destruct k as [|k].
    - cbn [app] in *. rewrite (Hd4 eq_refl). exact (IH LZero Hn "0"%string eq_refl).
    - cbn [app] in *. change (String c text) with (String c "" ++ text)%string. rewrite <- Hd1.
      apply (IH _ Hn). exists d. split; [apply Hd3; discriminate|]. split; [reflexivity|]. rewrite Hd2. reflexivity. }
  destruct (Ascii.N_of_ascii c =? 34) eqn:Eq.
  { cbn [app] in *. assert (c = """"%char) as ->.
    { apply N.eqb_eq in Eq. rewrite <- (Ascii.ascii_N_embedding c), Eq. reflexivity. }
    apply (IH (LString "") Hn """"%string). split; [reflexivity|auto]. }
  destruct (is_letter c).
  { cbn [app] in *. exact (IH (LWord (String c "")) Hn (String c "") eq_refl). }
  destruct Hn. now left.
Qed.
(** A token that ends where another begins. *)
Lemma unlex_end t j c text : unlexes LStart (String c text) -> token_text t j ->
  ~ In JOther (j :: lex LStart (String c text)) ->
  exists ts, Forall2 token_text ts (j :: lex LStart (String c text)) /\ spaced ts (t ++ String c text).
Proof.
  intros IH Ht Hn. destruct (IH (fun H => Hn (or_intror H)) ""%string eq_refl) as (ts & H1 & H2).
  exists (t :: ts). split; [constructor; assumption|]. now apply spaced_next.
Qed.
Lemma lex_split (j : jtoken) c text :
  match (let '(ts, st) := json_begin c in (j :: ts, st)) with
  | (ts, Some st) => ts ++ lex st text
  | (ts, None) => ts
  end = j :: lex LStart (String c text).
Proof. cbn [json_tokens json_char]. destruct (json_begin c) as [ts [st|]]; reflexivity. Qed.
Lemma body_extend s c : (forall r, string_body r -> string_body (s ++ r)) ->
  32 <= Ascii.N_of_ascii c -> Ascii.N_of_ascii c <> 34 -> Ascii.N_of_ascii c <> 92 ->
  forall r, string_body r -> string_body ((s ++ String c "") ++ r).
Proof. intros H H1 H2 H3 r Hr. rewrite append_assoc. apply H. now apply body_char. Qed.
Lemma body_extend_escape s c : (forall r, string_body r -> string_body (s ++ r)) ->
  forall r, string_body r -> string_body ((s ++ "\" ++ String c "") ++ r).
Proof. intros H r Hr. rewrite append_assoc. apply H. now apply body_escape. Qed.

Lemma unlex_all text : forall st, unlexes st text.
Proof.
  induction text as [|c text IH]; intros st Hn p Hp.
  - destruct st as [|s|s|x| |s]; cbn [json_tokens json_end pending] in *; rewrite append_nil_r.
    + subst p. exists []. split; [constructor|]. apply spaced_end. intros d [].
    + destruct Hn. now left.
    + destruct Hn. now left.
    + destruct Hp as (d & Hd & -> & ->). exists [NilEmpty.string_of_uint d]. split.
      * constructor; [|constructor]. cbn [token_text]. now rewrite leads_decimal.
      * rewrite <- (append_nil_r (NilEmpty.string_of_uint d)) at 2. apply spaced_next, spaced_end. intros e [].
    + subst p. exists ["0"%string]. split; [constructor; [reflexivity|constructor]|].
      apply (spaced_next "0" [] ""), spaced_end. intros e [].
    + subst p. exists [s]. split.
      * constructor; [|constructor]. apply word_text. intros E. apply Hn. now left.
      * rewrite <- (append_nil_r s) at 2. apply spaced_next, spaced_end. intros e [].
  - pose proof (unlex_start c text IH) as HS. destruct st as [|s|s|x| |s].
    + now apply HS.
    + cbn [pending] in Hp. destruct Hp as [-> Hb]. cbn [json_tokens json_char] in *.
      destruct (N.eqb_spec (Ascii.N_of_ascii c) 34) as [E|N1].
      * unfold string_token in *. destruct (unescape s) as [u|] eqn:Eu; [|destruct Hn; now left]. cbn [app] in *.
        destruct (IH LStart (fun H => Hn (or_intror H)) ""%string eq_refl) as (ts & H1 & H2).
        assert (c = """"%char) as -> by (rewrite <- (Ascii.ascii_N_embedding c), E; reflexivity).
        exists (quoted s :: ts). split.
        -- constructor; [|assumption]. exists s. split; [reflexivity|]. split; [|assumption].
           rewrite <- (append_nil_r s). apply Hb. constructor.
        -- replace (("""" ++ s) ++ String """" text)%string with (quoted s ++ text)%string; [now apply spaced_next|].
           unfold quoted. rewrite !append_assoc. reflexivity.
      * destruct (N.eqb_spec (Ascii.N_of_ascii c) 92) as [E|N2].
        { cbn [app] in *. assert (c = "\"%char) as -> by (rewrite <- (Ascii.ascii_N_embedding c), E; reflexivity).
          replace (("""" ++ s) ++ String "\" text)%string with (("""" ++ s ++ "\") ++ text)%string by (rewrite !append_assoc; reflexivity).
          apply (IH _ Hn). split; [reflexivity|assumption]. }
        destruct (N.ltb_spec (Ascii.N_of_ascii c) 32) as [|N3]; [destruct Hn; now left|]. cbn [app] in *.
        replace (("""" ++ s) ++ String c text)%string with (("""" ++ (s ++ String c "")) ++ text)%string by (rewrite !append_assoc; reflexivity).
        apply (IH _ Hn). split; [reflexivity|]. now apply body_extend.
    + cbn [pending] in Hp. destruct Hp as [-> Hb]. cbn [json_tokens json_char app] in *.
      replace (("""" ++ s ++ "\") ++ String c text)%string with (("""" ++ (s ++ "\" ++ String c "")) ++ text)%string by (rewrite !append_assoc; reflexivity).
      apply (IH _ Hn). split; [reflexivity|]. now apply body_extend_escape.
    + cbn [pending] in Hp. destruct Hp as (d & Hd & -> & ->). cbn [json_tokens json_char] in *.
      destruct (digit_of c) as [k|] eqn:Ek.
      * cbn [app] in *. destruct (digit_char c k Ek) as (e & H1 & H2 & _ & _).
        replace (NilEmpty.string_of_uint d ++ String c text)%string with (NilEmpty.string_of_uint (snoc d e) ++ text)%string
          by (rewrite snoc_text, H1, append_assoc; reflexivity).
        apply (IH _ Hn). exists (snoc d e). split; [destruct d; cbn in Hd |- *; tauto|]. split; [reflexivity|].
        now rewrite snoc_value, H2.
      * destruct (fraction c); [destruct Hn; now left|]. rewrite lex_split in *.
        apply unlex_end; auto. cbn [token_text]. now rewrite leads_decimal.
    + cbn [pending] in Hp. subst p. cbn [json_tokens json_char] in *.
      destruct (digit_of c); [destruct Hn; now left|]. destruct (fraction c); [destruct Hn; now left|].
      rewrite lex_split in *. apply (unlex_end "0" (JNumber 0)); auto. reflexivity.
    + cbn [pending] in Hp. subst p. cbn [json_tokens json_char] in *. destruct (is_letter c).
      * cbn [app] in *. replace (s ++ String c text)%string with ((s ++ String c "") ++ text)%string by (rewrite !append_assoc; reflexivity).
        now apply (IH _ Hn).
      * pose proof (word_text s) as Hw.
        destruct (word_token s); try (destruct Hn; now left); rewrite lex_split in *; apply unlex_end; auto; apply Hw; discriminate.
Qed.
Lemma unlex text : ~ In JOther (lex LStart text) -> exists ts, Forall2 token_text ts (lex LStart text) /\ spaced ts text.
Proof. intros Hn. exact (unlex_all text LStart Hn ""%string eq_refl). Qed.

(** Up to a closing bracket *)
Lemma word_not_close s : word_token s <> JClose.
Proof. unfold word_token. destruct (s =? "true")%string, (s =? "false")%string, (s =? "null")%string; discriminate. Qed.
Lemma begin_close c : (~ In JClose (fst (json_begin c))) \/ json_begin c = ([JClose], Some LStart).
Proof.
  unfold json_begin. destruct (is_space c); [left; intros []|].
  destruct (punctuation c) as [j|].
  - destruct j; auto; left; intros [H|[]]; discriminate.
  - left. destruct (digit_of c) as [[|k]|]; [intros []|intros []|]. destruct (_ =? _); [intros []|]. destruct (is_letter c); [intros []|].
    intros [H|[]]; discriminate.
Qed.
Lemma char_close st c : (~ In JClose (fst (json_char unescape st c))) \/
  (exists pre, ~ In JClose pre /\ json_char unescape st c = (pre ++ [JClose], Some LStart)).
Proof.
  assert (HB : forall j, j <> JClose ->
    let r := (let '(ts, st) := json_begin c in (j :: ts, st)) in
    (~ In JClose (fst r)) \/ (exists pre, ~ In JClose pre /\ r = (pre ++ [JClose], Some LStart))).
  { intros j Hj. destruct (begin_close c) as [H| ->]; cbv zeta.
    - left. destruct (json_begin c) as [ts st']. cbn [fst In] in *. intuition congruence.
    - right. exists [j]. split; [cbn; intuition congruence|reflexivity]. }
  destruct st as [|s|s|x| |s]; cbn [json_char].
  - destruct (begin_close c) as [H| ->]; [now left|]. right. exists [].   split; [intros []|reflexivity].
  - left. unfold string_token. destruct (_ =? 34); [destruct (unescape s); cbn [fst In]; intuition discriminate|].
    destruct (_ =? 92); [intros []|]. destruct (_ <? 32); cbn [fst In]; intuition discriminate.
  - left. intros [].
  - destruct (digit_of c); [left; intros []|]. destruct (fraction c); [left; cbn; intuition discriminate|]. apply HB. discriminate.
  - destruct (digit_of c); [left; cbn; intuition discriminate|]. destruct (fraction c); [left; cbn; intuition discriminate|]. apply HB. discriminate.
  - destruct (is_letter c); [left; intros []|]. pose proof (word_not_close s) as Hw.
    destruct (word_token s); try (apply HB; assumption). left; cbn; intuition discriminate.
Qed.
Lemma app_split {A} (x : A) ts M js rest : ~ In x ts -> js ++ x :: rest = ts ++ M -> exists js', js = ts ++ js' /\ M = js' ++ x :: rest.
Proof.
  revert js. induction ts as [|t ts IH]; intros js Hn E; [exists js; auto|].
  destruct js as [|j js]; cbn [app] in E; injection E as -> E; [destruct Hn; now left|].
  destruct (IH js (fun H => Hn (or_intror H)) E) as (js' & -> & ->). exists js'. auto.
Qed.
Lemma lex_close_split text : forall st js rest, lex st text = js ++ JClose :: rest ->
  exists text1 text2, text = (text1 ++ text2)%string /\ lex st text1 = js ++ [JClose].
Proof.
  induction text as [|c text IH]; intros st js rest E.
  - exfalso. assert (H : In JClose (lex st ""%string)) by (rewrite E; apply in_elt).
    destruct st; cbn [json_tokens json_end In] in H; try (intuition discriminate). destruct H as [H|[]]. now apply word_not_close in H.
  - cbn [json_tokens] in E. destruct (char_close st c) as [Hn|(pre & Hn & Ec)].
    + destruct (json_char unescape st c) as [ts o] eqn:Ec. cbn [fst] in Hn. destruct o as [st'|].
      * symmetry in E. destruct (app_split JClose ts _ js rest Hn E) as (js' & -> & E').
        destruct (IH st' js' rest E') as (text1 & text2 & -> & E1). exists (String c text1), text2. split; [reflexivity|].
        cbn [json_tokens]. rewrite Ec, E1. now rewrite app_assoc.
      * exfalso. apply Hn. rewrite E. apply in_elt.
    + rewrite Ec in E. rewrite <- app_assoc in E. cbn [app] in E. symmetry in E.
      destruct (app_split JClose pre _ js rest Hn E) as (js' & -> & E'). destruct js' as [|j js']; cbn [app] in E'.
      * exists (String c ""), text. split; [reflexivity|]. cbn [json_tokens]. rewrite Ec, app_nil_r. cbn [json_end]. now rewrite app_nil_r.
      * injection E' as <- E'. destruct (IH LStart js' rest E') as (text1 & text2 & -> & E1).
        exists (String c text1), text2. split; [reflexivity|]. cbn [json_tokens]. rewrite Ec, E1. now rewrite <- !app_assoc.
Qed.
(** Text behind a last token that is punctuation *)
Lemma spaced_breaks_app t t' ts text rest : apart (t :: t' :: ts) -> ~ punct t -> spaced (t' :: ts) text -> breaks (text ++ rest).
Proof.
  intros Ha Hn Hs. pose proof (spaced_breaks unescape t (t' :: ts) text Ha Hn Hs) as Hb. destruct text as [|c text]; [|exact Hb].
  inversion Hs as [|w u us text0 Hw Hs' E1 E2]. destruct w; [|discriminate]. inversion Ha as [| |? ? ? Hp _]; subst. destruct Hp as [|Hp]; [contradiction|].
  unfold punct in Hp. cbn [In] in Hp. repeat destruct Hp as [<-|Hp]; try discriminate. destruct Hp.
Qed.
Lemma lex_prefix ts js text rest : Forall2 (token_of unescape) ts js -> apart ts -> (exists ts' p, ts = ts' ++ [p] /\ punct p) ->
  spaced ts text -> lex LStart (text ++ rest) = js ++ lex LStart rest.
Proof.
  intros HF. revert text. induction HF as [|t j ts js [Ht Hp] HF IH]; intros text Ha (ts' & p & E & Hpp) Hs; [destruct ts'; discriminate|].
  inversion Hs as [|w u us text0 Hw Hs' E1 E2]; subst. rewrite !append_assoc, lex_white by assumption. cbn [app].
  destruct HF as [|t' j' ts js Ht' HF].
  - destruct ts' as [|? [|]]; try discriminate. injection E as <-. destruct (Hp Hpp) as [_ Hl]. rewrite Hl. f_equal. cbn [app].
    inversion Hs'; subst. now apply lex_white.
  - assert (HE : exists ts'' q, t' :: ts = ts'' ++ [q] /\ punct q).
    { destruct ts' as [|x ts']; [discriminate|]. injection E as _ E. eauto. }
    pose proof (IH text0 (apart_tail _ _ Ha) HE Hs') as IH'. destruct (punct_dec t) as [Hpt|Hnp].
    + destruct (Hp Hpt) as [_ Hl]. rewrite Hl. f_equal. exact IH'.
    + rewrite (Ht (text0 ++ rest)%string) by (eapply spaced_breaks_app; eassumption). f_equal. exact IH'.
Qed.

(** Items *)
Lemma unjoin jitems j ts : Forall2 token_text ts (joined JComma jitems ++ [j]) ->
  exists items t, Forall2 (Forall2 token_text) items jitems /\ token_text t j /\ ts = joined ","%string items ++ [t].
Proof.
  revert ts. induction jitems as [|js jitems IH]; intros ts HF; cbn [joined app] in HF.
  - inversion HF as [|t ? ts' ? Ht HF']; subst. inversion HF'; subst. exists [], t. repeat split; auto.
  - destruct jitems as [|js' jitems]; cbn [joined] in HF.
    + apply Forall2_app_inv_r in HF as (a & b & Ha & Hb & ->). inversion Hb as [|t ? ts' ? Ht HF']; subst. inversion HF'; subst.
      exists [a], t. repeat split; auto.
    + rewrite <- app_assoc in HF. cbn [app] in HF. apply Forall2_app_inv_r in HF as (a & b & Ha & Hb & ->).
      inversion Hb as [|t ? ts' ? Ht HF']; subst. destruct (IH ts' HF') as (items & u & H1 & H2 & ->).
      cbn [token_text] in Ht. subst t. exists (a :: items), u. split; [constructor; assumption|]. split; [assumption|].
      destruct items as [|i items]; [inversion H1|]. cbn [joined]. rewrite <- app_assoc. reflexivity.
Qed.
End Unlex.

(** ** From answers back to tokens *)
Section Unparse.
Context (inp : derive_input) (names : list string) (HN : Names inp names).

Lemma find_name_inv l s k v : find_name l s k = Some v -> (k <= v)%nat /\ s = nth (v - k) l ""%string.
Proof.
  revert k. induction l as [|n l IH]; intros k; cbn [find_name]; [discriminate|].
  destruct (String.eqb_spec n s) as [->|_].
  - intros [= <-]. split; [lia|]. now rewrite Nat.sub_diag.
  - intros H. apply IH in H as [H ->]. split; [lia|]. replace (v - k)%nat with (S (v - S k)) by lia. reflexivity.
Qed.
Lemma read_name_inv s v : read_name names s = Ok v -> variant inp v /\ s = nth v names ""%string.
Proof.
  intros H. split; [now apply (read_name_variant _ _ HN) in H|]. unfold read_name in H.
  destruct (find_name names s 0) as [u|] eqn:E; [|discriminate]. injection H as <-.
  apply find_name_inv in E as [_ ->]. now rewrite Nat.sub_0_r.
Qed.
Lemma item_inv {A} (x : result A de_error) more rest : snd (item x more) = Some rest ->
  exists y, x = Ok y /\ snd more = Some rest /\ fst (item x more) = Ok y :: fst more.
Proof. destruct x as [y|e]; cbn [item snd fst]; [eauto|discriminate]. Qed.

Lemma more_variants_inv rest l : snd (more_variants names l) = Some rest ->
  exists vs jitems, Forall2 (fun v js => variant inp v /\ element_tokens names v js) vs jitems /\
    l = concat (map (cons JComma) jitems) ++ JClose :: rest /\ fst (more_variants names l) = map Ok vs.
Proof.
  assert (H : forall n l, (length l <= n)%nat -> snd (more_variants names l) = Some rest ->
    exists vs jitems, Forall2 (fun v js => variant inp v /\ element_tokens names v js) vs jitems /\
      l = concat (map (cons JComma) jitems) ++ JClose :: rest /\ fst (more_variants names l) = map Ok vs); [|apply (H (length l)); lia].
  clear l. induction n as [|n IH]; intros [|t l] Hl; cbn [length] in Hl; try lia; try discriminate.
  cbn [more_variants]. destruct t; try discriminate.
  { intros [= <-]. exists [], []. repeat split; constructor. }
  destruct l as [|t l]; try discriminate. destruct t; try discriminate.
  - do 4 (destruct l as [|t l]; try discriminate; destruct t; try discriminate).
    intros H. apply item_inv in H as (v & Ev & H & Ei). rewrite Ei. cbn [length] in Hl.
    destruct (IH l ltac:(lia) H) as (vs & jitems & H1 & H2 & H3). apply read_name_inv in Ev as [Hv ->].
    exists (v :: vs), ([JBegin; JString (nth v names ""%string); JColon; JNull; JEnd] :: jitems). split; [|split].
    + constructor; [|assumption]. split; [assumption|constructor].
    + now rewrite H2.
    + now rewrite H3.
  - intros H. apply item_inv in H as (v & Ev & H & Ei). rewrite Ei. cbn [length] in Hl.
    destruct (IH l ltac:(lia) H) as (vs & jitems & H1 & H2 & H3). apply read_name_inv in Ev as [Hv ->].
    exists (v :: vs), ([JString (nth v names ""%string)] :: jitems). split; [|split].
    + constructor; [|assumption]. split; [assumption|constructor].
    + now rewrite H2.
    + now rewrite H3.
Qed.
Lemma more_words_inv rest l : snd (more_words l) = Some rest ->
  exists ws, words_ok ws /\ l = concat (map (cons JComma) (map (fun w => [JNumber w]) ws)) ++ JClose :: rest /\
    fst (more_words l) = map Ok ws.
Proof.
  assert (H : forall n l, (length l <= n)%nat -> snd (more_words l) = Some rest ->
    exists ws, words_ok ws /\ l = concat (map (cons JComma) (map (fun w => [JNumber w]) ws)) ++ JClose :: rest /\
      fst (more_words l) = map Ok ws); [|apply (H (length l)); lia].
  clear l. induction n as [|n IH]; intros [|t l] Hl; cbn [length] in Hl; try lia; try discriminate.
  cbn [more_words]. destruct t; try discriminate.
  { intros [= <-]. exists []. repeat split; constructor. }
  destruct l as [|t l]; try discriminate. destruct t; try discriminate.
  intros H. apply item_inv in H as (w & Ew & H & Ei). rewrite Ei. cbn [length] in Hl.
  destruct (IH l ltac:(lia) H) as (ws & H1 & H2 & H3).
  destruct (N.ltb_spec x (2 ^ 64)) as [Hx|]; [|discriminate]. injection Ew as ->.
  exists (w :: ws). split; [constructor; assumption|]. split; [now rewrite H2|now rewrite H3].
Qed.
Lemma more_words_whole l ws : all_ok (fst (more_words l)) = Ok ws -> exists rest, snd (more_words l) = Some rest.
Proof.
  assert (H : forall n l ws, (length l <= n)%nat -> all_ok (fst (more_words l)) = Ok ws -> exists rest, snd (more_words l) = Some rest);
    [|apply (H (length l)); lia].
  clear l ws. induction n as [|n IH]; intros [|t l] ws Hl; cbn [length] in Hl; try lia; try (cbn; discriminate).
  cbn [more_words]. destruct t; try (cbn; discriminate); [intros _; eexists; reflexivity|].
  destruct l as [|t l]; try (cbn; discriminate). destruct t; try (cbn; discriminate). cbn [length] in Hl.
  destruct (x <? 2 ^ 64); [|discriminate]. cbn [item fst snd all_ok].
  destruct (all_ok (fst (more_words l))) as [ws'|] eqn:E; [|discriminate]. intros _. apply (IH l ws'); [lia|assumption].
Qed.
Lemma words_in_whole l ws : all_ok (fst (words_in l)) = Ok ws -> exists rest, snd (words_in l) = Some rest.
Proof. unfold words_in. destruct l as [|[] l]; apply more_words_whole. Qed.
Definition entry_jtokens (e : nat * bool) : list jtoken :=
  [JString (nth (fst e) names ""%string); JColon; if snd e then JTrue else JFalse].
Lemma more_entries_inv rest l : snd (more_entries names l) = Some rest ->
  exists es, Forall (fun e => variant inp (fst e)) es /\
    l = concat (map (cons JComma) (map entry_jtokens es)) ++ JEnd :: rest /\ fst (more_entries names l) = map Ok es.
Proof.
  assert (H : forall n l, (length l <= n)%nat -> snd (more_entries names l) = Some rest ->
    exists es, Forall (fun e => variant inp (fst e)) es /\
      l = concat (map (cons JComma) (map entry_jtokens es)) ++ JEnd :: rest /\ fst (more_entries names l) = map Ok es); [|apply (H (length l)); lia].
  clear l. induction n as [|n IH]; intros [|t l] Hl; cbn [length] in Hl; try lia; try discriminate.
  cbn [more_entries]. destruct t; try discriminate.
  { intros [= <-]. exists []. repeat split; constructor. }
  do 2 (destruct l as [|t l]; try discriminate; destruct t; try discriminate). destruct l as [|t l]; try discriminate.
  intros H. apply item_inv in H as ([v b] & Ev & H & Ei). rewrite Ei. cbn [length] in Hl.
  destruct (IH l ltac:(lia) H) as (es & H1 & H2 & H3).
  destruct (read_name names s) as [u|e] eqn:Er; [|discriminate]. apply read_name_inv in Er as [Hv ->].
  exists ((v, b) :: es).
  assert (Et : u = v /\ t = if b then JTrue else JFalse) by (destruct t; try discriminate; injection Ev as <- <-; auto).
  destruct Et as [-> ->]. split; [constructor; assumption|]. split; [now rewrite H2|now rewrite H3].
Qed.
Lemma comma_inv {A} (sep : A) items rest l : sep :: l = concat (map (cons sep) items) ++ rest -> hd_error rest <> Some sep ->
  l = joined sep items ++ rest.
Proof.
  intros E Hr. destruct items as [|x items].
  - cbn [map concat app] in E. subst rest. now destruct Hr.
  - rewrite <- joined_comma in E by discriminate. now injection E as ->.
Qed.
Lemma variants_in_inv rest l : snd (variants_in names l) = Some rest ->
  exists vs jitems, Forall2 (fun v js => variant inp v /\ element_tokens names v js) vs jitems /\
    l = joined JComma jitems ++ JClose :: rest /\ fst (variants_in names l) = map Ok vs.
Proof.
  unfold variants_in. intros H.
  assert (HC : (exists l', l = JClose :: l') \/ (match l with JClose :: _ => more_variants names l | _ => more_variants names (JComma :: l) end) = more_variants names (JComma :: l))
    by (destruct l as [|[] l]; eauto).
  destruct HC as [[l' ->]|HC].
  - cbn [more_variants snd] in H. injection H as <-. exists [], []. repeat split; constructor.
  - rewrite HC in *. destruct (more_variants_inv rest _ H) as (vs & jitems & H1 & H2 & H3).
    exists vs, jitems. split; [assumption|]. split; [|assumption]. apply comma_inv; [assumption|discriminate].
Qed.
Lemma words_in_inv rest l : snd (words_in l) = Some rest ->
  exists ws, words_ok ws /\ l = joined JComma (map (fun w => [JNumber w]) ws) ++ JClose :: rest /\
    fst (words_in l) = map Ok ws.
Proof.
  unfold words_in. intros H.
  assert (HC : (exists l', l = JClose :: l') \/ (match l with JClose :: _ => more_words l | _ => more_words (JComma :: l) end) = more_words (JComma :: l))
    by (destruct l as [|[] l]; eauto).
  destruct HC as [[l' ->]|HC].
  - cbn [more_words snd] in H. injection H as <-. exists []. repeat split; constructor.
  - rewrite HC in *. destruct (more_words_inv rest _ H) as (ws & H1 & H2 & H3).
    exists ws. split; [assumption|]. split; [|assumption]. apply comma_inv; [assumption|discriminate].
Qed.
Lemma entries_in_inv rest l : snd (entries_in names l) = Some rest ->
  exists es, Forall (fun e => variant inp (fst e)) es /\
    l = joined JComma (map entry_jtokens es) ++ JEnd :: rest /\ fst (entries_in names l) = map Ok es.
Proof.
  unfold entries_in. intros H.
  assert (HC : (exists l', l = JEnd :: l') \/ (match l with JEnd :: _ => more_entries names l | _ => more_entries names (JComma :: l) end) = more_entries names (JComma :: l))
    by (destruct l as [|[] l]; eauto).
  destruct HC as [[l' ->]|HC].
  - cbn [more_entries snd] in H. injection H as <-. exists []. repeat split; constructor.
  - rewrite HC in *. destruct (more_entries_inv rest _ H) as (es & H1 & H2 & H3).
    exists es. split; [assumption|]. split; [|assumption]. apply comma_inv; [assumption|discriminate].
Qed.

(** ** Both together *)
Context (unescape : string -> option string).
Lemma joined_no_other jitems j : Forall (fun js => ~ In JOther js) jitems -> j <> JOther -> ~ In JOther (joined JComma jitems ++ [j]).
Proof.
  intros HF Hj. induction HF as [|js jitems Hx HF IH]; [cbn; intuition congruence|].
  destruct jitems as [|js' jitems]; cbn [joined].
  - rewrite in_app_iff. cbn. intuition congruence.
  - rewrite <- app_assoc. cbn [app]. rewrite in_app_iff. intros [H|[H|H]]; [auto|discriminate|auto].
Qed.
Lemma bracketed_text o jitems j text : json_tokens unescape LStart text = o :: joined JComma jitems ++ [j] ->
  Forall (fun js => ~ In JOther js) jitems -> o <> JOther -> j <> JOther ->
  exists items t u, Forall2 (Forall2 (token_text unescape)) items jitems /\ token_text unescape t o /\ token_text unescape u j /\
    spaced (t :: joined ","%string items ++ [u]) text.
Proof.
  intros E HF Ho Hj. destruct (unlex unescape text) as (ts & H1 & H2).
  { rewrite E. intros [H|H]; [congruence|]. now apply (joined_no_other jitems j) in H. }
  rewrite E in H1. inversion H1 as [|t ? ts' ? Ht HF']; subst. destruct (unjoin unescape _ _ _ HF') as (items & u & H3 & H4 & ->).
  exists items, t, u. auto.
Qed.
Lemma element_unlex v js ts : element_tokens names v js -> Forall2 (token_text unescape) ts js -> element_text unescape names v ts.
Proof.
  intros He HF. destruct He.
  - inversion HF as [|t ? ? ? Ht HF']; subst. inversion HF'; subst. now constructor.
  - repeat match goal with H : Forall2 _ _ _ |- _ => inversion H; clear H; subst end.
    cbn [token_text] in *. subst. now constructor.
Qed.
Lemma entry_unlex e ts : Forall2 (token_text unescape) ts (entry_jtokens e) -> entry_text unescape names e ts.
Proof.
  destruct e as [v b]. unfold entry_jtokens. cbn [fst snd]. intros HF.
  repeat match goal with H : Forall2 _ _ _ |- _ => inversion H; clear H; subst end.
  destruct b; cbn [token_text] in *; subst; [exact (entry_string _ _ v true _ ltac:(eassumption))|exact (entry_string _ _ v false _ ltac:(eassumption))].
Qed.
Lemma words_unlex ws items : Forall2 (Forall2 (token_text unescape)) items (map (fun w => [JNumber w]) ws) ->
  items = map (fun w => [decimal w]) ws.
Proof.
  revert items. induction ws as [|w ws IH]; intros items HF; cbn [map] in *; inversion HF as [|ts ? ? ? Ht HF']; subst; [reflexivity|].
  rewrite (IH _ HF'). inversion Ht as [|t ? ? ? Hw Hn]; subst. inversion Hn; subst. cbn [token_text] in Hw. now subst.
Qed.
End Unparse.

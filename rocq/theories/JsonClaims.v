(** * Claims about sets as JSON text *)
From Verif Require Import Base BaseFacts LimbFacts Prim ArrayRepr Repr ReprLaws PrimFacts ArrayFacts.
From Verif Require Import Syntax Spec Derive EnumSet Serde ApiSpec DeriveFacts TyFacts SetFacts IterFacts ConvFacts FmtFacts SerdeFacts ReachFacts SetClaims ConvClaims DeriveClaims SerdeClaims Json JsonSpec JsonFacts JsonReadFacts.
From Verif Require HistorySpec HistoryFacts.
Ltac Zify.zify_post_hook ::= Z.div_mod_to_equations.

(** ** The source *)
Lemma more_variants_In inp names v l : Names inp names -> In (Ok v) (fst (more_variants names l)) -> variant inp v.
Proof.
  intros HN. assert (H : forall n l, (length l <= n)%nat -> In (Ok v) (fst (more_variants names l)) -> variant inp v).
  { induction n as [|n IH]; intros [|t l'] Hl; cbn [length] in Hl; try lia; try (intros [H|[]]; discriminate).
    cbn [more_variants]. destruct t; try (intros [H|[]]; discriminate); [intros []|].
    destruct l' as [|t l']; try (intros [H|[]]; discriminate). destruct t; try (intros [H|[]]; discriminate).
    - destruct l' as [|t l']; try (intros [H|[]]; discriminate). destruct t; try (intros [H|[]]; discriminate).
      destruct l' as [|t l']; try (intros [H|[]]; discriminate). destruct t; try (intros [H|[]]; discriminate).
      destruct l' as [|t l']; try (intros [H|[]]; discriminate). destruct t; try (intros [H|[]]; discriminate).
      destruct l' as [|t l']; try (intros [H|[]]; discriminate). destruct t; try (intros [H|[]]; discriminate).
      intros H. apply item_In in H as [H|H]; [now apply (read_name_variant _ _ HN) in H|].
      cbn [length] in Hl. apply (IH l'); [lia|assumption].
    - intros H. apply item_In in H as [H|H]; [now apply (read_name_variant _ _ HN) in H|].
      cbn [length] in Hl. apply (IH l'); [lia|assumption]. }
  apply (H (length l)). lia.
Qed.
Lemma more_words_In x l : In (Ok x) (fst (more_words l)) -> x < 2 ^ 64.
Proof.
  assert (H : forall n l, (length l <= n)%nat -> In (Ok x) (fst (more_words l)) -> x < 2 ^ 64); [|apply (H (length l)); lia].
  induction n as [|n IH]; intros [|t l'] Hl; cbn [length] in Hl; try lia; try (intros [H|[]]; discriminate).
  cbn [more_words]. destruct t; try (intros [H|[]]; discriminate); [intros []|].
  destruct l' as [|t l']; try (intros [H|[]]; discriminate). destruct t; try (intros [H|[]]; discriminate).
  intros H. apply item_In in H as [H|H].
  - destruct (N.ltb_spec x0 (2 ^ 64)); [injection H as <-; assumption|discriminate].
  - cbn [length] in Hl. apply (IH l'); [lia|assumption].
Qed.
Lemma more_entries_In inp names v b l : Names inp names -> In (Ok (v, b)) (fst (more_entries names l)) -> variant inp v.
Proof.
  intros HN. assert (H : forall n l, (length l <= n)%nat -> In (Ok (v, b)) (fst (more_entries names l)) -> variant inp v); [|apply (H (length l)); lia].
  induction n as [|n IH]; intros [|t l'] Hl; cbn [length] in Hl; try lia; try (intros [H|[]]; discriminate).
  cbn [more_entries]. destruct t; try (intros [H|[]]; discriminate); [intros []|].
  destruct l' as [|t l']; try (intros [H|[]]; discriminate). destruct t; try (intros [H|[]]; discriminate).
  destruct l' as [|t l']; try (intros [H|[]]; discriminate). destruct t; try (intros [H|[]]; discriminate).
  destruct l' as [|t l']; try (intros [H|[]]; discriminate).
  intros H. apply item_In in H as [H|H].
  - destruct (read_name names s) as [u|e] eqn:E; [|discriminate]. apply (read_name_variant _ _ HN) in E.
    destruct t; try discriminate; injection H as <- _; assumption.
  - cbn [length] in Hl. apply (IH l'); [lia|assumption].
Qed.
Lemma json_source_ok pw inp T names l : Supported pw inp T -> Names inp names -> SourceOk pw inp (json_source names T l).
Proof.
  intros HS HN. destruct (setup _ _ _ HS) as (val & irel & HT & HV). pose proof (tl_pw _ _ _ _ _ HT) as Hpw.
  split; cbn [json_source src_int src_list src_map src_words]; rewrite ?Hpw.
  - intros t x. destruct l as [|j l]; [discriminate|]. destruct j; try discriminate.
    destruct (N.ltb_spec x0 (2 ^ ity_bits pw t)); [|discriminate]. intros H'. now injection H' as <-.
  - intros its v. destruct l as [|j l]; [discriminate|]. destruct j; try discriminate. intros H. injection H as <-.
    unfold variants_in. destruct l as [|[]]; apply more_variants_In; assumption.
  - intros its v b. destruct l as [|j l]; [discriminate|]. destruct j; try discriminate. intros H. injection H as <-.
    unfold entries_in. destruct l as [|[]]; apply more_entries_In; assumption.
  - intros its x. destruct l as [|j l]; [discriminate|]. destruct j; try discriminate. intros H. injection H as <-.
    unfold words_in. destruct l as [|[]]; apply more_words_In.
Qed.

(** ** Reading a text of tokens *)
Section Read.
Context {pw : N} {inp : derive_input} {T : EnumTy} {names : list string} {unescape : string -> option string}.
Context (HN : Names inp names).

Lemma name_plain v : variant inp v -> plain (nth v names ""%string).
Proof. intros Hv. apply (nm_plain _ _ HN), nth_In. rewrite (nm_length _ _ HN). exact Hv. Qed.

(** Lists *)
Lemma element_lex v ts : element_text unescape names v ts ->
  exists js, element_tokens names v js /\ Forall2 (token_of unescape) ts js /\ apart ts /\ js <> [] /\ hd JOther js <> JClose.
Proof.
  intros He. destruct He as [t Ht|t Ht]; pose proof (token_literal unescape _ _ Ht) as Hq.
  - eexists. split; [apply et_string|]. split; [apply Forall2_cons; [exact Hq|apply Forall2_nil]|]. split; [constructor|]. split; discriminate.
  - eexists. split; [apply et_object|]. split; [|split; [|split; discriminate]].
    + repeat (apply Forall2_cons); try apply Forall2_nil; auto using token_null, token_punct, lex_begin, lex_end, lex_colon.
    + repeat (apply apart_more); try apply apart_one; unfold punct; cbn [In]; auto 12.
Qed.
Lemma lex_list vs items text : Forall2 (fun v ts => variant inp v /\ element_text unescape names v ts) vs items ->
  spaced (array_tokens items) text ->
  exists l, json_tokens unescape LStart text = JOpen :: l /\ variants_in names l = (map Ok vs, Some []).
Proof.
  intros HF Hs.
  assert (HJ : exists jitems, Forall2 (Forall2 (token_of unescape)) items jitems /\ Forall apart items /\
            Forall2 (fun v js => variant inp v /\ element_tokens names v js) vs jitems /\
            Forall (fun js => js <> [] /\ hd JOther js <> JClose) jitems).
  { clear Hs. induction HF as [|v ts vs items [Hv He] HF (jitems & H1 & H2 & H3 & H4)].
    - exists []. repeat split; constructor.
    - destruct (element_lex v ts He) as (js & E1 & E2 & E3 & E4). exists (js :: jitems).
      split; [constructor; assumption|]. split; [constructor; assumption|]. split; constructor; auto. }
  destruct HJ as (jitems & H1 & H2 & H3 & H4).
  exists (joined JComma jitems ++ [JClose]). split.
  - apply (lex_spaced unescape (array_tokens items)); [| |assumption]; unfold array_tokens.
    + constructor; [apply token_punct, lex_open|]. apply joined_tokens; [assumption|apply lex_close].
    + apply apart_punct; [cbn; auto|]. apply apart_joined; [cbn; auto|assumption].
  - pose proof (more_variants_all inp names HN vs jitems [] H3) as HM.
    destruct jitems as [|js jitems].
    + inversion H3; subst. reflexivity.
    + rewrite <- joined_comma in HM by discriminate. unfold variants_in.
      inversion H4 as [|? ? [Hn Hh] _]; subst.
      destruct js as [|j js]; [contradiction|]. cbn [hd] in Hh.
      destruct jitems as [|js' jitems]; cbn [joined app] in HM |- *; destruct j; try congruence; exact HM.
Qed.
(** Words *)
Lemma lex_words ws text : spaced (array_tokens (map (fun w => [decimal w]) ws)) text ->
  json_tokens unescape LStart text = JOpen :: joined JComma (map (fun w => [JNumber w]) ws) ++ [JClose].
Proof.
  intros Hs. apply (lex_spaced unescape (array_tokens (map (fun w => [decimal w]) ws))); [| |assumption]; unfold array_tokens.
  - constructor; [apply token_punct, lex_open|]. apply joined_tokens; [|apply lex_close].
    clear Hs. induction ws as [|w ws IH]; constructor; auto. apply Forall2_cons; [apply token_decimal|apply Forall2_nil].
  - apply apart_punct; [cbn; auto|]. apply apart_joined; [cbn; auto|]. apply Forall_map, Forall_forall. intros; constructor.
Qed.
Lemma lex_words_prefix ws text1 text2 : spaced (array_tokens (map (fun w => [decimal w]) ws)) text1 ->
  json_tokens unescape LStart (text1 ++ text2) =
  JOpen :: joined JComma (map (fun w => [JNumber w]) ws) ++ JClose :: json_tokens unescape LStart text2.
Proof.
  intros Hs. change (JOpen :: ?a ++ JClose :: ?b) with ((JOpen :: a) ++ JClose :: b).
  rewrite (lex_prefix unescape (array_tokens (map (fun w => [decimal w]) ws))
             (JOpen :: joined JComma (map (fun w => [JNumber w]) ws) ++ [JClose]) text1 text2); [| | | |assumption]; unfold array_tokens.
  - cbn [app]. now rewrite <- app_assoc.
  - constructor; [apply token_punct, lex_open|]. apply joined_tokens; [|apply lex_close].
    clear Hs. induction ws as [|w ws IH]; constructor; auto. apply Forall2_cons; [apply token_decimal|apply Forall2_nil].
  - apply apart_punct; [cbn; auto|]. apply apart_joined; [cbn; auto|]. apply Forall_map, Forall_forall. intros; constructor.
  - exists ("[" :: joined "," (map (fun w => [decimal w]) ws))%string, "]"%string. split; [reflexivity|cbn; auto].
Qed.
Definition word_answers (ws : list N) : list (result N de_error) * option (list jtoken) :=
  more_words (concat (map (fun x => [JComma; JNumber x]) ws) ++ [JClose]).
Lemma words_in_joined ws : words_in (joined JComma (map (fun w => [JNumber w]) ws) ++ [JClose]) = word_answers ws.
Proof.
  unfold word_answers. replace (map (fun x => [JComma; JNumber x]) ws) with (map (cons JComma) (map (fun w => [JNumber w]) ws)) by now rewrite map_map.
  destruct ws as [|w ws]; [reflexivity|].
  rewrite <- joined_comma by discriminate. unfold words_in.
  destruct ws as [|w' ws]; reflexivity.
Qed.
Lemma words_in_prefix ws rest : words_ok ws ->
  words_in (joined JComma (map (fun w => [JNumber w]) ws) ++ JClose :: rest) = (map Ok ws, Some rest).
Proof.
  intros Hw. pose proof (more_words_all ws rest Hw) as HM.
  replace (map (fun x => [JComma; JNumber x]) ws) with (map (cons JComma) (map (fun w => [JNumber w]) ws)) in HM by now rewrite map_map.
  destruct ws as [|w ws]; [reflexivity|]. rewrite <- joined_comma in HM by discriminate. unfold words_in.
  destruct ws as [|w' ws]; exact HM.
Qed.
Lemma word_answers_bad ws : ~ words_ok ws -> exists e, all_ok (fst (word_answers ws)) = Err e.
Proof.
  unfold word_answers. induction ws as [|w ws IH]; intros H; [destruct H; constructor|].
  cbn [map concat app more_words]. destruct (N.ltb_spec w (2 ^ 64)) as [Hw|Hw]; [|eexists; reflexivity].
  cbn [item fst all_ok]. destruct IH as [e E]; [intros Hws; apply H; constructor; assumption|]. rewrite E. eauto.
Qed.
(** Maps *)
Lemma lex_map es items text : Forall2 (fun e ts => variant inp (fst e) /\ entry_text unescape names e ts) es items ->
  spaced (object_tokens items) text ->
  exists l, json_tokens unescape LStart text = JBegin :: l /\ entries_in names l = (map Ok es, Some []).
Proof.
  intros HF Hs.
  set (tok := fun e : nat * bool => [JString (nth (fst e) names ""%string); JColon; if snd e : bool then JTrue else JFalse]).
  exists (joined JComma (map tok es) ++ [JEnd]). split.
  - apply (lex_spaced unescape (object_tokens items)); [| |assumption]; unfold object_tokens.
    + constructor; [apply token_punct, lex_begin|]. apply joined_tokens; [|apply lex_end].
      clear Hs. induction HF as [|e ts es items [Hv He] HF IH]; [constructor|]. cbn [map]. constructor; [|assumption].
      destruct He as [v b t Ht]. unfold tok. cbn [fst snd] in *. constructor; [now apply token_literal|].
      constructor; [apply token_punct, lex_colon|]. constructor; [apply token_bool|constructor].
    + apply apart_punct; [cbn; auto|]. apply apart_joined; [cbn; auto 7|].
      clear Hs. induction HF as [|e ts es items [Hv He] HF IH]; constructor; [|assumption]. destruct He.
      repeat (apply apart_more); try apply apart_one; unfold punct; cbn [In]; auto 12.
  - assert (HV : Forall (fun e => variant inp (fst e)) es) by (clear - HF; induction HF as [|e ts es items [Hv _] _ IH]; constructor; assumption).
    pose proof (more_entries_all inp names HN es [] HV) as HM.
    replace (map _ es) with (map (cons JComma) (map tok es)) in HM by now rewrite map_map.
    destruct es as [|e es]; [reflexivity|].
    rewrite <- joined_comma in HM by discriminate. unfold entries_in.
    destruct es as [|e' es]; cbn [map joined app tok] in HM |- *; exact HM.
Qed.
Lemma lex_int x text : spaced [decimal x] text -> json_tokens unescape LStart text = [JNumber x].
Proof.
  apply lex_spaced; [apply Forall2_cons; [apply token_decimal|apply Forall2_nil]|constructor].
Qed.

Lemma deserialize_after l e : es_deserialize T (json_source names T l) = Ret (Err e) ->
  forall text, json_tokens unescape LStart text = l -> json_deserialize names unescape T text = Ret (Err e).
Proof. intros E text El. unfold json_deserialize. rewrite El, E. reflexivity. Qed.
Lemma deserialize_whole l s : es_deserialize T (json_source names T l) = Ret (Ok s) -> json_rest names T l = Some [] ->
  forall text, json_tokens unescape LStart text = l -> json_deserialize names unescape T text = Ret (Ok s).
Proof. intros E Er text El. unfold json_deserialize. rewrite El, E. cbn [bind]. now rewrite Er. Qed.
Lemma rest_int t x : sr_ity (et_serde T) = Some t -> json_rest names T [JNumber x] = Some [].
Proof. unfold json_rest. destruct (et_serde T); intros H; inversion H; reflexivity. Qed.
End Read.

Lemma json_int pw inp T names unescape t x text : Supported pw inp T ->
  sr_ity (et_serde T) = Some t -> serde_compiles T = true -> spaced [decimal x] text ->
  (2 ^ ity_bits pw t <= x -> exists e, json_deserialize names unescape T text = Ret (Err e)) /\
  (x < 2 ^ ity_bits pw t -> et_deny_unknown T = true -> ~ only_variant_bits inp x ->
     json_deserialize names unescape T text = Ret (Err (DeCustom "enumset contains unknown bits"))) /\
  (x < 2 ^ ity_bits pw t -> et_deny_unknown T = false \/ only_variant_bits inp x ->
     exists s, json_deserialize names unescape T text = Ret (Ok s) /\ Denotes inp T s (bits_set inp x)).
Proof.
  intros HS Ht Hc Hs. pose proof (lex_int (unescape := unescape) x text Hs) as El.
  destruct (setup _ _ _ HS) as (val & irel & HT & HV). pose proof (tl_pw _ _ _ _ _ HT) as Hpw.
  pose proof (int_input pw inp T t (json_source names T [JNumber x]) HS Ht Hc) as HI.
  cbn [json_source src_int] in HI. rewrite Hpw in HI. destruct (N.ltb_spec x (2 ^ ity_bits pw t)) as [Hx|Hx].
  - destruct (HI Hx) as [H1 H2]. split; [lia|]. split.
    + intros _ Hd Hb. eapply deserialize_after; eauto.
    + intros _ Hd. destruct (H2 Hd) as (s & E & HD). exists s. split; [|assumption].
      eapply deserialize_whole; eauto. eapply rest_int; eauto.
  - split; [|split; intros H; lia]. intros _. eexists. eapply deserialize_after; eauto.
Qed.
Lemma json_list pw inp T names unescape vs items text : Supported pw inp T -> Names inp names ->
  et_serde T = SList -> Forall2 (fun v ts => variant inp v /\ element_text unescape names v ts) vs items ->
  spaced (array_tokens items) text ->
  exists s, json_deserialize names unescape T text = Ret (Ok s) /\ Denotes inp T s (fun v => existsb (Nat.eqb v) vs).
Proof.
  intros HS HN Ht HF Hs. destruct (lex_list HN vs items text HF Hs) as (l & El & Ev).
  pose proof (list_input pw inp T _ HS (json_source_ok pw inp T names (JOpen :: l) HS HN) Ht) as HI.
  cbn [json_source src_list] in HI. rewrite Ev in HI. cbn [fst] in HI. rewrite all_ok_map_Ok in HI.
  destruct HI as (s & E & HD). exists s. split; [|assumption]. eapply deserialize_whole; eauto.
  unfold json_rest. now rewrite Ht, Ev.
Qed.
Lemma json_map pw inp T names unescape es items text : Supported pw inp T -> Names inp names ->
  et_serde T = SMap -> Forall2 (fun e ts => variant inp (fst e) /\ entry_text unescape names e ts) es items ->
  spaced (object_tokens items) text ->
  exists s, json_deserialize names unescape T text = Ret (Ok s) /\
    Denotes inp T s (fun v => existsb (fun e => Nat.eqb v (fst e) && snd e) es).
Proof.
  intros HS HN Ht HF Hs. destruct (lex_map HN es items text HF Hs) as (l & El & Ev).
  pose proof (map_input pw inp T _ HS (json_source_ok pw inp T names (JBegin :: l) HS HN) Ht) as HI.
  cbn [json_source src_map] in HI. rewrite Ev in HI. cbn [fst] in HI. rewrite all_ok_map_Ok in HI.
  destruct HI as (s & E & HD). exists s. split; [|assumption]. eapply deserialize_whole; eauto.
  unfold json_rest. now rewrite Ht, Ev.
Qed.
Lemma json_array pw inp T names unescape ws text : Supported pw inp T -> Names inp names ->
  et_serde T = SArray -> spaced (array_tokens (map (fun w => [decimal w]) ws)) text ->
  let used := firstn (N.to_nat (storage_words (storage_of inp))) ws in
  (~ words_ok ws -> exists e, json_deserialize names unescape T text = Ret (Err e)) /\
  (words_ok ws -> only_variant_words inp used ->
     exists s, json_deserialize names unescape T text = Ret (Ok s) /\ Denotes inp T s (fun v => word_bit ws (discr inp v))) /\
  (words_ok ws -> ~ only_variant_words inp used ->
     json_deserialize names unescape T text = Panic (PExpect "Bitset contains invalid variants.")).
Proof.
  intros HS HN Ht Hs used. pose proof (lex_words (unescape := unescape) ws text Hs) as El.
  set (l := joined JComma (map (fun w => [JNumber w]) ws) ++ [JClose]) in *.
  assert (Ev : words_in l = word_answers ws) by apply words_in_joined.
  pose proof (array_input pw inp T _ HS (json_source_ok pw inp T names (JOpen :: l) HS HN) Ht) as HI.
  cbn [json_source src_words] in HI. rewrite Ev in HI. split.
  - intros Hw. destruct (word_answers_bad ws Hw) as [e E]. rewrite E in HI. exists e. eapply deserialize_after; eauto.
  - assert (Hw : words_ok ws -> word_answers ws = (map Ok ws, Some [])) by apply (more_words_all ws []).
    split; intros Hok Hu; rewrite (Hw Hok) in HI; cbn [fst] in HI; rewrite all_ok_map_Ok in HI; destruct HI as [H1 H2].
    + destruct (H1 Hu) as (s & E & HD). exists s. split; [|assumption]. eapply deserialize_whole; eauto.
      unfold json_rest. now rewrite Ht, Ev, (Hw Hok).
    + unfold json_deserialize. rewrite El, (H2 Hu). reflexivity.
Qed.

(** ** Any text *)
Lemma json_any pw inp T names unescape text : Supported pw inp T -> Names inp names -> serde_compiles T = true ->
  (exists e, json_deserialize names unescape T text = Ret (Err e)) \/
  (exists s, json_deserialize names unescape T text = Ret (Ok s) /\ Reachable pw inp T s) \/
  (et_serde T = SArray /\ json_deserialize names unescape T text = Panic (PExpect "Bitset contains invalid variants.")).
Proof.
  intros HS HN Hc. unfold json_deserialize. set (l := json_tokens unescape LStart text).
  pose proof (json_source_ok pw inp T names l HS HN) as Ho.
  destruct (deserialize_returns pw inp T _ HS Hc Ho) as [[[s|e] E]|[Ha E]]; rewrite E; cbn [bind]; [|eauto|auto].
  destruct (json_rest names T l) as [[|]|]; [|eauto|eauto].
  right. left. exists s. split; [reflexivity|]. exact (deserialized_reachable pw inp T _ s HS Hc Ho E).
Qed.

(** ** Writing *)
Lemma perform_items {A} names (ev : A -> sevent) (toks : A -> list string) l text first :
  (forall x t f, json_emit names (ev x) (t, f) = (true, ((t ++ (if f then "" else ",") ++ unspaced (toks x))%string, false))) ->
  forall es w, perform (json_emit names) (map ev l ++ es) (text, first) = w ->
  perform (json_emit names) es
    ((text ++ match l with [] => "" | _ => (if first then "" else ",") ++ unspaced (joined "," (map toks l)) end)%string,
     match l with [] => first | _ => false end) = w.
Proof.
  intros He es w <-. revert text first. induction l as [|x l IH]; intros text first; cbn [map app].
  - now rewrite append_nil_r.
  - cbn [perform]. rewrite He. rewrite <- IH. f_equal. f_equal.
    + rewrite !append_assoc. f_equal. f_equal. destruct l as [|y l].
      * cbn [map joined]. now rewrite append_nil_r.
      * cbn [map joined]. rewrite unspaced_app. reflexivity.
    + destruct l; reflexivity.
Qed.
Lemma json_format pw inp T names unescape s A : Supported pw inp T -> Reachable pw inp T s -> Denotes inp T s A ->
  Names inp names -> Unescapes unescape ->
  exists ts, json_serialize names T s = Ret (true, unspaced ts) /\ json_layout inp names (et_serde T) A ts /\
    (serde_compiles T = true -> forall text, spaced ts text -> json_deserialize names unescape T text = Ret (Ok s)).
Proof.
  intros HS HR HA HN HU. destruct (setup _ _ _ HS) as (val & irel & HT & HV). pose proof (tl_pw _ _ _ _ _ HT) as Hpw.
  unfold json_serialize. destruct (sr_ity (et_serde T)) as [t|] eqn:Et.
  - destruct (int_format pw inp T s A t HS HR HA Et) as (Hlt & Hw & Hr).
    exists [decimal (set_value inp A)]. split; [|split].
    + rewrite Hw. cbn [json_emit bind unspaced fold_right append]. now rewrite append_nil_r.
    + destruct (et_serde T); try discriminate; reflexivity.
    + intros Hc text Hs. pose proof (lex_int (unescape := unescape) _ text Hs) as El.
      eapply deserialize_whole; [|eapply rest_int; eauto|exact El]. apply (Hr Hc). cbn [json_source src_int]. rewrite Hpw.
      destruct (N.ltb_spec (set_value inp A) (2 ^ ity_bits pw t)); [reflexivity|lia].
  - destruct (et_serde T) eqn:Es; try discriminate; cbn [json_layout].
    + destruct (list_format pw inp T s A HS HR HA Es) as (l & Hl & Hw & Hr).
      exists (array_tokens (map (fun v => [name_text names v]) l)). split; [|split; [eauto|]].
      * rewrite Hw. cbn [perform json_emit append].
        rewrite <- (perform_items names EvElem (fun v => [name_text names v]) l "[" true
                      (fun x t f => ltac:(cbn [json_emit unspaced fold_right]; rewrite append_nil_r; reflexivity)) [EvSeqEnd] _ eq_refl).
        cbn [perform json_emit bind]. do 2 f_equal. unfold array_tokens. cbn [unspaced fold_right].
        change (fold_right append "" ?x)%string with (unspaced x). rewrite unspaced_app. cbn [unspaced fold_right append].
        destruct l; reflexivity.
      * intros _ text Hs. destruct (lex_list (unescape := unescape) HN l (map (fun v => [name_text names v]) l) text) as (toks & El & Ev); [|assumption|].
        { assert (Hv : Forall (variant inp) l) by (apply Forall_forall; intros v Hv; apply Hl in Hv; tauto).
          clear - Hv HN HU. induction Hv; cbn [map]; constructor; auto. split; [assumption|]. constructor. apply plain_literal; [assumption|now apply (name_plain HN)]. }
        eapply (deserialize_whole (JOpen :: toks)); [|unfold json_rest; rewrite Es, Ev; reflexivity|exact El].
        apply Hr. cbn [json_source src_list]. now rewrite Ev.
    + destruct (map_format pw inp T s A HS HR HA Es) as (l & Hl & Hw & Hr).
      exists (object_tokens (map (fun v => entry_tokens names (v, true)) l)). split; [|split; [eauto|]].
      * rewrite Hw. cbn [perform json_emit append].
        rewrite <- (perform_items names (fun v => EvEntry v true) (fun v => entry_tokens names (v, true)) l "{" true
                      (fun x t f => ltac:(cbn [json_emit unspaced fold_right entry_tokens fst snd bool_text]; rewrite append_nil_r; reflexivity)) [EvMapEnd] _ eq_refl).
        cbn [perform json_emit bind]. do 2 f_equal. unfold object_tokens. cbn [unspaced fold_right].
        change (fold_right append "" ?x)%string with (unspaced x). rewrite unspaced_app. cbn [unspaced fold_right append].
        destruct l; reflexivity.
      * intros _ text Hs.
        assert (Em : map (fun v => entry_tokens names (v, true)) l = map (entry_tokens names) (map (fun v => (v, true)) l)) by now rewrite map_map.
        rewrite Em in Hs. destruct (lex_map (unescape := unescape) HN (map (fun v => (v, true)) l) (map (entry_tokens names) (map (fun v => (v, true)) l)) text) as (toks & El & Ev); [|assumption|].
        { assert (Hv : Forall (variant inp) l) by (apply Forall_forall; intros v Hv; apply Hl in Hv; tauto).
          clear - Hv HN HU. induction Hv; cbn [map]; constructor; auto. split; [assumption|].
          apply entry_string. apply plain_literal; [assumption|now apply (name_plain HN)]. }
        eapply (deserialize_whole (JBegin :: toks)); [|unfold json_rest; rewrite Es, Ev; reflexivity|exact El].
        apply Hr. cbn [json_source src_map]. now rewrite Ev, map_map.
    + destruct (array_format pw inp T s A HS HR HA Es) as (ws & [Hwok Hhold] & Hin & Hwr & Hw & Hr).
      exists (array_tokens (map (fun w => [decimal w]) ws)). split; [|split].
      * rewrite Hw. cbn [perform json_emit append].
        rewrite <- (perform_items names EvLimb (fun w => [decimal w]) ws "[" true
                      (fun x t f => ltac:(cbn [json_emit unspaced fold_right]; rewrite append_nil_r; reflexivity)) [EvSeqEnd] _ eq_refl).
        cbn [perform json_emit bind]. do 2 f_equal. unfold array_tokens. cbn [unspaced fold_right].
        change (fold_right append "" ?x)%string with (unspaced x). rewrite unspaced_app. cbn [unspaced fold_right append].
        destruct ws; reflexivity.
      * exists ws. split; [assumption|]. split; [split; assumption|]. auto.
      * intros _ text Hs. pose proof (lex_words (unescape := unescape) ws text Hs) as El.
        pose proof (words_in_joined ws) as Ev. unfold word_answers in Ev. rewrite (more_words_all ws [] Hwok) in Ev.
        eapply (deserialize_whole (JOpen :: _)); [|unfold json_rest; rewrite Es, Ev; reflexivity|exact El].
        apply Hr. cbn [json_source src_words]. now rewrite Ev.
Qed.

(** ** Exactly the texts that are accepted *)
Lemma denotes_ext inp T s A B : Denotes inp T s A -> (forall v, variant inp v -> A v = B v) -> Denotes inp T s B.
Proof. intros H E v Hv. rewrite <- E by assumption. now apply H. Qed.
Lemma existsb_eqb v vs : existsb (Nat.eqb v) vs = true <-> In v vs.
Proof.
  rewrite existsb_exists. split; [|eauto using Nat.eqb_refl]. intros (u & H & E). apply Nat.eqb_eq in E. now subst.
Qed.
Lemma existsb_entry v es : existsb (fun e => Nat.eqb v (fst e) && snd e) es = true <-> In (v, true) es.
Proof.
  rewrite existsb_exists. split.
  - intros ([u b] & H & E). cbn [fst snd] in E. apply andb_true_iff in E as [E ->]. apply Nat.eqb_eq in E. now subst.
  - intros H. exists (v, true). cbn [fst snd]. rewrite Nat.eqb_refl. auto.
Qed.
Lemma same_bool a b (P : Prop) : (a = true <-> P) -> (b = true <-> P) -> a = b.
Proof. destruct a, b; intros H1 H2; try reflexivity; [symmetry; apply H2, H1|apply H1, H2]; reflexivity. Qed.

Lemma json_stands_reads pw inp T names unescape text A : Supported pw inp T -> Names inp names -> serde_compiles T = true ->
  json_stands pw inp names unescape (et_serde T) (et_deny_unknown T) text A ->
  exists s, json_deserialize names unescape T text = Ret (Ok s) /\ Denotes inp T s A.
Proof.
  intros HS HN Hc H.
  assert (HI : forall x t, sr_ity (et_serde T) = Some t -> x < 2 ^ ity_bits pw t -> spaced [decimal x] text ->
      (et_deny_unknown T = true -> only_variant_bits inp x) -> (forall v, A v = bits_set inp x v) ->
      exists s, json_deserialize names unescape T text = Ret (Ok s) /\ Denotes inp T s A).
  { intros x t Et Hx Hs Hd HA. destruct (json_int pw inp T names unescape t x text HS Et Hc Hs) as (_ & _ & H3).
    destruct (H3 Hx) as (s & E & HD); [destruct (et_deny_unknown T); auto|]. exists s. split; [assumption|].
    eapply denotes_ext; [exact HD|]. intros v _. now rewrite HA. }
  destruct (et_serde T) eqn:Es; cbn [json_stands] in H.
  all: try (destruct H as (x & t & Et & Hx & Hs & Hd & HA); exact (HI x t Et Hx Hs Hd HA)).
  - destruct H as (vs & items & HF & Hs & HA). destruct (json_list pw inp T names unescape vs items text HS HN Es HF Hs) as (s & E & HD).
    exists s. split; [assumption|]. eapply denotes_ext; [exact HD|]. intros v _. cbv beta.
    eapply same_bool; [apply existsb_eqb|apply HA].
  - destruct H as (es & items & HF & Hs & HA). destruct (json_map pw inp T names unescape es items text HS HN Es HF Hs) as (s & E & HD).
    exists s. split; [assumption|]. eapply denotes_ext; [exact HD|]. intros v _. cbv beta.
    eapply same_bool; [apply existsb_entry|apply HA].
  - destruct H as (ws & Hw & Hs & Hu & HA). destruct (json_array pw inp T names unescape ws text HS HN Es Hs) as (_ & H2 & _).
    destruct (H2 Hw Hu) as (s & E & HD). exists s. split; [assumption|]. eapply denotes_ext; [exact HD|]. intros v _. cbv beta. now rewrite HA.
Qed.

Lemma only_variant_bits_dec pw inp T x : Supported pw inp T -> {only_variant_bits inp x} + {~ only_variant_bits inp x}.
Proof.
  intros HS. destruct (HistorySpec.known inp x) eqn:E; [left; apply HistoryFacts.known_spec in E; [assumption|]|right; apply HistoryFacts.known_false in E; [assumption|]];
    destruct (setup _ _ _ HS) as (val & irel & HT & HV); apply (tl_nodup _ _ _ _ _ HT).
Qed.
Lemma only_variant_words_dec pw inp T ws : Supported pw inp T -> words_ok ws ->
  {only_variant_words inp ws} + {~ only_variant_words inp ws}.
Proof.
  intros HS Hw. destruct (only_variant_bits_dec pw inp T (lval ws) HS) as [H|H]; [left|right]; rewrite (only_words_lval inp ws Hw); exact H.
Qed.
Lemma words_ok_firstn n ws : words_ok ws -> words_ok (firstn n ws).
Proof. intros H. revert n. induction H; intros [|n]; constructor; auto. apply IHForall. Qed.

Lemma json_reads_stand pw inp T names unescape text s : Supported pw inp T -> Names inp names -> serde_compiles T = true ->
  json_deserialize names unescape T text = Ret (Ok s) ->
  exists A, json_stands pw inp names unescape (et_serde T) (et_deny_unknown T) text A /\ Denotes inp T s A.
Proof.
  intros HS HN Hc. unfold json_deserialize. destruct (json_tokens unescape LStart text) as [|j l] eqn:El.
  { cbn [json_rest]. destruct (es_deserialize _ _) as [[?|?]| | |]; discriminate. }
  set (L := j :: l) in *. pose proof (json_source_ok pw inp T names L HS HN) as Ho.
  destruct (es_deserialize T (json_source names T L)) as [[s'|e]| | |] eqn:Ed; try discriminate. cbn [bind].
  destruct (json_rest names T L) as [[|]|] eqn:Er; try discriminate. intros [= ->].
  destruct (setup _ _ _ HS) as (val & irel & HT & HV). pose proof (tl_pw _ _ _ _ _ HT) as Hpw.
  assert (HI : forall t, sr_ity (et_serde T) = Some t -> exists x,
      x < 2 ^ ity_bits pw t /\ spaced [decimal x] text /\ (et_deny_unknown T = true -> only_variant_bits inp x) /\ Denotes inp T s (bits_set inp x)).
  { intros t Et. pose proof (int_input pw inp T t (json_source names T L) HS Et Hc) as HI.
    cbn [json_source src_int] in HI. unfold L in HI at 1. rewrite Hpw in HI.
    destruct j; try (rewrite Ed in HI; discriminate).
    destruct (N.ltb_spec x (2 ^ ity_bits pw t)) as [Hx|]; [|rewrite Ed in HI; discriminate].
    assert (l = []) as ->.
    { unfold json_rest, L in Er. destruct (et_serde T); try discriminate Et; now injection Er. }
    destruct (HI Hx) as [H1 H2]. exists x. split; [assumption|].
    assert (Hd : et_deny_unknown T = true -> only_variant_bits inp x).
    { intros Hd. destruct (only_variant_bits_dec pw inp T x HS) as [Hb|Hb]; [assumption|]. rewrite (H1 Hd Hb) in Ed. discriminate. }
    split; [|split; [assumption|]].
    - destruct (unlex unescape text) as (ts & Hts & Hs); [rewrite El; intros [H|[]]; discriminate|].
      rewrite El in Hts. inversion Hts as [|u ? ? ? Hu HF]; subst. inversion HF; subst. cbn [token_text] in Hu. now subst.
    - destruct H2 as (s' & E & HD); [destruct (et_deny_unknown T); auto|]. rewrite Ed in E. injection E as <-. assumption. }
  destruct (et_serde T) eqn:Es; cbn [json_stands].
  all: try (destruct (HI _ eq_refl) as (x & Hx & Hs & Hd & HD); exists (bits_set inp x); split; [|assumption]; eexists x, _; split; [reflexivity|]; auto; fail).
  - pose proof (list_input pw inp T _ HS Ho Es) as HL. cbn [json_source src_list] in HL. unfold L in HL at 1.
    destruct j; try (rewrite Ed in HL; discriminate). unfold json_rest, L in Er. rewrite Es in Er.
    destruct (variants_in_inv inp names HN [] l Er) as (vs & jitems & HF & -> & Ef). rewrite Ef, all_ok_map_Ok in HL.
    destruct HL as (s' & E & HD). rewrite Ed in E. injection E as <-.
    destruct (bracketed_text unescape JOpen jitems JClose text El) as (items & t & u & H1 & H2 & H3 & H4); try discriminate.
    { clear - HF. induction HF as [|v js vs jitems [_ He] _ IH]; constructor; [|assumption]. destruct He; cbn [In]; intuition discriminate. }
    cbn [token_text] in H2, H3. subst t u. eexists. split; [|exact HD]. exists vs, items. split; [|split; [assumption|intros v; apply existsb_eqb]].
    clear - HF H1. revert items H1. induction HF as [|v js vs jitems [Hv He] _ IH]; intros items H1; inversion H1; subst; constructor; auto.
    split; [assumption|]. eapply element_unlex; eassumption.
  - pose proof (map_input pw inp T _ HS Ho Es) as HL. cbn [json_source src_map] in HL. unfold L in HL at 1.
    destruct j; try (rewrite Ed in HL; discriminate). unfold json_rest, L in Er. rewrite Es in Er.
    destruct (entries_in_inv inp names HN [] l Er) as (es & HF & -> & Ef). rewrite Ef, all_ok_map_Ok in HL.
    destruct HL as (s' & E & HD). rewrite Ed in E. injection E as <-.
    destruct (bracketed_text unescape JBegin (map (entry_jtokens names) es) JEnd text El) as (items & t & u & H1 & H2 & H3 & H4); try discriminate.
    { apply Forall_map, Forall_forall. intros [v b] _. unfold entry_jtokens. destruct b; cbn [fst snd In]; intuition discriminate. }
    cbn [token_text] in H2, H3. subst t u. eexists. split; [|exact HD]. exists es, items. split; [|split; [assumption|intros v; apply existsb_entry]].
    clear - HF H1. revert items H1. induction HF as [|e es Hv _ IH]; intros items H1; cbn [map] in H1; inversion H1; subst; constructor; auto.
    split; [assumption|]. now apply entry_unlex.
  - pose proof (array_input pw inp T _ HS Ho Es) as HL. cbn [json_source src_words] in HL. unfold L in HL at 1.
    destruct j; try (rewrite Ed in HL; discriminate). unfold json_rest, L in Er. rewrite Es in Er.
    destruct (words_in_inv [] l Er) as (ws & Hw & -> & Ef). rewrite Ef, all_ok_map_Ok in HL. destruct HL as [H1 H2].
    set (used := firstn _ ws) in *.
    destruct (only_variant_words_dec pw inp T used HS (words_ok_firstn _ ws Hw)) as [Hu|Hu]; [|rewrite (H2 Hu) in Ed; discriminate].
    destruct (H1 Hu) as (s' & E & HD). rewrite Ed in E. injection E as <-.
    destruct (bracketed_text unescape JOpen (map (fun w => [JNumber w]) ws) JClose text El) as (items & t & u & H3 & H4 & H5 & H6); try discriminate.
    { apply Forall_map, Forall_forall. intros w _. cbn [In]. intuition discriminate. }
    cbn [token_text] in H4, H5. subst t u. eexists. split; [|exact HD]. exists ws. split; [assumption|]. split; [|split; [assumption|reflexivity]].
    now rewrite (words_unlex unescape ws items H3) in H6.
Qed.
Lemma json_accepted pw inp T names unescape text s : Supported pw inp T -> Names inp names -> serde_compiles T = true ->
  (json_deserialize names unescape T text = Ret (Ok s) <->
   Reachable pw inp T s /\
   exists A, json_stands pw inp names unescape (et_serde T) (et_deny_unknown T) text A /\ Denotes inp T s A).
Proof.
  intros HS HN Hc.
  assert (HR : forall s', json_deserialize names unescape T text = Ret (Ok s') -> Reachable pw inp T s').
  { intros s' E. destruct (json_any pw inp T names unescape text HS HN Hc) as [[e E']|[(s2 & E' & R)|[_ E']]]; rewrite E in E';
      try discriminate. now injection E' as ->. }
  split.
  - intros E. split; [now apply HR|]. now apply json_reads_stand.
  - intros (R & A & HA & HD). destruct (json_stands_reads pw inp T names unescape text A HS HN Hc HA) as (s' & E & HD').
    rewrite E. do 2 f_equal. apply (proj2 (eq_members pw inp T s' A s A HS (HR s' E) HD' R HD)). reflexivity.
Qed.
Lemma json_panics pw inp T names unescape text m : Supported pw inp T -> Names inp names -> serde_compiles T = true ->
  (json_deserialize names unescape T text = Panic m <->
   m = PExpect "Bitset contains invalid variants." /\ et_serde T = SArray /\
   exists ws text1 text2, text = (text1 ++ text2)%string /\ words_ok ws /\
     spaced (array_tokens (map (fun w => [decimal w]) ws)) text1 /\
     ~ only_variant_words inp (firstn (N.to_nat (storage_words (storage_of inp))) ws)).
Proof.
  intros HS HN Hc. split.
  - intros E. destruct (json_any pw inp T names unescape text HS HN Hc) as [[e E']|[(s2 & E' & R)|[Es E']]]; rewrite E in E'; try discriminate.
    injection E' as ->. split; [reflexivity|]. split; [assumption|]. unfold json_deserialize in E.
    set (L := json_tokens unescape LStart text) in *.
    pose proof (array_input pw inp T _ HS (json_source_ok pw inp T names L HS HN) Es) as HI.
    assert (Hn : forall e, es_deserialize T (json_source names T L) <> Ret (Err e)) by (intros e Ee; rewrite Ee in E; discriminate).
    assert (Hk : forall s, es_deserialize T (json_source names T L) <> Ret (Ok s)).
    { intros s Ee. rewrite Ee in E. cbn [bind] in E. destruct (json_rest names T L) as [[|]|]; discriminate. }
    cbn [json_source src_words] in HI. destruct L as [|j l] eqn:El; [now apply Hn in HI|].
    destruct j; try now apply Hn in HI.
    destruct (all_ok (fst (words_in l))) as [ws|e] eqn:Ea; [|now apply Hn in HI].
    destruct (words_in_whole l ws Ea) as [rest Er]. destruct (words_in_inv rest l Er) as (ws' & Hw & -> & Ef).
    rewrite Ef, all_ok_map_Ok in Ea. injection Ea as ->. destruct HI as [H1 H2].
    assert (Hu : ~ only_variant_words inp (firstn (N.to_nat (storage_words (storage_of inp))) ws)).
    { intros Hu. destruct (H1 Hu) as (s & E' & _). now apply Hk in E'. }
    subst L. destruct (lex_close_split unescape text LStart (JOpen :: joined JComma (map (fun w => [JNumber w]) ws)) rest) as (text1 & text2 & -> & El1).
    { rewrite El. reflexivity. }
    exists ws, text1, text2. split; [reflexivity|]. split; [assumption|]. split; [|assumption].
    destruct (bracketed_text unescape JOpen (map (fun w => [JNumber w]) ws) JClose text1 El1) as (items & t & u & H3 & H4 & H5 & H6); try discriminate.
    { apply Forall_map, Forall_forall. intros w _. cbn [In]. intuition discriminate. }
    cbn [token_text] in H4, H5. subst t u. now rewrite (words_unlex unescape ws items H3) in H6.
  - intros (-> & Es & ws & text1 & text2 & -> & Hw & Hs & Hu).
    unfold json_deserialize.
    rewrite (lex_words_prefix (unescape := unescape) ws text1 text2 Hs).
    set (l := joined JComma (map (fun w => [JNumber w]) ws) ++ JClose :: json_tokens unescape LStart text2).
    pose proof (array_input pw inp T _ HS (json_source_ok pw inp T names (JOpen :: l) HS HN) Es) as HI.
    cbn [json_source src_words] in HI. unfold l in HI at 1. rewrite words_in_prefix in HI by assumption. cbn [fst] in HI.
    rewrite all_ok_map_Ok in HI. destruct HI as [_ H2]. now rewrite (H2 Hu).
Qed.

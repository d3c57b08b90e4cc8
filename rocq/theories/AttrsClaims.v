(** * Claims about the attributes of the derive macro *)
From Coq Require Import Arith Permutation Sorted.
From Verif Require Import Base Syntax Spec Derive ApiSpec Impls CrateName Attrs AttrsSpec AttrsFacts DeriveFacts.
From Verif Require DeriveClaims CrateNameClaims ImplClaims.

Lemma attributes_accepted l :
  (exists o, decode_attributes l = Ok o) <->
  readable l /\ (forall it, In it (all_items l) -> exists name m, it = IMeta name m /\ fits name m) /\
  NoDup (map item_name (all_items l)).
Proof.
  assert (E : (exists o, decode_attributes l = Ok o) <-> errors_of [] (events 0 l) = []).
  { unfold decode_attributes. rewrite decode_run. destruct (errors_of [] (events 0 l)); split; try discriminate; try eauto.
    intros [o H]. discriminate. }
  rewrite E, no_errors; [|constructor|intros x []]. cbn [app]. rewrite events_items.
  assert (R : (forall x, In x (events 0 l) -> exists it, snd x = EvItem it) <-> readable l).
  { split.
    - intros H f Hf. apply In_nth_error in Hf. destruct Hf as [a Ha].
      destruct f as [|[its|] id|]; [left; reflexivity|right; eauto| |].
      + destruct (H ((a, None), EvBad AParse)) as [it C]; [|discriminate]. apply bad_event. right. exists a, id. auto.
      + destruct (H ((a, None), EvBad ANoNameValue)) as [it C]; [|discriminate]. apply bad_event. left. exists a. auto.
    - intros H [p [e|it]] Hx; [|cbn; eauto]. exfalso. apply bad_event in Hx.
      destruct Hx as [(a & _ & _ & N)|(a & id & _ & _ & N)]; apply nth_error_In, H in N;
        destruct N as [N|(its & i & N)]; discriminate. }
  rewrite R. split; intros (A & B & C); (split; [exact A|split; [|exact C]]); intros it Hi; specialize (B it Hi).
  - destruct it as [|n m]; [destruct B|]. exists n, m. auto.
  - destruct B as (n & m & -> & F). exact F.
Qed.

Lemma decoded_given l o : decode_attributes l = Ok o -> Given l o.
Proof.
  intros H. assert (A : exists o, decode_attributes l = Ok o) by eauto. apply attributes_accepted in A.
  destruct A as (_ & F & ND). unfold decode_attributes in H. rewrite decode_run in H.
  destruct (errors_of [] (events 0 l)); [|discriminate]. inversion H as [H']; subst o; clear H.
  rewrite <- (events_items l 0) in ND.
  assert (X : forall n m, first_named n (events 0 l) = Some m <-> In (IMeta n m) (all_items l)).
  { intros n m. rewrite (first_named_items _ n m ND), events_items. reflexivity. }
  assert (T : forall n, In n text_names -> given_text l n (snd (slot_of string_from_meta n (events 0 l)))).
  { intros n Hn s. unfold slot_of. rewrite <- X. destruct (first_named n (events 0 l)) as [m|] eqn:E; cbn; [|split; discriminate].
    rewrite string_text. split; congruence. }
  assert (B : forall n, In n flag_names -> given_flag l n (flag (slot_of bool_from_meta n (events 0 l)))).
  { intros n Hn. unfold given_flag, flag, slot_of. destruct (first_named n (events 0 l)) as [m|] eqn:E; cbn.
    - split.
      + destruct (bool_from_meta m) as [[|]|] eqn:G; try discriminate. intros _. exists m. split; [apply X; exact E|apply says_bool; exact G].
      + intros (m' & Hm & S). apply X in Hm. rewrite E in Hm. inversion Hm; subst m'. apply says_bool in S. rewrite S. reflexivity.
    - split; [discriminate|]. intros (m & Hm & _). apply X in Hm. congruence. }
  unfold Given. cbn [op_attrs op_switches op_crate_name at_repr at_serialize_repr at_deny_unknown at_as_list at_as_map sw_no_ops
    sw_no_super_impls s_no_ops s_no_super_impls s_repr s_serialize_repr s_deny_unknown s_crate_name s_as_list s_as_map slots_of].
  repeat match goal with |- _ /\ _ => split end; (apply T || apply B); cbn; auto 6.
Qed.

Lemma given_text_unique l n a b : given_text l n a -> given_text l n b -> a = b.
Proof.
  intros A B. destruct a as [s|].
  - destruct b as [t|]; [|]; assert (H : In (IMeta n (MValue (EStr s))) (all_items l)) by (apply A; reflexivity); apply B in H; congruence.
  - destruct b as [t|]; [|reflexivity]. assert (H : In (IMeta n (MValue (EStr t))) (all_items l)) by (apply B; reflexivity). apply A in H. congruence.
Qed.
Lemma given_flag_unique l n a b : given_flag l n a -> given_flag l n b -> a = b.
Proof. unfold given_flag. intros A B. assert (H : a = true <-> b = true) by (rewrite A, B; reflexivity). destruct a, b; intuition congruence. Qed.
Lemma given_unique l o o' : Given l o -> Given l o' -> o = o'.
Proof.
  destruct o as [[r s d a m] [no ns] c], o' as [[r' s' d' a' m'] [no' ns'] c'].
  intros (A1 & A2 & A3 & A4 & A5 & A6 & A7 & A8) (B1 & B2 & B3 & B4 & B5 & B6 & B7 & B8). cbn in *.
  pose proof (given_text_unique _ _ _ _ A1 B1). pose proof (given_text_unique _ _ _ _ A2 B2).
  pose proof (given_flag_unique _ _ _ _ A3 B3). pose proof (given_flag_unique _ _ _ _ A4 B4).
  pose proof (given_flag_unique _ _ _ _ A5 B5). pose proof (given_flag_unique _ _ _ _ A6 B6).
  pose proof (given_flag_unique _ _ _ _ A7 B7). pose proof (given_text_unique _ _ _ _ A8 B8). congruence.
Qed.

Lemma attributes_decoded l o :
  decode_attributes l = Ok o <->
  readable l /\ (forall it, In it (all_items l) -> exists name m, it = IMeta name m /\ fits name m) /\
  NoDup (map item_name (all_items l)) /\ Given l o.
Proof.
  split.
  - intros H. assert (A : exists o, decode_attributes l = Ok o) by eauto. apply attributes_accepted in A.
    destruct A as (A & B & C). pose proof (decoded_given _ _ H). auto.
  - intros (A & B & C & G). assert (X : exists o, decode_attributes l = Ok o) by (apply attributes_accepted; auto).
    destruct X as [o' X]. rewrite X. f_equal. exact (given_unique _ _ _ (decoded_given _ _ X) G).
Qed.

Lemma attribute_order l l' o : decode_attributes l = Ok o ->
  readable l' -> Permutation (all_items l) (all_items l') -> decode_attributes l' = Ok o.
Proof.
  rewrite !attributes_decoded. intros (_ & F & ND & G) R P.
  assert (I : forall it, In it (all_items l) <-> In it (all_items l')).
  { intros it. split; apply Permutation_in; [exact P|apply Permutation_sym; exact P]. }
  split; [exact R|]. split; [intros it H; apply F, I, H|]. split; [exact (Permutation_NoDup (Permutation_map _ P) ND)|].
  unfold Given, given_text, given_flag in *. destruct G as (A1 & A2 & A3 & A4 & A5 & A6 & A7 & A8).
  split; [intros s; rewrite <- I; apply A1|]. split; [intros s; rewrite <- I; apply A2|].
  split; [rewrite A3; setoid_rewrite I; reflexivity|]. split; [rewrite A4; setoid_rewrite I; reflexivity|].
  split; [rewrite A5; setoid_rewrite I; reflexivity|]. split; [rewrite A6; setoid_rewrite I; reflexivity|].
  split; [rewrite A7; setoid_rewrite I; reflexivity|]. intros s; rewrite <- I; apply A8.
Qed.

Lemma sorted_unique (a : errors) : forall b, StronglySorted earlier (map fst a) -> StronglySorted earlier (map fst b) ->
  (forall x, In x a <-> In x b) -> a = b.
Proof.
  induction a as [|x a IH]; intros b Sa Sb H.
  - destruct b as [|y b]; [reflexivity|]. destruct (proj2 (H y) (or_introl eq_refl)).
  - destruct b as [|y b]; [destruct (proj1 (H x) (or_introl eq_refl))|].
    cbn in Sa, Sb. inversion Sa as [|? ? Sa' Fa]; subst. inversion Sb as [|? ? Sb' Fb]; subst.
    rewrite Forall_forall in Fa, Fb.
    assert (Ha : forall z, In z a -> earlier (fst x) (fst z)) by (intros z Hz; apply Fa; apply in_map; exact Hz).
    assert (Hb : forall z, In z b -> earlier (fst y) (fst z)) by (intros z Hz; apply Fb; apply in_map; exact Hz).
    assert (E : x = y).
    { destruct (proj1 (H x) (or_introl eq_refl)) as [->|Hx]; [reflexivity|].
      destruct (proj2 (H y) (or_introl eq_refl)) as [->|Hy]; [reflexivity|].
      destruct (earlier_irrefl _ (earlier_trans _ _ _ (Ha _ Hy) (Hb _ Hx))). }
    subst y. f_equal. apply IH; [exact Sa'|exact Sb'|]. intros z. split; intros Hz.
    + destruct (proj1 (H z) (or_intror Hz)) as [<-|C]; [destruct (earlier_irrefl _ (Ha _ Hz))|exact C].
    + destruct (proj2 (H z) (or_intror Hz)) as [<-|C]; [destruct (earlier_irrefl _ (Hb _ Hz))|exact C].
Qed.

Lemma attribute_errors l es :
  decode_attributes l = Err es <->
  es <> [] /\ StronglySorted earlier (map fst es) /\ forall p e, In (p, e) es <-> Fault l p e.
Proof.
  assert (D : decode_attributes l = Err es <-> es <> [] /\ es = errors_of [] (events 0 l)).
  { unfold decode_attributes. rewrite decode_run. destruct (errors_of [] (events 0 l)) as [|x w].
    - split; [discriminate|]. intros [N E]. contradiction.
    - split; [intros [= <-]; split; [discriminate|reflexivity]|]. intros [_ ->]. reflexivity. }
  rewrite D. split.
  - intros [N ->]. split; [exact N|]. split; [apply errors_of_sorted, events_sorted|]. intros p e. apply errors_fault.
  - intros (N & S & F). split; [exact N|]. apply sorted_unique; [exact S|apply errors_of_sorted, events_sorted|].
    intros [p e]. rewrite F, errors_fault. reflexivity.
Qed.

Lemma fault_rejected l : (exists p e, Fault l p e) <-> exists es, decode_attributes l = Err es.
Proof.
  split.
  - intros (p & e & F). apply errors_fault in F. unfold decode_attributes. rewrite decode_run.
    destruct (errors_of [] (events 0 l)) as [|x w]; [destruct F|eauto].
  - intros [es H]. apply attribute_errors in H. destruct H as (N & _ & F). destruct es as [|[p e] es]; [congruence|].
    exists p, e. apply F. left. reflexivity.
Qed.

Lemma reprs_spec l :
  (forall r, In r (rust_reprs l) -> exists s, r = Some s /\ In s rust_repr_names) <-> reprs_fine l.
Proof.
  unfold rust_reprs, reprs_fine. split.
  - intros H f Hf. specialize (H (match f with AList _ id => id | _ => None end)).
    destruct H as (s & Hs & Hi).
    { apply in_flat_map. exists (MkAttribute "repr" f). split; [exact Hf|]. cbn. left. reflexivity. }
    destruct f as [|items id|]; try discriminate. subst id. eauto.
  - intros H r Hr. apply in_flat_map in Hr. destruct Hr as ([path f] & Hx & Hr). cbn [a_path a_form] in Hr.
    destruct (path =? "repr")%string eqn:E; [|destruct Hr]. apply String.eqb_eq in E. subst path.
    destruct (H _ Hx) as (items & s & -> & Hs). destruct Hr as [<-|[]]. eauto.
Qed.
Lemma well_formed_item it o : WellFormed (input_of it o) <-> reprs_fine (it_attributes it) /\ WellFormed (declared it o).
Proof.
  split.
  - intros W. split; [apply reprs_spec; exact (wf_rust_reprs _ W)|]. destruct W. constructor; try assumption. intros r [].
  - intros [R W]. pose proof (proj2 (reprs_spec _) R) as R0. destruct W. constructor; try assumption.
Qed.
Lemma derive_declared md pw it o : reprs_fine (it_attributes it) ->
  derive md pw (input_of it o) = derive md pw (declared it o).
Proof.
  intros R. pose proof (proj2 (reprs_spec _) R) as R0. unfold derive, derive_info. cbn [input_of declared in_generic in_is_enum in_rust_reprs in_attrs in_variants].
  pose proof (check_rust_reprs_spec (rust_reprs (it_attributes it)) 0) as C.
  destruct (check_rust_reprs 0 (rust_reprs (it_attributes it))) as [[]|[e sp]]; [reflexivity|].
  exfalso. destruct C as [C _]. inversion C as [b Hb|b r Hb Hr]; subst; apply nth_error_In in Hb; destruct (R0 _ Hb) as (s & Hs & Hi);
    [discriminate|inversion Hs; subst; exact (Hr Hi)].
Qed.

Lemma item_accepted is_ident md pw lookup found std it :
  (exists g, derive_item is_ident md pw lookup found std it = Ret (Ok g)) <->
  exists o, (forall p e, ~ Fault (it_attributes it) p e) /\ Given (it_attributes it) o /\
    reprs_fine (it_attributes it) /\ WellFormed (declared it o) /\
    (forall n, op_crate_name o = Some n -> is_ident n = true) /\
    (forall n, op_crate_name o = None -> lookup = true -> found = FName n -> is_ident n = true).
Proof.
  unfold derive_item. destruct (decode_attributes (it_attributes it)) as [o|es] eqn:D.
  - assert (NF : forall p e, ~ Fault (it_attributes it) p e).
    { intros p e F. assert (X : exists es, decode_attributes (it_attributes it) = Err es) by (apply fault_rejected; eauto).
      destruct X; congruence. }
    pose proof (decoded_given _ _ D) as G.
    pose proof (CrateNameClaims.crate_name_accepted is_ident md pw (MkCrateOptions (op_crate_name o) lookup found) (input_of it o)) as A.
    cbn [co_attr co_lookup co_found] in A. split.
    + intros [g H]. exists o. split; [exact NF|]. split; [exact G|]. rewrite <- and_assoc, <- well_formed_item. apply A.
      destruct (derive_named _ _ _ _ _) as [[r|e]| | |]; cbn in H; try discriminate; [eauto|].
      destruct e as [e sp]. discriminate.
    + intros (o' & _ & G' & W). rewrite (given_unique _ _ _ G' G) in W. rewrite <- and_assoc, <- well_formed_item in W. pose proof (proj1 W) as W1. apply A in W. destruct W as [[path T] W].
      rewrite W. cbn [bind].
      destruct (DeriveClaims.derive_total md pw (input_of it o)) as (r & Hr & Hok & _). apply Hok in W1. destruct W1 as [T' ->].
      unfold derive in Hr. destruct (derive_info md (input_of it o)) as [[i|e]| | |]; cbn in Hr; try discriminate. cbn. eauto.
  - split; [intros [g H]; discriminate|]. intros (o & NF & _). exfalso.
    assert (X : exists p e, Fault (it_attributes it) p e) by (apply fault_rejected; eauto). destruct X as (p & e & F). exact (NF _ _ F).
Qed.

Lemma item_faults is_ident md pw lookup found std it es :
  derive_item is_ident md pw lookup found std it = Ret (Err (CAttributes es)) <->
  es <> [] /\ StronglySorted earlier (map fst es) /\ forall p e, In (p, e) es <-> Fault (it_attributes it) p e.
Proof.
  rewrite <- attribute_errors. unfold derive_item. destruct (decode_attributes (it_attributes it)) as [o|es'].
  - split; [|discriminate]. destruct (derive_named _ _ _ _ _) as [[[path T]|[e sp]]| | |]; cbn; try discriminate.
    destruct (derive_info _ _) as [[i|[e sp]]| | |]; cbn; discriminate.
  - split; congruence.
Qed.

Lemma reprs_give l rs : Reprs l rs <-> rs = rust_reprs l.
Proof.
  revert rs. unfold Reprs, rust_reprs. induction l as [|x l IH]; intros rs; cbn [filter flat_map].
  - split; [intros H; inversion H; reflexivity|intros ->; constructor].
  - destruct (a_path x =? "repr")%string; [|apply IH]. cbn [app]. split.
    + intros H. inversion H as [|? r ? rs' Hr Hrs]; subst. f_equal; [|apply IH; exact Hrs].
      destruct Hr as [[items E]|[[E|E] ->]]; rewrite E; reflexivity.
    + intros ->. constructor; [|apply IH; reflexivity]. unfold repr_gives.
      destruct (a_form x) as [|items id|]; [right|left; eauto|right]; auto.
Qed.
Lemma item_errors is_ident md pw lookup found std it e sp :
  derive_item is_ident md pw lookup found std it = Ret (Err (CMacro e sp)) <->
  exists o rs, (forall p e, ~ Fault (it_attributes it) p e) /\ Given (it_attributes it) o /\ Reprs (it_attributes it) rs /\
    derive md pw (MkInput (it_generic it) (it_is_enum it) rs (op_attrs o) (it_variants it)) = Ret (Err (e, sp)) /\
    (forall n, op_crate_name o = Some n -> it_generic it = false -> it_is_enum it = true -> is_ident n = true).
Proof.
  unfold derive_item. destruct (decode_attributes (it_attributes it)) as [o|es] eqn:D.
  - assert (NF : forall p e, ~ Fault (it_attributes it) p e).
    { intros p e' F. assert (X : exists es, decode_attributes (it_attributes it) = Err es) by (apply fault_rejected; eauto).
      destruct X; congruence. }
    pose proof (decoded_given _ _ D) as G.
    destruct (CrateNameClaims.crate_path is_ident md pw (MkCrateOptions (op_crate_name o) lookup found) (input_of it o)) as [P1 P2].
    cbn [co_attr co_lookup co_found] in P1, P2. cbn [input_of in_generic in_is_enum] in P2.
    assert (I : forall T, derive md pw (input_of it o) = Ret (Ok T) -> exists i, derive_info md (input_of it o) = Ret (Ok i)).
    { intros T Hr. unfold derive in Hr. destruct (derive_info md (input_of it o)) as [[i|x]| | |]; cbn in Hr; try discriminate. eauto. }
    split.
    + intros H. exists o, (rust_reprs (it_attributes it)). split; [exact NF|]. split; [exact G|]. split; [apply reprs_give; reflexivity|].
      change (MkInput _ _ _ _ _) with (input_of it o).
      destruct (DeriveClaims.derive_total md pw (input_of it o)) as (r & Hr & _). destruct r as [T|[e' sp']].
      * exfalso. destruct (I _ Hr) as [i Hi]. rewrite (P1 _ Hr), Hi in H.
        destruct (op_crate_name o) as [n|]; [destruct (is_ident n)|destruct lookup; [destruct found as [n| |]; [destruct (is_ident n)|..]|]];
          cbn in H; discriminate.
      * rewrite (P2 _ Hr) in H. destruct (op_crate_name o) as [n|].
        -- destruct (it_generic it || negb (it_is_enum it) || is_ident n)%bool eqn:B; cbn in H; [|discriminate].
           inversion H; subst. split; [exact Hr|]. intros n' E Hg He. inversion E; subst. rewrite Hg, He in B. exact B.
        -- cbn in H. inversion H; subst. split; [exact Hr|]. discriminate.
    + intros (o' & rs & _ & G' & R & Hr & Hn). rewrite (given_unique _ _ _ G' G) in *. apply reprs_give in R. subst rs.
      change (MkInput _ _ _ _ _) with (input_of it o) in Hr. rewrite (P2 _ Hr).
      destruct (op_crate_name o) as [n|]; [|reflexivity].
      destruct (it_generic it); [reflexivity|]. destruct (it_is_enum it); [|reflexivity].
      rewrite (Hn n eq_refl eq_refl eq_refl). reflexivity.
  - split; [discriminate|]. intros (o & rs & NF & _). exfalso.
    assert (X : exists p e, Fault (it_attributes it) p e) by (apply fault_rejected; eauto). destruct X as (p & e' & F). exact (NF _ _ F).
Qed.

Lemma item_generated is_ident md pw lookup found std it g :
  derive_item is_ident md pw lookup found std it = Ret (Ok g) ->
  let given name := exists m, In (IMeta name m) (all_items (it_attributes it)) /\ says m true in
  let given_as name s := In (IMeta name (MValue (EStr s))) (all_items (it_attributes it)) in
  (exists o, Given (it_attributes it) o /\ derive md pw (declared it o) = Ret (Ok (g_type g))) /\
  (given_as "crate_name"%string (g_crate g) \/
   (forall s, ~ given_as "crate_name"%string s) /\
   g_crate g = match lookup, found with true, FName s => s | _, _ => "enumset"%string end) /\
  NoDup (g_impls g) /\
  (forall t, In t (g_impls g) <->
    match t with
    | TPrivate | TEnumSetType => True
    | TWithRepr => exists s b, given_as "repr"%string s /\ name_bits s = Some b
    | TPartialEq | TEq | TClone | TCopy => ~ given "no_super_impls"%string
    | TSub | TBitAnd | TBitOr | TBitXor | TNot | TPartialEqSet => ~ given "no_ops"%string
    end) /\
  NoDup (g_warnings g) /\
  (forall w, In w (g_warnings g) <->
    match w with
    | WAsMap => given "serialize_as_map"%string
    | WAsList => given "serialize_as_list"%string
    | WStd => std = true
    end).
Proof.
  intros H given given_as. unfold derive_item in H. destruct (decode_attributes (it_attributes it)) as [o|es] eqn:D; [|discriminate].
  pose proof (decoded_given _ _ D) as G.
  destruct (DeriveClaims.derive_total md pw (input_of it o)) as (r & Hr & _).
  destruct (CrateNameClaims.crate_path is_ident md pw (MkCrateOptions (op_crate_name o) lookup found) (input_of it o)) as [P1 P2].
  cbn [co_attr co_lookup co_found] in P1, P2.
  destruct r as [T|[e sp]].
  2:{ rewrite (P2 _ Hr) in H. exfalso. destruct (op_crate_name o) as [n|]; [destruct (_ || _ || _)%bool|]; cbn in H; discriminate. }
  specialize (P1 _ Hr).
  assert (Hi : exists i, derive_info md (input_of it o) = Ret (Ok i)).
  { unfold derive in Hr. destruct (derive_info md (input_of it o)) as [[i|e]| | |]; cbn in Hr; try discriminate. eauto. }
  destruct Hi as [i Hi]. rewrite Hi in H.
  destruct (ImplClaims.impls md (input_of it o) i (op_switches o) Hi) as [ND I].
  destruct (ImplClaims.warnings_given std (op_attrs o)) as [NW W].
  pose proof G as G0. destruct G as (G1 & G2 & G3 & G4 & G5 & G6 & G7 & G8).
  assert (Neg : forall name b, given_flag (it_attributes it) name b -> (b = false <-> ~ given name)).
  { intros name b Gb. unfold given_flag in Gb. unfold given. rewrite <- Gb. destruct b; intuition congruence. }
  assert (X : g_type g = T /\ g_impls g = generated_impls (op_switches o) i /\ g_warnings g = warnings std (op_attrs o) /\
              (op_crate_name o = Some (g_crate g) \/
               op_crate_name o = None /\ g_crate g = match lookup, found with true, FName s => s | _, _ => "enumset"%string end)).
  { rewrite P1 in H. destruct (op_crate_name o) as [n|].
    - destruct (is_ident n); cbn in H; inversion H; subst; cbn. auto.
    - destruct lookup; [destruct found as [n| |]; [destruct (is_ident n)|..]|]; cbn in H; inversion H; subst; cbn; auto 6. }
  destruct X as (X1 & X2 & X3 & X4).
  split. { exists o. split; [exact G0|]. rewrite X1, <- derive_declared; [exact Hr|]. apply (well_formed_item it o).
    destruct (DeriveClaims.derive_total md pw (input_of it o)) as (r & Hr' & Hok & _). apply Hok. rewrite Hr in Hr'. inversion Hr'. eauto. }
  split.
  { destruct X4 as [X4|[X4 X5]]; [left; apply G8; exact X4|right]. split; [|exact X5]. intros s C. apply G8 in C. congruence. }
  rewrite X2, X3. split; [exact ND|]. split.
  { intros t. rewrite I. destruct t; try reflexivity; try (apply Neg; assumption).
    cbn [input_of in_attrs]. split; intros (s & b & A & B); exists s, b; (split; [|exact B]); apply G1; exact A. }
  split; [exact NW|]. intros w. rewrite W. destruct w; [exact G5|exact G4|reflexivity].
Qed.

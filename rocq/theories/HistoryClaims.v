(** * Claims about histories of API calls *)
From Verif Require Import Base BaseFacts Syntax Spec Derive EnumSet Serde ApiSpec HistorySpec History HistoryFacts SetFacts SetClaims.
From Verif Require DeriveClaims.

(** ** C38 *)
Lemma history_refines pw inp T cs : Supported pw inp T -> Forall (cmd_ok pw inp) cs ->
  run T cs (c_init T) = a_run pw inp cs a_init.
Proof.
  intros HS Hok. destruct (laws_with_storage pw inp T HS) as (val & irel & HT & Hcmp & Hhash & Hint).
  eapply (run_sim HT HS Hcmp Hhash Hint); [exact (rel_init HT)|exact Hok].
Qed.

(** ** C37 *)
Lemma a_step_panic pw inp T c ast : Supported pw inp T ->
  match a_step pw inp c ast with
  | Ret _ => True
  | Panic p => may_panic inp c /\ In p documented_panics
  | _ => False
  end.
Proof.
  intros HS. unfold documented_panics.
  destruct c; cbn [a_step may_panic]; try exact I;
    try (destruct (known inp _); cbn [In]; intuition; fail);
    try (destruct (fits_in inp _ _); cbn [In]; intuition; fail);
    try (destruct (a_iters ast _); exact I);
    try (destruct (storage_of inp); [destruct (_ ?= _)|destruct (lex_compare _ _)]; cbn [In]; intuition; fail).
  unfold a_deserialize. rewrite (named_ity HS), (named HS).
  destruct (et_serde T); cbn [sr_ity DeriveClaims.sr_name String.eqb Ascii.eqb Bool.eqb];
    try (destruct (src_int src _) as [x|]; [destruct (at_deny_unknown (in_attrs inp) && negb (known inp x))|]; exact I).
  - destruct (src_list src) as [l|]; [|exact I]. now destruct (all_ok l).
  - destruct (src_map src) as [l|]; [|exact I]. now destruct (all_ok l).
  - destruct (src_words src) as [l|]; [|exact I]. destruct (all_ok l) as [ws|]; [|exact I].
    destruct (known inp _); [exact I|]. cbn [bind In]. auto.
Qed.
Lemma a_run_ends pw inp T cs : Supported pw inp T -> forall ast,
  let '(outs, fin) := a_run pw inp cs ast in
  (fin = Ret tt /\ length outs = length cs) \/
  (exists c p, nth_error cs (length outs) = Some c /\ may_panic inp c /\ fin = Panic p /\ In p documented_panics).
Proof.
  intros HS. induction cs as [|c cs IH]; intros ast; cbn [a_run]; [now left|].
  pose proof (a_step_panic pw inp T c ast HS) as H. destruct (a_step pw inp c ast) as [[o ast']|p| |]; try contradiction.
  - specialize (IH ast'). destruct (a_run pw inp cs ast') as [outs fin]. cbn [length nth_error].
    destruct IH as [[-> ->]|H']; [now left|]. right. exact H'.
  - right. exists c, p. cbn. tauto.
Qed.
Lemma history_safe pw inp T cs : Supported pw inp T -> Forall (cmd_ok pw inp) cs ->
  let '(outs, fin) := run T cs (c_init T) in
  (fin = Ret tt /\ length outs = length cs) \/
  (exists c p, nth_error cs (length outs) = Some c /\ may_panic inp c /\ fin = Panic p /\ In p documented_panics).
Proof.
  intros HS Hok. rewrite (history_refines pw inp T cs HS Hok). now apply (a_run_ends pw inp T).
Qed.
Lemma history_total pw inp T cs : Supported pw inp T -> Forall (cmd_ok pw inp) cs -> (forall c, In c cs -> ~ may_panic inp c) ->
  exists outs, run T cs (c_init T) = (outs, Ret tt) /\ length outs = length cs.
Proof.
  intros HS Hok Hn. pose proof (history_safe pw inp T cs HS Hok) as H. destruct (run T cs (c_init T)) as [outs fin].
  destruct H as [[-> E]|(c & p & E & Hp & _)]; [eauto|]. exfalso. apply (Hn c); [|assumption]. eapply nth_error_In; eassumption.
Qed.

(** ** C39 *)
Section Portable.
Context (pw : N) (inp inp' : derive_input) (Hv : discrs inp = discrs inp').
Lemma same_count : length (in_variants inp) = length (in_variants inp').
Proof. now rewrite <- !TyFacts.discrs_length, Hv. Qed.

Lemma same_discr : discr inp = discr inp'.
Proof. unfold discr. now rewrite Hv. Qed.
Lemma same_variants : variants inp = variants inp'.
Proof. unfold variants. now rewrite same_count. Qed.
Lemma same_variant v : variant inp v = variant inp' v.
Proof. unfold variant. now rewrite same_count. Qed.
Lemma same_value A : set_value inp A = set_value inp' A.
Proof. unfold set_value. now rewrite same_discr, same_variants. Qed.
Lemma same_size A : set_size inp A = set_size inp' A.
Proof. unfold set_size. now rewrite same_variants. Qed.
Lemma same_words A k : set_words inp A k = set_words inp' A k.
Proof. unfold set_words. now rewrite same_value. Qed.
Lemma same_known x : known inp x = known inp' x.
Proof. unfold known. now rewrite same_value. Qed.
Lemma same_fits A b : fits_in inp A b = fits_in inp' A b.
Proof. unfold fits_in. now rewrite same_discr, same_variants. Qed.
Lemma same_bits x : bits_set inp x = bits_set inp' x.
Proof. unfold bits_set. now rewrite same_discr. Qed.
Lemma same_all P : for_all inp P = for_all inp' P.
Proof. unfold for_all. now rewrite same_variants. Qed.
Lemma same_elements A : elements inp A = elements inp' A.
Proof.
  unfold elements, ordered. rewrite same_variants. f_equal.
  assert (E : forall v l, place inp v l = place inp' v l).
  { intros v l. induction l as [|u l IH]; cbn [place]; [reflexivity|]. now rewrite same_discr, IH. }
  induction (variants inp') as [|v l IH]; cbn [fold_right]; [reflexivity|]. now rewrite IH, E.
Qed.
Lemma same_call ast k : a_call inp ast k = a_call inp' ast k.
Proof. destruct k; cbn [a_call]; rewrite ?same_bits, ?same_discr; reflexivity. Qed.
Lemma same_ok c : ~ uses_serde c -> (uses_repr c -> storage_of inp = storage_of inp') -> cmd_ok pw inp c -> cmd_ok pw inp' c.
Proof.
  intros Hs Hr.
  assert (Ha : forall o, arg_ok inp o -> arg_ok inp' o) by (intros [r|v]; cbn; rewrite ?same_variant; auto).
  assert (Hb : forall x, only_variant_bits inp x -> only_variant_bits inp' x).
  { intros x H i Hi. destruct (H i Hi) as (v & H1 & H2). exists v. now rewrite <- same_variant, <- same_discr. }
  assert (Hb' : forall x, only_variant_bits inp' x -> only_variant_bits inp x).
  { intros x H i Hi. destruct (H i Hi) as (v & H1 & H2). exists v. now rewrite same_variant, same_discr. }
  assert (Hx : uses_repr c -> forall x, repr_value inp x -> repr_value inp' x) by (intros H x; unfold repr_value; now rewrite Hr).
  assert (Hw : forall l, only_variant_words inp l -> only_variant_words inp' l).
  { intros l H i Hi. destruct (H i Hi) as (v & H1 & H2). exists v. now rewrite <- same_variant, <- same_discr. }
  assert (Hi : forall items, (forall v, In v items -> variant inp v) -> forall v, In v items -> variant inp' v).
  { intros items H v Hv'. rewrite <- same_variant. auto. }
  destruct c; cbn [cmd_ok uses_serde uses_repr] in *; rewrite <- ?same_variant; auto; try tauto.
  2-3: destruct 1; split; auto.
  destruct k; cbn [scall_ok]; rewrite <- ?same_variant; auto; intuition; rewrite <- same_variant; auto.
Qed.

Context (T : EnumTy) (HS : Supported pw inp T) (HF : same_format inp inp').
Lemma same_serialize A : a_serialize inp A = a_serialize inp' A.
Proof.
  destruct HF as (En & Ha & Ed). unfold a_serialize. rewrite <- En, (named_ity HS). rewrite (named HS) in *.
  rewrite <- same_value, <- same_size, <- same_elements.
  destruct (et_serde T); try reflexivity. now contradiction Ha.
Qed.
Lemma same_deserialize src : a_deserialize inp src = a_deserialize inp' src.
Proof.
  destruct HF as (En & Ha & Ed). unfold a_deserialize. rewrite <- En, <- Ed, (named_ity HS). rewrite (named HS) in *.
  destruct (et_serde T); cbn [sr_ity];
    try (destruct (src_int src _); [now rewrite same_known, same_bits|reflexivity]); try reflexivity.
  now contradiction Ha.
Qed.
End Portable.

Lemma same_step pw inp inp' T c ast : discrs inp = discrs inp' -> Supported pw inp T ->
  portable c -> (uses_serde c -> same_format inp inp') -> a_step pw inp c ast = a_step pw inp' c ast.
Proof.
  intros Hv HS Hp Hs. assert (Ed := same_discr inp inp' Hv).
  destruct c; cbn [portable] in Hp; try contradiction; cbn [a_step];
    rewrite ?(same_call inp inp' Hv), ?(same_known inp inp' Hv), ?(same_bits inp inp' Hv), ?Ed, ?(same_size inp inp' Hv),
      ?(same_all inp inp' Hv), ?(same_fits inp inp' Hv), ?(same_value inp inp' Hv), ?(same_words inp inp' Hv),
      ?(same_elements inp inp' Hv); try reflexivity.
  - now rewrite (same_count inp inp' Hv).
  - unfold max_discr. now rewrite Hv.
  - now rewrite (same_serialize pw inp inp' Hv T HS (Hs I)).
  - now rewrite (same_deserialize pw inp inp' Hv T HS (Hs I)).
Qed.
Lemma same_run pw inp inp' T cs : discrs inp = discrs inp' -> Supported pw inp T ->
  Forall portable cs -> (Exists uses_serde cs -> same_format inp inp') ->
  forall ast, a_run pw inp cs ast = a_run pw inp' cs ast.
Proof.
  intros Hv HS. induction cs as [|c cs IH]; intros Hp Hs ast; [reflexivity|]. inversion Hp; subst. cbn [a_run].
  rewrite (same_step pw inp inp' T c ast Hv HS) by auto.
  destruct (a_step pw inp' c ast) as [[o ast']|p| |]; try reflexivity. now rewrite IH by auto.
Qed.
Lemma storage_irrelevant pw inp T inp' T' cs : Supported pw inp T -> Supported pw inp' T' ->
  discrs inp = discrs inp' -> Forall (cmd_ok pw inp) cs -> Forall portable cs ->
  (Exists uses_serde cs -> same_format inp inp' /\ serde_usable inp') ->
  run T cs (c_init T) = run T' cs (c_init T').
Proof.
  intros HS HS' Hv Hok Hp Hs.
  assert (Hok' : Forall (cmd_ok pw inp') cs).
  { apply Forall_forall. intros c Hc. rewrite Forall_forall in Hok. specialize (Hok c Hc).
    assert (Hu : uses_serde c \/ ~ uses_serde c) by (destruct c; cbn; auto).
    destruct Hu as [Hu|Hu]; [|apply (same_ok pw inp inp' Hv); auto; rewrite Forall_forall in Hp; specialize (Hp c Hc); now destruct c].
    destruct Hs as [HF HU]; [apply Exists_exists; eauto|].
    destruct c; cbn [uses_serde cmd_ok] in *; try contradiction; [assumption|]. split; [assumption|].
    destruct Hok as [_ [O1 O2 O3 O4]]. constructor; auto.
    - intros items v E Hin. rewrite <- (same_variant inp inp' Hv). eauto.
    - intros items v b E Hin. rewrite <- (same_variant inp inp' Hv). eauto. }
  rewrite (history_refines pw inp T cs HS Hok), (history_refines pw inp' T' cs HS' Hok').
  apply (same_run pw inp inp' T); auto. intros H. now apply Hs.
Qed.

(** ** C59 *)
Lemma like_ok pw inp inp' : discrs inp = discrs inp' -> storage_of inp = storage_of inp' ->
  serialize_name inp = serialize_name inp' -> at_deny_unknown (in_attrs inp) = at_deny_unknown (in_attrs inp') ->
  forall c, cmd_ok pw inp c -> cmd_ok pw inp' c.
Proof.
  intros Hv Hst Hn Hd c Hok. assert (Hu : uses_serde c \/ ~ uses_serde c) by (destruct c; cbn; auto).
  destruct Hu as [Hu|Hu]; [|now apply (same_ok pw inp inp' Hv)].
  assert (HU : serde_usable inp -> serde_usable inp') by (unfold serde_usable; now rewrite Hst, Hn, Hd).
  destruct c; cbn [uses_serde cmd_ok] in *; try contradiction; [auto|]. destruct Hok as [H [O1 O2 O3 O4]]. split; [auto|].
  constructor; auto.
  - intros items v E Hin. rewrite <- (same_variant inp inp' Hv). eauto.
  - intros items v b E Hin. rewrite <- (same_variant inp inp' Hv). eauto.
Qed.
Lemma like_step pw inp inp' c ast : discrs inp = discrs inp' -> storage_of inp = storage_of inp' ->
  serialize_name inp = serialize_name inp' -> at_deny_unknown (in_attrs inp) = at_deny_unknown (in_attrs inp') ->
  a_step pw inp c ast = a_step pw inp' c ast.
Proof.
  intros Hv Hst Hn Hd. assert (Ed := same_discr inp inp' Hv).
  assert (E1 : forall A, a_serialize inp A = a_serialize inp' A).
  { intros A. unfold a_serialize, words_written. cbv zeta. now rewrite Hn, !(same_words inp inp' Hv), (same_value inp inp' Hv), (same_size inp inp' Hv), (same_elements inp inp' Hv), Hst. }
  assert (E2 : forall src, a_deserialize inp src = a_deserialize inp' src).
  { intros src. unfold a_deserialize. rewrite Hn, Hd, Hst, Ed.
    destruct (name_ity _); [destruct (src_int src _); [now rewrite ?(same_known inp inp' Hv), ?(same_bits inp inp' Hv)|reflexivity]|].
    destruct (_ =? _)%string; [reflexivity|]. destruct (_ =? _)%string; [reflexivity|]. destruct (src_words src); [|reflexivity].
    destruct (all_ok _); [|reflexivity]. now rewrite ?(same_known inp inp' Hv). }
  destruct c; cbn [a_step];
    rewrite ?(same_call inp inp' Hv), ?(same_known inp inp' Hv), ?(same_bits inp inp' Hv), ?Ed, ?(same_size inp inp' Hv),
      ?(same_all inp inp' Hv), ?(same_fits inp inp' Hv), ?(same_value inp inp' Hv), ?(same_words inp inp' Hv),
      ?(same_elements inp inp' Hv), ?Hst, ?E1, ?E2; try reflexivity;
    try (destruct (storage_of inp'); now rewrite ?(same_words inp inp' Hv)).
  - now rewrite (same_count inp inp' Hv).
  - unfold max_discr. now rewrite Hv.
Qed.
Lemma only_discriminants_matter pw inp T inp' T' cs : Supported pw inp T -> Supported pw inp' T' ->
  discrs inp = discrs inp' -> storage_of inp = storage_of inp' ->
  serialize_name inp = serialize_name inp' -> at_deny_unknown (in_attrs inp) = at_deny_unknown (in_attrs inp') ->
  Forall (cmd_ok pw inp) cs -> run T cs (c_init T) = run T' cs (c_init T').
Proof.
  intros HS HS' Hv Hst Hn Hd Hok.
  assert (Hok' : Forall (cmd_ok pw inp') cs) by (eapply Forall_impl; [|exact Hok]; intros c; now apply like_ok).
  rewrite (history_refines pw inp T cs HS Hok), (history_refines pw inp' T' cs HS' Hok').
  generalize a_init. clear Hok Hok'. induction cs as [|c cs IH]; intros ast; [reflexivity|]. cbn [a_run].
  rewrite (like_step pw inp inp' c ast) by assumption.
  destruct (a_step pw inp' c ast) as [[o ast']|p| |]; try reflexivity. now rewrite IH.
Qed.

(** ** C60 *)
Lemma target_irrelevant pw pw' inp T T' cs : Supported pw inp T -> Supported pw' inp T' ->
  Forall (cmd_ok pw inp) cs -> Forall (cmd_ok pw' inp) cs -> Forall (fun c => ~ to_usize c) cs ->
  run T cs (c_init T) = run T' cs (c_init T').
Proof.
  intros HS HS' Hok Hok' Hu.
  rewrite (history_refines pw inp T cs HS Hok), (history_refines pw' inp T' cs HS' Hok').
  generalize a_init. clear Hok Hok'. induction cs as [|c cs IH]; intros ast; [reflexivity|]. inversion Hu as [|? ? Hc Hcs]; subst. cbn [a_run].
  replace (a_step pw inp c ast) with (a_step pw' inp c ast).
  - destruct (a_step pw' inp c ast) as [[o ast']|p| |]; try reflexivity. now rewrite IH.
  - destruct c; try reflexivity; cbn [a_step to_usize] in *; destruct t; try reflexivity; now contradiction Hc.
Qed.

(** ** C45 *)
Lemma push_variant_build md md' i k v : push_variant md i k v = push_variant md' i k v.
Proof.
  unfold push_variant. destruct (existsb _ _); [reflexivity|]. destruct (vd_unit v); [|reflexivity].
  destruct (parse_discr _ _ _) as [d|e]; cbn [try_]; [|reflexivity]. destruct (N.leb_spec 0xFFFFFFC0 d); [reflexivity|].
  destruct (existsb _ _); [reflexivity|]. unfold cadd. destruct (N.ltb_spec (d + 1) (2 ^ 32)); [reflexivity|lia].
Qed.
Lemma push_variants_build md md' vs : forall i k, push_variants md i k vs = push_variants md' i k vs.
Proof.
  induction vs as [|v vs IH]; intros i k; cbn [push_variants]; [reflexivity|]. rewrite (push_variant_build md md').
  destruct (push_variant md' i k v) as [[i'|e]| | |]; cbn [bind try_]; auto.
Qed.
Lemma derive_info_build md md' inp : derive_info md inp = derive_info md' inp.
Proof.
  unfold derive_info. destruct (in_generic inp); [reflexivity|]. destruct (negb _); [reflexivity|]. cbv zeta.
  destruct (check_rust_reprs _ _); cbn [try_]; [|reflexivity].
  destruct (match at_repr _ with Some _ => _ | None => _ end); cbn [try_]; [|reflexivity].
  destruct (match at_serialize_repr _ with Some _ => _ | None => _ end); cbn [try_]; [|reflexivity].
  now rewrite (push_variants_build md md').
Qed.
Lemma derive_err_build md md' pw inp e : derive md pw inp = Ret (Err e) -> derive md' pw inp = Ret (Err e).
Proof.
  unfold derive. rewrite (derive_info_build md md'). destruct (derive_info md' inp) as [[i|e']|p| |]; cbn [bind try_]; auto.
  destruct (enum_set_type_impl md pw i _); cbn [bind]; discriminate.
Qed.
Lemma release_equals_debug pw inp :
  (forall e, derive Debug pw inp = Ret (Err e) <-> derive Release pw inp = Ret (Err e)) /\
  (forall T, derive Debug pw inp = Ret (Ok T) -> exists T', derive Release pw inp = Ret (Ok T')) /\
  (forall T T' cs, derive Debug pw inp = Ret (Ok T) -> derive Release pw inp = Ret (Ok T') ->
     Supported pw inp T -> Forall (cmd_ok pw inp) cs -> run T cs (c_init T) = run T' cs (c_init T')).
Proof.
  split; [|split].
  - intros e. split; apply derive_err_build.
  - intros T H. destruct (DeriveClaims.derive_total Debug pw inp) as (r & E & HW & _).
    destruct (DeriveClaims.derive_total Release pw inp) as (r' & E' & HW' & _).
    rewrite H in E. injection E as <-. destruct (proj2 HW') as [T' ->]; [apply HW; eauto|eauto].
  - intros T T' cs H H' [Hpw Hd Hdis Hcnt] Hok.
    assert (HS : Supported pw inp T) by (constructor; eauto). assert (HS' : Supported pw inp T') by (constructor; eauto).
    now rewrite (history_refines pw inp T cs HS Hok), (history_refines pw inp T' cs HS' Hok).
Qed.

(** ** C61 *)
Lemma program_refines pw inp T n prog : Supported pw inp T -> calls pw inp (cmd_ok pw inp) n prog ->
  play T n prog [] (c_init T) = a_play pw inp n prog [] a_init.
Proof.
  intros HS Hok. destruct (laws_with_storage pw inp T HS) as (val & irel & HT & Hcmp & Hhash & Hint).
  eapply (play_sim HT HS Hcmp Hhash Hint); [exact (rel_init HT)|exact Hok].
Qed.
Lemma a_play_ends pw inp T n prog : Supported pw inp T -> forall seen ast,
  let '(outs, fin) := a_play pw inp n prog seen ast in
  (fin = Ret tt /\ (prog outs = None \/ length outs = (length seen + n)%nat)) \/
  (exists c p, prog outs = Some c /\ may_panic inp c /\ fin = Panic p /\ In p documented_panics).
Proof.
  intros HS. induction n as [|n IH]; intros seen ast; cbn [a_play]; [left; split; [reflexivity|right; lia]|].
  destruct (prog seen) as [c|] eqn:Ec; [|now left; auto].
  pose proof (a_step_panic pw inp T c ast HS) as H. destruct (a_step pw inp c ast) as [[o ast']|p| |]; try contradiction.
  - specialize (IH (seen ++ [o]) ast'). destruct (a_play pw inp n prog (seen ++ [o]) ast') as [outs fin].
    rewrite app_length in IH. cbn [length] in IH. destruct IH as [[E [H'|H']]|H']; [left; auto| |auto]. left. split; [assumption|]. right. lia.
  - right. exists c, p. tauto.
Qed.
Lemma program_safe pw inp T n prog : Supported pw inp T -> calls pw inp (cmd_ok pw inp) n prog ->
  let '(outs, fin) := play T n prog [] (c_init T) in
  (fin = Ret tt /\ (prog outs = None \/ length outs = n)) \/
  (exists c p, prog outs = Some c /\ may_panic inp c /\ fin = Panic p /\ In p documented_panics).
Proof. intros HS Hok. rewrite (program_refines pw inp T n prog HS Hok). exact (a_play_ends pw inp T n prog HS [] a_init). Qed.

(** Two machines that agree on the calls satisfying [P]. *)
Lemma a_play_same pw inp pw' inp' (P : cmd -> Prop) n prog :
  (forall c ast, P c -> a_step pw inp c ast = a_step pw' inp' c ast) ->
  forall seen ast, a_calls pw inp P n prog seen ast -> a_play pw inp n prog seen ast = a_play pw' inp' n prog seen ast.
Proof.
  intros HE. induction n as [|n IH]; intros seen ast HP; cbn [a_play a_calls] in *; [reflexivity|].
  destruct (prog seen) as [c|]; [|reflexivity]. destruct HP as [Hc HP]. rewrite <- (HE c ast Hc).
  destruct (a_step pw inp c ast) as [[o ast']|p| |]; auto.
Qed.
Lemma a_calls_same pw inp pw' inp' (P Q : cmd -> Prop) n prog :
  (forall c ast, P c -> Q c /\ a_step pw inp c ast = a_step pw' inp' c ast) ->
  forall seen ast, a_calls pw inp P n prog seen ast -> a_calls pw' inp' Q n prog seen ast.
Proof.
  intros HE. induction n as [|n IH]; intros seen ast HP; cbn [a_calls] in *; [exact I|].
  destruct (prog seen) as [c|]; [|exact I]. destruct HP as [Hc HP]. destruct (HE c ast Hc) as [HQ E]. split; [assumption|].
  rewrite <- E. destruct (a_step pw inp c ast) as [[o ast']|p| |]; auto.
Qed.
Lemma a_calls_weaken pw inp (P Q : cmd -> Prop) n prog : (forall c, P c -> Q c) ->
  forall seen ast, a_calls pw inp P n prog seen ast -> a_calls pw inp Q n prog seen ast.
Proof. intros H. apply a_calls_same. auto. Qed.

Lemma program_same_storage pw inp T inp' T' n prog : Supported pw inp T -> Supported pw inp' T' ->
  discrs inp = discrs inp' -> storage_of inp = storage_of inp' ->
  serialize_name inp = serialize_name inp' -> at_deny_unknown (in_attrs inp) = at_deny_unknown (in_attrs inp') ->
  calls pw inp (cmd_ok pw inp) n prog -> play T n prog [] (c_init T) = play T' n prog [] (c_init T').
Proof.
  intros HS HS' Hv Hst Hn Hd Hok.
  assert (Hok' : calls pw inp' (cmd_ok pw inp') n prog).
  { apply (a_calls_same pw inp pw inp' (cmd_ok pw inp)); [|exact Hok]. intros c ast Hc. split; [eapply like_ok; eassumption|now apply like_step]. }
  rewrite (program_refines pw inp T n prog HS Hok), (program_refines pw inp' T' n prog HS' Hok').
  apply (a_play_same _ _ _ _ (cmd_ok pw inp)); [|exact Hok]. intros c ast _. now apply like_step.
Qed.
Lemma program_other_storage pw inp T inp' T' n prog : Supported pw inp T -> Supported pw inp' T' ->
  discrs inp = discrs inp' ->
  calls pw inp (fun c => cmd_ok pw inp c /\ portable c /\ ~ uses_serde c) n prog ->
  play T n prog [] (c_init T) = play T' n prog [] (c_init T').
Proof.
  intros HS HS' Hv Hall.
  assert (HE : forall c ast, portable c -> ~ uses_serde c -> a_step pw inp c ast = a_step pw inp' c ast).
  { intros c ast H1 H2. apply (same_step pw inp inp' T); auto. now intros. }
  assert (Hok : calls pw inp (cmd_ok pw inp) n prog) by (eapply a_calls_weaken; [|exact Hall]; now intros c (H & _)).
  assert (Hok' : calls pw inp' (cmd_ok pw inp') n prog).
  { eapply (a_calls_same pw inp pw inp'); [|exact Hall]. intros c ast (H1 & H2 & H3). split; [apply (same_ok pw inp inp' Hv); auto; now destruct c|now apply HE]. }
  rewrite (program_refines pw inp T n prog HS Hok), (program_refines pw inp' T' n prog HS' Hok').
  eapply a_play_same; [|exact Hall]. intros c ast (H1 & H2 & H3). now apply HE.
Qed.
Lemma program_other_target pw pw' inp T T' n prog : Supported pw inp T -> Supported pw' inp T' ->
  calls pw inp (fun c => cmd_ok pw inp c /\ cmd_ok pw' inp c /\ ~ to_usize c) n prog ->
  play T n prog [] (c_init T) = play T' n prog [] (c_init T').
Proof.
  intros HS HS' Hall.
  assert (HE : forall c ast, ~ to_usize c -> a_step pw inp c ast = a_step pw' inp c ast).
  { intros c ast Hc. destruct c; try reflexivity; cbn [a_step to_usize] in *; destruct t; try reflexivity; now contradiction Hc. }
  assert (Hok : calls pw inp (cmd_ok pw inp) n prog) by (eapply a_calls_weaken; [|exact Hall]; now intros c (H & _)).
  assert (Hok' : calls pw' inp (cmd_ok pw' inp) n prog).
  { eapply (a_calls_same pw inp pw' inp); [|exact Hall]. intros c ast (H1 & H2 & H3). split; [assumption|now apply HE]. }
  rewrite (program_refines pw inp T n prog HS Hok), (program_refines pw' inp T' n prog HS' Hok').
  eapply a_play_same; [|exact Hall]. intros c ast (H1 & H2 & H3). now apply HE.
Qed.

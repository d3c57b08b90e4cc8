(** * Claims about representation access, ordering, hashing, collecting, printing and the macros *)
From Verif Require Import Base BaseFacts LimbFacts Prim ArrayRepr Repr ReprLaws PrimFacts ArrayFacts.
From Verif Require Import Syntax Spec Derive EnumSet Macros Fmt ApiSpec DeriveFacts TyFacts SetFacts IterFacts ConvFacts MacroFacts FmtFacts ReachFacts SetClaims AlgebraClaims ConvClaims DeriveClaims.
Ltac Zify.zify_post_hook ::= Z.div_mod_to_equations.

(** ** C22 *)
Lemma with_repr md pw inp T : derive md pw inp = Ret (Ok T) ->
  (et_with_repr T = true <-> exists name b, at_repr (in_attrs inp) = Some name /\ name_bits name = Some b).
Proof.
  intros H. destruct (derive_ok _ _ _ H) as (HW & i & Hi & HG).
  assert (E : et_with_repr T = match repr_attr inp with Some _ => true | None => false end).
  { rewrite <- (io_internal _ _ Hi). destruct HG; reflexivity. }
  rewrite E. unfold repr_attr. destruct (at_repr (in_attrs inp)) as [s|].
  - pose proof (name_bits_ir s) as Hb. destruct (ir_of_name s) as [r|].
    + split; [intros _|reflexivity]. eauto.
    + split; [discriminate|]. intros (name & b & En & Eb). inversion En; subst. congruence.
  - split; [discriminate|]. intros (name & b & En & _). discriminate.
Qed.
Lemma repr_conversions pw inp T name w : Supported pw inp T ->
  at_repr (in_attrs inp) = Some name -> name_bits name = Some w ->
  exists md pl lit i, let P := prim_ty md pw w pl lit i (in_variants inp) in
    T = P /\ et_with_repr P = true /\
    (forall s A, Reachable pw inp P s -> Denotes inp P s A ->
       es_as_repr P s = set_value inp A /\ es_from_repr P (es_as_repr P s) = Ret s) /\
    forall x : N, x < 2 ^ w ->
      (only_variant_bits inp x ->
         exists s, es_try_from_repr P x = Ret (Some s) /\ es_from_repr P x = Ret s /\ Denotes inp P s (bits_set inp x)) /\
      (~ only_variant_bits inp x ->
         es_try_from_repr P x = Ret None /\ es_from_repr P x = Panic (PExpect "Bitset contains invalid variants.")) /\
      Returns inp P (es_from_repr_truncated P x) (bits_set inp x).
Proof.
  intros HS En Eb. destruct (sup_derive _ _ _ HS) as [md HD].
  assert (HX : et_with_repr T = true) by (apply (with_repr md pw inp T HD); eauto).
  destruct (derive_ok _ _ _ HD) as (HW & i & Hi & HG).
  assert (Hst : storage_of inp = SInt w) by (unfold storage_of; now rewrite En, Eb).
  pose proof (chosen_storage inp HW) as HC. rewrite Hst in HC.
  destruct HG as [w' pl lit Hok Hw Hmax Hlit Hb Hpl|n all Hc Hn Hall Hb]; [|rewrite Hc in HC; destruct HC].
  assert (w' = w) by (destruct (chosen inp); cbn [ir_supported] in *; (congruence || destruct HC)). clear Hw. subst w'.
  exists md, pl, lit, i. cbv zeta. split; [reflexivity|]. split; [exact HX|].
  destruct (prim_ty_laws pw w pl lit i inp Hok (sup_usize _ _ _ HS) HW Hi Hmax (sup_discrs _ _ _ HS) (sup_count _ _ _ HS) Hlit Hb)
    as (irel & HT).
  pose proof (reachable_valid HT HS) as HV. split.
  - intros s A HR HA. members s. rewrite <- (set_value_ext inp _ A Hm). unfold es_as_repr.
    split; [exact (valid_val HT s HR)|].
    destruct (from_repr_spec HT s (valid_ok _ HR)) as [[Ho (s' & -> & Hs' & E)]|[Ho _]].
    + f_equal. apply (valid_same_val HT); auto.
    + exfalso. apply Ho. exact (valid_only_bits s HR).
  - intros x Hx.
    assert (Hxo : r_ok (et_repr (prim_ty md pw w pl lit i (in_variants inp))) x) by exact Hx.
    destruct (checks_cases inp _ _ irel pw HT _ _ x (only_variant_bits inp x) (bits_set inp x)
      (iff_refl _) (fun _ _ => eq_refl) (try_from_repr_spec HT x Hxo) eq_refl) as [H1 H2].
    split; [exact H1|]. split; [exact H2|]. ret_members. exact (from_repr_truncated_spec HT x Hxo).
Qed.

(** ** C23 *)
Lemma cmp_total pw inp T a A b B : Supported pw inp T -> 
  Reachable pw inp T a -> Denotes inp T a A -> Reachable pw inp T b -> Denotes inp T b B ->
  (es_cmp T a b = Eq <-> forall v, variant inp v -> A v = B v) /\
  (es_cmp T a b = Eq <-> es_eq T a b = true) /\
  es_cmp T b a = CompOpp (es_cmp T a b) /\
  es_partial_cmp T a b = Some (es_cmp T a b) /\
  (forall c r, Reachable pw inp T c -> es_cmp T a b = r -> es_cmp T b c = r -> es_cmp T a c = r).
Proof.
  intros HS Ra Da Rb Db. start.
  destruct (eq_members pw inp T a A b B HS Ra Da Rb Db) as [He He'].
  members a. members b. pose proof (tl_repr _ _ _ _ _ HT) as HR.
  assert (Hc : es_cmp T a b = Eq <-> a = b) by exact (rl_cmp_eq _ _ _ _ _ HR a b (valid_ok _ Ra) (valid_ok _ Rb)).
  split; [|split; [|split; [|split]]].
  - rewrite Hc. exact He'.
  - rewrite Hc, He, He'. reflexivity.
  - apply (rl_cmp_antisym _ _ _ _ _ HR); [apply Ra|apply Rb].
  - reflexivity.
  - intros c r Rc. apply HV in Rc. apply (rl_cmp_trans _ _ _ _ _ HR); [apply Ra|apply Rb|apply Rc].
Qed.
Lemma lex_a_cmp l l' : a_cmp l l' = lex_compare l l'.
Proof. revert l'. induction l as [|x l IH]; intros [|y l']; cbn; try reflexivity; destruct (x ?= y); auto. Qed.
Lemma cmp_order pw inp T a A b B : Supported pw inp T -> 
  Reachable pw inp T a -> Denotes inp T a A -> Reachable pw inp T b -> Denotes inp T b B ->
  match storage_of inp with
  | SInt _ => es_cmp T a b = (set_value inp A ?= set_value inp B)
  | SWords n => forall ws ws', length ws = N.to_nat n -> length ws' = N.to_nat n ->
      words_hold inp ws A (64 * n) -> words_hold inp ws' B (64 * n) ->
      es_cmp T a b = lex_compare ws ws'
  end.
Proof.
  intros HS Ra Da Rb Db. destruct (sup_derive _ _ _ HS) as [md HD].
  destruct (derive_ok _ _ _ HD) as (HW & i & Hi & HG). pose proof (chosen_storage inp HW) as HC.
  destruct HG as [w pl lit Hok Hw Hmax Hlit Hb Hpl|n all Hc Hn Hall Hb].
  - destruct (storage_of inp) as [b'|n]; [|rewrite HC in Hpl; destruct Hpl].
    destruct (prim_ty_laws pw w pl lit i inp Hok (sup_usize _ _ _ HS) HW Hi Hmax (sup_discrs _ _ _ HS) (sup_count _ _ _ HS) Hlit Hb)
      as (irel & HT).
    pose proof (reachable_valid HT HS) as HV. members a. members b.
    rewrite <- (set_value_ext inp _ A Hm), <- (set_value_ext inp _ B Hm0).
    rewrite <- (valid_val HT a Ra), <- (valid_val HT b Rb). reflexivity.
  - destruct (storage_of inp) as [b'|k]; [rewrite Hc in HC; destruct HC|].
    destruct (array_ty_laws pw n all i inp (sup_usize _ _ _ HS) HW Hi Hn (sup_discrs _ _ _ HS) (sup_count _ _ _ HS) Hall Hb)
      as (irel & HT).
    pose proof (reachable_valid HT HS) as HV. members a. members b.
    assert (Ek : n = N.to_nat k) by congruence.
    assert (Hs : forall (s : list N) (S : vset) (ws : list N), @Valid inp (array_ty md pw n all i (in_variants inp)) lval s -> (forall v, variant inp v -> mem (inp := inp) (T := array_ty md pw n all i (in_variants inp)) (val := lval) s v = S v) ->
      length ws = N.to_nat k -> words_hold inp ws S (64 * k) -> s = ws).
    { intros s S ws Vs Hms Hl [Hok Hw]. pose proof (valid_ok _ Vs) as [Ls Os].
      apply lval_inj; auto; [congruence|]. rewrite (valid_val HT s Vs). apply bit_eq. intros j.
      rewrite <- (word_bit_lval ws j Hok). apply eq_true_iff_eq.
      rewrite Hw, (set_value_testbit inp _ j (wf_distinct _ HW)). split.
      - intros (v & Hv & Hvm & E). exists v. rewrite <- Hms by assumption. repeat split; auto.
        rewrite <- E. pose proof (tl_lt_width _ _ _ _ _ HT (discr inp v) (discr_In _ _ Hv)) as Hlt. cbn in Hlt.
        unfold a_width in Hlt. lia.
      - intros (v & Hv & E & Hvm & _). exists v. rewrite Hms by assumption. auto. }
    intros ws ws' L L' H H'. rewrite (Hs a A ws), (Hs b B ws') by assumption. apply lex_a_cmp.
Qed.

(** ** C24 *)
Lemma hash_eq pw inp T a A b B : Supported pw inp T -> 
  Reachable pw inp T a -> Denotes inp T a A -> Reachable pw inp T b -> Denotes inp T b B ->
  (es_hash T a = es_hash T b <-> forall v, variant inp v -> A v = B v) /\
  (es_hash T a = es_hash T b <-> es_eq T a b = true).
Proof.
  intros HS Ra Da Rb Db. start.
  destruct (eq_members pw inp T a A b B HS Ra Da Rb Db) as [He He'].
  pose proof (tl_repr _ _ _ _ _ HT) as HR.
  assert (Hh : es_hash T a = es_hash T b <-> a = b).
  { split; [apply (rl_hash_inj _ _ _ _ _ HR); [apply (HV a Ra)|apply (HV b Rb)]|now intros ->]. }
  rewrite Hh. split; [exact He'|]. rewrite He, He'. reflexivity.
Qed.

(** ** C25 *)
Lemma collect_variants pw inp T s A items : Supported pw inp T -> Reachable pw inp T s -> Denotes inp T s A ->
  (forall v, In v items -> variant inp v) ->
  Returns inp T (es_extend T s items) (fun v => A v || existsb (Nat.eqb v) items) /\
  Returns inp T (es_from_iter T items) (fun v => existsb (Nat.eqb v) items) /\
  Returns inp T (es_sum T items) (fun v => existsb (Nat.eqb v) items).
Proof.
  intros HS HR HA Hi. start. members s. repeat split; ret_members.
  - eapply (good_ext (val := val)); [|now apply (extend_spec HT)]. intros v Hv. cbv beta. now rewrite Hm.
  - now apply (from_iter_spec HT).
  - now apply (sum_spec HT).
Qed.
Lemma collect_sets pw inp T s A items Bs : Supported pw inp T -> Reachable pw inp T s -> Denotes inp T s A ->
  Forall2 (fun x B => Reachable pw inp T x /\ Denotes inp T x B) items Bs ->
  Returns inp T (es_extend_sets T s items) (fun v => A v || existsb (fun B => B v) Bs) /\
  Returns inp T (es_from_iter_sets T items) (fun v => existsb (fun B => B v) Bs) /\
  Returns inp T (es_sum_sets T items) (fun v => existsb (fun B => B v) Bs).
Proof.
  intros HS HR HA Hi. start. members s.
  assert (Hx : (forall x, In x items -> @Valid inp T val x) /\
    forall v, variant inp v -> existsb (fun x => mem (inp := inp) (val := val) x v) items = existsb (fun B : vset => B v) Bs).
  { clear Hm. induction Hi as [|x B items Bs [Hr Hd] Hi [IH1 IH2]]; [split; [intros x []|reflexivity]|]. split.
    - intros y [<-|Hy]; auto.
    - intros v Hv. cbn [existsb]. rewrite IH2 by assumption. now rewrite (denotes_iff HT x B (HV x Hr) Hd v Hv). }
  destruct Hx as [Hx Hxm]. repeat split; ret_members.
  - eapply (good_ext (val := val)); [|now apply (extend_sets_spec HT)]. intros v Hv. cbv beta. now rewrite Hm, Hxm.
  - eapply (good_ext (val := val)); [|now apply (from_iter_sets_spec HT)]. intros v Hv. cbv beta. now rewrite Hxm.
  - eapply (good_ext (val := val)); [|now apply (sum_sets_spec HT)]. intros v Hv. cbv beta. now rewrite Hxm.
Qed.

(** ** C26 *)
Lemma printing pw inp T s A : Supported pw inp T -> Reachable pw inp T s -> Denotes inp T s A ->
  exists l, lists_set inp A l /\
  forall (W : Type) (write_str : string -> W -> bool * W) (fmt_elem : nat -> W -> bool * W) (w : W),
    let put p := match p with PText t => write_str t | PElem v => fmt_elem v end in
    fmt_display T write_str fmt_elem s w = Ret (perform put (display_pieces l) w) /\
    fmt_debug T write_str fmt_elem s w = Ret (perform put (debug_pieces l) w).
Proof.
  intros HS HR HA. start. members s. destruct (mem_list HT s HR) as (l & Hl & _).
  exists l. split; [eapply lists_set_ext; eassumption|]. intros W write_str fmt_elem w. cbv zeta.
  rewrite (display_spec HT write_str fmt_elem s l w HR Hl), (debug_spec HT write_str fmt_elem s l w HR Hl).
  assert (E : forall ps w, perform (fun p => match p with PText t => write_str t | PElem v => fmt_elem v end) ps w
     = perform (put write_str fmt_elem) ps w).
  { induction ps as [|p ps IH]; intros w'; cbn [perform]; [reflexivity|]. destruct p; cbn [put];
      [destruct (write_str s0 w') as [[|] ?]|destruct (fmt_elem v w') as [[|] ?]]; auto. }
  now rewrite !E.
Qed.
Definition piece_text (elem : nat -> string) (p : piece) : string := match p with PText t => t | PElem v => elem v end.
Definition pieces_text (elem : nat -> string) (ps : list piece) : string := String.concat "" (map (piece_text elem) ps).
Lemma concat_cons x l : String.concat "" (x :: l) = (x ++ String.concat "" l)%string.
Proof. cbn [String.concat]. destruct l; cbn [String.concat append]; [now rewrite append_nil_r|reflexivity]. Qed.
Lemma separated_text elem l : pieces_text elem (separated l) = display_text elem l.
Proof.
  unfold pieces_text, display_text. induction l as [|v l IH]; [reflexivity|]. destruct l as [|u l]; [reflexivity|].
  change (separated (v :: u :: l)) with (PElem v :: PText " | " :: separated (u :: l)).
  rewrite !map_cons, !concat_cons. unfold piece_text at 1 2. rewrite IH. reflexivity.
Qed.
Lemma perform_text {W} (text : W -> string) elem (act : piece -> W -> bool * W) ps :
  (forall p, In p ps -> appends text (piece_text elem p) (act p)) -> appends text (pieces_text elem ps) (perform act ps).
Proof.
  unfold appends, pieces_text. induction ps as [|p ps IH]; intros Hp w.
  - cbn. now rewrite append_nil_r.
  - cbn [perform map]. rewrite concat_cons. pose proof (Hp p (or_introl eq_refl) w) as H.
    destruct (act p w) as [[|] w1].
    + assert (IH1 := IH (fun q Hq => Hp q (or_intror Hq)) w1). destruct (perform act ps w1) as [[|] w2].
      * now rewrite IH1, H, append_assoc.
      * destruct IH1 as (q & (r & Er) & E). exists (piece_text elem p ++ q)%string. split.
        -- exists r. now rewrite Er, append_assoc.
        -- now rewrite E, H, append_assoc.
    + destruct H as (q & (r & Er) & E). exists q. split; [|assumption]. exists (r ++ String.concat "" (map (piece_text elem) ps))%string.
      now rewrite Er, append_assoc.
Qed.
Lemma printed_text pw inp T s A W (text : W -> string) elem write_str fmt_elem :
  Supported pw inp T -> Reachable pw inp T s -> Denotes inp T s A ->
  (forall t, appends text t (write_str t)) -> (forall v, variant inp v -> appends text (elem v) (fmt_elem v)) ->
  exists l f g, lists_set inp A l /\
    (forall w, fmt_display T write_str fmt_elem s w = Ret (f w)) /\ appends text (display_text elem l) f /\
    (forall w, fmt_debug T write_str fmt_elem s w = Ret (g w)) /\ appends text (debug_text elem l) g.
Proof.
  intros HS HR HA Hw He. destruct (printing pw inp T s A HS HR HA) as (l & Hl & H).
  exists l. do 2 eexists. split; [assumption|]. split; [intros w; apply (H W write_str fmt_elem w)|].
  assert (Hin : forall p, In p (separated l) -> appends text (piece_text elem p) (match p with PText t => write_str t | PElem v => fmt_elem v end)).
  { assert (Hi : forall v, In (PElem v) (separated l) -> In v l).
    { clear. induction l as [|x l IH]; intros v Hv; [destruct Hv|]. destruct l as [|y l].
      - destruct Hv as [E|[]]. inversion E. now left.
      - cbn [separated In] in Hv. destruct Hv as [E|[E|Hv]]; [inversion E; now left|discriminate|]. right. now apply IH. }
    intros [t|v] Hp; cbn [piece_text]; [apply Hw|]. apply He. destruct Hl as [_ Hl]. now apply Hl, Hi. }
  split; [|split; [intros w; apply (H W write_str fmt_elem w)|]].
  - unfold display_pieces. rewrite <- separated_text. apply perform_text. exact Hin.
  - assert (E : debug_text elem l = pieces_text elem (debug_pieces l)).
    { unfold debug_text, debug_pieces, pieces_text. cbn [map]. rewrite concat_cons. cbn [piece_text]. f_equal.
      rewrite <- separated_text. unfold pieces_text. rewrite map_app.
      generalize (map (piece_text elem) (separated l)). intros m. induction m as [|x m IH]; [reflexivity|].
      cbn [app]. now rewrite !concat_cons, append_assoc, IH. }
    rewrite E. apply perform_text. intros p Hp. unfold debug_pieces in Hp. destruct Hp as [<-|Hp]; [apply Hw|].
    apply in_app_iff in Hp. destruct Hp as [Hp|[<-|[]]]; [now apply Hin|apply Hw].
Qed.

(** ** C31 *)
Lemma fold_members pw inp T val irel (HT : TyLaws pw (discrs inp) T val irel)
  (HV : forall s, Reachable pw inp T s -> @Valid inp T val s) ops Os :
  Forall2 (OpDenotes inp T (Reachable pw inp T)) ops Os ->
  (forall p, In p ops -> ovalid (inp := inp) (val := val) p) /\
  forall (h : bool -> bool -> bool) v b, variant inp v ->
    fold_left (fun b p => h b (omem (inp := inp) (val := val) p v)) ops b = fold_left (fun b (O : vset) => h b (O v)) Os b.
Proof.
  induction 1 as [|o O ops Os HO _ [IH1 IH2]]; [split; [intros p []|reflexivity]|].
  destruct (op_denotes pw inp T val irel HT HV o O HO) as [Ho Hom]. split.
  - intros p [<-|Hp]; auto.
  - intros h v b Hv. cbn [fold_left]. now rewrite IH2, Hom.
Qed.
Lemma macros_agree pw inp T o ops : Supported pw inp T ->
  (forall p, In p (o :: ops) -> exists O, OpDenotes inp T (Reachable pw inp T) p O) ->
  let run op := s <- es_into T o ;; for_each ops s (fun p s => op s p) in
  Agree T (mc_enum_set T (o :: ops)) (run (es_bitor T)) /\
  Agree T (mc_union T o ops) (run (es_bitor T)) /\
  Agree T (mc_intersection T o ops) (run (es_bitand T)) /\
  Agree T (mc_difference T o ops) (run (es_sub T)) /\
  Agree T (mc_symmetric_difference T o ops) (run (es_bitxor T)) /\
  Agree T (mc_complement T o) (s <- es_into T o ;; es_not T s) /\
  mc_enum_set T [] = Ret (es_empty T).
Proof.
  intros HS Hp. cbv zeta. start.
  assert (Hv : forall p, In p (o :: ops) -> ovalid (inp := inp) (val := val) p).
  { intros p Hin. destruct (Hp p Hin) as [O HO]. now apply (op_denotes pw inp T val irel HT HV p O). }
  assert (Ho : ovalid (inp := inp) (val := val) o) by (apply Hv; now left).
  assert (Hops : forall p, In p ops -> ovalid (inp := inp) (val := val) p) by (intros p Hin; apply Hv; now right).
  assert (HA : forall m m', @Same inp T val m m' -> Agree T m m') by (intros m m' (s & E & E' & _); exists s; auto).
  pose proof (mc_union_same HT o ops Ho Hops) as HU.
  repeat split; try apply HA; auto.
  - destruct ops as [|o' ops]; cbn [mc_enum_set]; [|exact HU].
    unfold mc_union, mc_fold in HU. cbn [for_each] in HU |- *.
    assert (Eb : forall (m : M (eset T)), bind m (fun v => Ret v) = m) by (intros []; reflexivity).
    now rewrite Eb in HU.
  - now apply (mc_intersection_same HT).
  - now apply (mc_difference_same HT).
  - now apply (mc_symmetric_difference_same HT).
  - now apply (mc_complement_same HT).
Qed.
Lemma macro_members pw inp T o O ops Os : Supported pw inp T ->
  OpDenotes inp T (Reachable pw inp T) o O -> Forall2 (OpDenotes inp T (Reachable pw inp T)) ops Os ->
  Returns inp T (mc_enum_set T (o :: ops)) (fun v => fold_left (fun b O => b || O v) Os (O v)) /\
  Returns inp T (mc_union T o ops) (fun v => fold_left (fun b O => b || O v) Os (O v)) /\
  Returns inp T (mc_intersection T o ops) (fun v => fold_left (fun b O => b && O v) Os (O v)) /\
  Returns inp T (mc_difference T o ops) (fun v => fold_left (fun b O => b && negb (O v)) Os (O v)) /\
  Returns inp T (mc_symmetric_difference T o ops) (fun v => fold_left (fun b O => xorb b (O v)) Os (O v)) /\
  Returns inp T (mc_complement T o) (fun v => negb (O v)).
Proof.
  intros HS HO HOs. pose proof HS as HS'. start.
  destruct (op_denotes pw inp T val irel HT HV o O HO) as [Ho Hom].
  destruct (fold_members pw inp T val irel HT HV ops Os HOs) as [Hops Hf].
  assert (Hall : forall p, In p (o :: ops) -> exists O, OpDenotes inp T (Reachable pw inp T) p O).
  { intros p [<-|Hp]; [eauto|]. clear - HOs Hp. induction HOs as [|q Q qs Qs HQ _ IH]; [destruct Hp|]. destruct Hp as [<-|Hp]; eauto. }
  destruct (macros_agree pw inp T o ops HS' Hall) as (H1 & H2 & H3 & H4 & H5 & H6 & _).
  assert (HG : forall (g : eset T -> operand T -> M (eset T)) (h : bool -> bool -> bool) m,
    (forall a p, @Valid inp T val a -> ovalid (inp := inp) (val := val) p ->
        Good (inp := inp) (val := val) (g a p) (fun v => h (mem (inp := inp) (val := val) a v) (omem (inp := inp) (val := val) p v))) ->
    Agree T m (s <- es_into T o ;; for_each ops s (fun p s => g s p)) ->
    Returns inp T m (fun v => fold_left (fun b O => h b (O v)) Os (O v))).
  { intros g h m Hg (s & -> & E). ret_members. rewrite <- E.
    eapply (good_bind (inp := inp) (val := val)); [now apply (into_spec HT)|]. intros a Ha Hm.
    eapply (good_ext (val := val)); [|now apply (for_each_op_good g h)]. intros v Hv. cbv beta.
    rewrite Hf by assumption. now rewrite Hm, Hom. }
  repeat split.
  - apply (HG (es_bitor T) orb); [exact (bitor_spec HT)|exact H1].
  - apply (HG (es_bitor T) orb); [exact (bitor_spec HT)|exact H2].
  - apply (HG (es_bitand T) andb); [exact (bitand_spec HT)|exact H3].
  - apply (HG (es_sub T) (fun x y => x && negb y)); [exact (sub_spec HT)|exact H4].
  - apply (HG (es_bitxor T) xorb); [exact (bitxor_spec HT)|exact H5].
  - destruct H6 as (s & -> & E). ret_members. rewrite <- E.
    eapply (good_bind (inp := inp) (val := val)); [now apply (into_spec HT)|]. intros a Ha Hm.
    eapply (good_ext (val := val)); [|now apply (complement_spec HT)]. intros v Hv. cbv beta. now rewrite Hm, Hom.
Qed.

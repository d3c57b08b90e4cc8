(** * Facts about the generated serde code *)
From Verif Require Import Base BaseFacts LimbFacts Repr ReprLaws PrimFacts.
From Verif Require Import Syntax Spec Derive EnumSet Fmt Serde ApiSpec DeriveFacts TyFacts SetFacts IterFacts ConvFacts FmtFacts.
Ltac Zify.zify_post_hook ::= Z.div_mod_to_equations.

(** ** The chosen serialization format *)
Definition serde_chosen (inp : derive_input) : serde_repr :=
  match serde_attr inp with
  | Some r => r
  | None =>
      let x := max_discr inp in
      if x <? 8 then SU8 else if x <? 16 then SU16 else if x <? 32 then SU32
      else if x <? 64 then SU64 else if x <? 128 then SU128 else SArray
  end.
Lemma serde_repr_chosen inp i : InfoOk inp i -> serde_repr_of i = serde_chosen inp.
Proof. intros H. unfold serde_repr_of, serde_chosen. now rewrite (io_serde _ _ H), (io_max _ _ H). Qed.
Lemma generated_serde {md : build} pw inp i T : InfoOk inp i -> Generated pw inp i T ->
  et_serde T = serde_chosen inp /\ et_deny_unknown T = at_deny_unknown (in_attrs inp).
Proof.
  intros Hi [w pl lit _ _ _ _ _ _|n all _ _ _ _]; cbn; (split; [now apply serde_repr_chosen|apply (io_deny _ _ Hi)]).
Qed.
Lemma serde_chosen_fits inp b : WellFormed inp -> sr_supported (serde_chosen inp) = Some b -> max_discr inp < b.
Proof.
  intros HW. unfold serde_chosen. destruct (serde_attr inp) as [r|] eqn:Er.
  - unfold serde_attr in Er. destruct (serialize_choice (in_attrs inp)) as [s|] eqn:Es; [|discriminate].
    intros Hb. eapply (wf_serialize_fits _ HW); [exact Es|].
    rewrite name_bits_sr, Er; [assumption|].
    unfold serialize_choice in Es. destruct (at_as_list (in_attrs inp)); [inversion Es; unfold serialize_repr_names; cbn; tauto|].
    destruct (at_as_map (in_attrs inp)); [inversion Es; unfold serialize_repr_names; cbn; tauto|].
    now apply (wf_serialize_repr _ HW).
  - set (x := max_discr inp).
    destruct (N.ltb_spec x 8), (N.ltb_spec x 16), (N.ltb_spec x 32), (N.ltb_spec x 64), (N.ltb_spec x 128);
      cbn [sr_supported]; intros E; inversion E; lia.
Qed.
Lemma derive_serde md pw inp T : derive md pw inp = Ret (Ok T) ->
  et_serde T = serde_chosen inp /\ et_deny_unknown T = at_deny_unknown (in_attrs inp) /\
  forall b, sr_supported (et_serde T) = Some b -> max_discr inp < b.
Proof.
  intros H. destruct (derive_ok _ _ _ H) as (HW & i & Hi & HG).
  destruct (generated_serde _ _ _ _ Hi HG) as [E1 E2]. split; [assumption|]. split; [assumption|].
  intros b. rewrite E1. now apply serde_chosen_fits.
Qed.
Lemma sr_ity_bits pw r t : sr_ity r = Some t -> sr_supported r = Some (ity_bits pw t).
Proof. destruct r; cbn; intros H; inversion H; reflexivity. Qed.

(** ** [all_ok] *)
Lemma all_ok_app {A E} (l l' : list (result A E)) :
  all_ok (l ++ l') =
  match all_ok l with
  | Err e => Err e
  | Ok r => match all_ok l' with Err e => Err e | Ok r' => Ok (r ++ r') end
  end.
Proof.
  induction l as [|[a|e] l IH]; cbn [all_ok app]; [now destruct (all_ok l')| |reflexivity].
  rewrite IH. destruct (all_ok l); [|reflexivity]. now destruct (all_ok l').
Qed.
Lemma all_ok_length {A E} (l : list (result A E)) r : all_ok l = Ok r -> length r = length l.
Proof.
  revert r. induction l as [|[a|e] l IH]; cbn [all_ok]; intros r H; try discriminate; [now inversion H|].
  destruct (all_ok l); [|discriminate]. inversion H; subst. cbn [length]. now rewrite (IH a0).
Qed.
Lemma all_ok_In {A E} (l : list (result A E)) r x : all_ok l = Ok r -> In x r -> In (Ok x) l.
Proof.
  revert r. induction l as [|[a|e] l IH]; cbn [all_ok]; intros r H Hx; try discriminate.
  - inversion H; subst. destruct Hx.
  - destruct (all_ok l) as [r'|]; [|discriminate]. inversion H; subst. destruct Hx as [->|Hx]; [now left|right; eauto].
Qed.
Lemma all_ok_map_Ok {A E} (l : list A) : all_ok (E := E) (map Ok l) = Ok l.
Proof. induction l as [|a l IH]; cbn [all_ok map]; [reflexivity|]. now rewrite IH. Qed.

Section Serde.
Context {pw : N} {inp : derive_input} {T : EnumTy} {val : eset T -> N}
        {irel : r_iter_t (et_repr T) -> list N -> Prop}.
Context (HT : TyLaws pw (discrs inp) T val irel).
Let HR := tl_repr _ _ _ _ _ HT.
Local Notation mem := (@mem inp T val).
Local Notation Valid := (@Valid inp T val).
Local Notation Good := (@Good inp T val).
Local Notation R := (et_repr T).

(** ** Integers *)
Lemma ser_int_spec {W} (emit : sevent -> W -> bool * W) t s w : Valid s -> max_discr inp < ity_bits pw t ->
  ser_int T emit t s w = Ret (emit (EvInt t (set_value inp (mem s))) w).
Proof.
  intros Hs Hm. unfold ser_int. rewrite (rl_to _ _ _ _ _ HR) by apply Hs. rewrite bind_ret.
  rewrite (valid_val HT) by assumption. rewrite N.mod_small; [reflexivity|].
  apply set_value_lt; [apply (D_nodup HT)|]. intros v Hv _. apply discr_In, max_ge in Hv.
  fold (max_discr inp) in Hv. lia.
Qed.
Definition unknown_bits (x : N) : bool := negb (forallb (fun i => existsb (N.eqb i) (discrs inp)) (bits_of x)).
Lemma unknown_bits_spec x : unknown_bits x = false <-> only_variant_bits inp x.
Proof.
  unfold unknown_bits. rewrite negb_false_iff, forallb_forall, only_bits_In. split.
  - intros H i Hi. apply bits_of_In, H in Hi. now apply existsb_In_N.
  - intros H i Hi. apply existsb_In_N, H. now apply bits_of_In.
Qed.
Lemma deny_check t x : et_deny_unknown T = true -> (exists lit, et_all_lit T = Some lit) ->
  max_discr inp < ity_bits pw t -> x < 2 ^ ity_bits pw t ->
  et_deny_unknown T && match et_all_lit T with
    | Some lit => negb (N.land x (bnot (ity_bits (et_pw T) t) lit) =? 0) | None => false end = unknown_bits x.
Proof.
  intros Hd [lit El] Hm Hx. rewrite Hd, El. cbn [andb]. rewrite (tl_pw _ _ _ _ _ HT).
  pose proof (tl_lit _ _ _ _ _ HT lit El) as ->.
  assert (Hall : val (et_all_bits T) < 2 ^ ity_bits pw t).
  { apply lt_pow2_of_bits. intros i Hi. destruct (N.testbit (val (et_all_bits T)) i) eqn:E; [|reflexivity].
    apply (tl_all _ _ _ _ _ HT), max_ge in E. fold (max_discr inp) in E. lia. }
  rewrite land_bnot_ldiff by assumption.
  assert (Hiff : (negb (N.ldiff x (val (et_all_bits T)) =? 0)) = false <-> unknown_bits x = false).
  { rewrite unknown_bits_spec, negb_false_iff, N.eqb_eq. symmetry. apply (only_bits_ldiff HT). }
  destruct (negb _), (unknown_bits x); intuition.
Qed.
Lemma de_int_spec t x : max_discr inp < ity_bits pw t -> x < 2 ^ ity_bits pw t ->
  (et_deny_unknown T = true -> exists lit, et_all_lit T = Some lit) ->
  (et_deny_unknown T && unknown_bits x = true /\
     de_int T t (Ok x) = Ret (Err (DeCustom "enumset contains unknown bits"))) \/
  (et_deny_unknown T && unknown_bits x = false /\
     exists s, de_int T t (Ok x) = Ret (Ok s) /\ Valid s /\ forall v, variant inp v -> mem s v = bits_set inp x v).
Proof.
  intros Hm Hx Hlit. unfold de_int.
  assert (E : (et_deny_unknown T && match et_all_lit T with
    | Some lit => negb (N.land x (bnot (ity_bits (et_pw T) t) lit) =? 0) | None => false end)
    = et_deny_unknown T && unknown_bits x).
  { destruct (et_deny_unknown T) eqn:Ed; [|reflexivity].
    pose proof (deny_check t x Ed (Hlit eq_refl) Hm Hx) as H. rewrite Ed in H. cbn [andb] in *. exact H. }
  rewrite E. destruct (et_deny_unknown T && unknown_bits x) eqn:Eu; [left; auto|right].
  split; [reflexivity|].
  destruct (and_all_good HT _ _ (rl_from _ _ _ _ _ HR t x Hx)) as (s & Es & Hs & Hms).
  destruct (r_from R t x) as [z| | |]; cbn [bind] in Es |- *; try discriminate. rewrite Es, bind_ret.
  exists s. split; [reflexivity|]. split; [assumption|]. intros v Hv. rewrite Hms by assumption.
  now apply (mod_width_testbit HT).
Qed.

(** ** Lists and maps *)
Lemma for_emit {W} (emit : sevent -> W -> bool * W) (f : nat -> sevent) l : forall w,
  for_ctrl (B := W) l w (fun bit w => let '(ok, w) := emit (f bit) w in Ret (if negb ok then Return w else Next w))
  = Ret (let '(ok, w) := perform emit (map f l) w in if ok then inl w else inr w).
Proof.
  induction l as [|v l IH]; intros w; cbn [for_ctrl map perform]; [reflexivity|].
  destruct (emit (f v) w) as [[|] w']; cbn [negb bind]; [apply IH|reflexivity].
Qed.
Lemma ser_elems {W} (emit : sevent -> W -> bool * W) (start : N -> sevent) (f : nat -> sevent) (fin : sevent) s l w :
  Valid s -> lists_set inp (mem s) l ->
  (len <- es_len T s ;;
   let '(ok, w) := emit (start len) w in
   if negb ok then Ret (false, w)
   else
     it <- es_into_iter T s ;;
     r <- es_for T (es_for_fuel T) it w (fun bit w =>
            let '(ok, w) := emit (f bit) w in Ret (if negb ok then Return w else Next w)) ;;
     match r with inr w => Ret (false, w) | inl w => Ret (emit fin w) end)
  = Ret (perform emit (start (N.of_nat (length l)) :: map f l ++ [fin]) w).
Proof.
  intros Hs Hl. rewrite (len_spec HT) by assumption. rewrite bind_ret, <- (lists_set_length _ _ _ Hl).
  cbn [perform]. destruct (emit (start _) w) as [[|] w1]; cbn [negb]; [|reflexivity].
  rewrite perform_app.
  assert (E : forall {X Y Z} (m : M X) (g : X -> M Y) (h : Y -> M Z), (x <- m ;; y <- g x ;; h y) = (y <- (x <- m ;; g x) ;; h y)).
  { intros X Y Z [] g h; reflexivity. }
  rewrite E. unfold es_into_iter. rewrite (es_for_iter HT _ s l _ Hs Hl), for_emit, bind_ret.
  destruct (perform emit (map f l) w1) as [[|] w2]; [|reflexivity]. cbn [perform].
  destruct (emit fin w2) as [[|] w3]; reflexivity.
Qed.
Lemma ser_list_spec {W} (emit : sevent -> W -> bool * W) s l w : Valid s -> lists_set inp (mem s) l ->
  ser_list T emit s w = Ret (perform emit (EvSeq (N.of_nat (length l)) :: map EvElem l ++ [EvSeqEnd]) w).
Proof. exact (ser_elems emit EvSeq EvElem EvSeqEnd s l w). Qed.
Lemma ser_map_spec {W} (emit : sevent -> W -> bool * W) s l w : Valid s -> lists_set inp (mem s) l ->
  ser_map T emit s w = Ret (perform emit (EvMap (N.of_nat (length l)) :: map (fun v => EvEntry v true) l ++ [EvMapEnd]) w).
Proof. exact (ser_elems emit EvMap (fun v => EvEntry v true) EvMapEnd s l w). Qed.

Lemma de_list_loop_spec items : forall accum, Valid accum -> (forall v, In (Ok v) items -> variant inp v) ->
  match all_ok items with
  | Err e => de_list_loop T items accum = Ret (Err e)
  | Ok vs => exists s, de_list_loop T items accum = Ret (Ok s) /\ Valid s /\
               forall v, variant inp v -> mem s v = mem accum v || existsb (Nat.eqb v) vs
  end.
Proof.
  induction items as [|[a|e] items IH]; intros accum Ha Hv; cbn [all_ok de_list_loop].
  - exists accum. split; [reflexivity|]. split; [assumption|]. intros. now rewrite orb_false_r.
  - destruct (bitor_spec HT accum (OVar a)) as (s & E & Hs & Hm); [assumption|apply Hv; now left|].
    unfold es_bitor_assign. rewrite E, bind_ret.
    specialize (IH s Hs (fun v H => Hv v (or_intror H))). destruct (all_ok items) as [vs|e]; [|exact IH].
    destruct IH as (s' & E' & Hs' & Hm'). exists s'. split; [assumption|]. split; [assumption|].
    intros v Hvv. rewrite Hm', Hm by assumption. cbn [omem existsb]. now rewrite orb_assoc.
  - reflexivity.
Qed.
Lemma de_list_spec items : (forall v, In (Ok v) items -> variant inp v) ->
  match all_ok items with
  | Err e => de_list T (Ok items) = Ret (Err e)
  | Ok vs => exists s, de_list T (Ok items) = Ret (Ok s) /\ Valid s /\
               forall v, variant inp v -> mem s v = existsb (Nat.eqb v) vs
  end.
Proof.
  intros Hv. pose proof (de_list_loop_spec items (es_new T) (empty_valid HT) Hv) as H. cbn [de_list].
  destruct (all_ok items); [|exact H]. destruct H as (s & E & Hs & Hm). exists s. split; [assumption|]. split; [assumption|].
  intros v Hvv. rewrite Hm by assumption. change (es_new T) with (es_empty T). now rewrite (empty_mem HT).
Qed.

Lemma de_map_loop_spec items : forall accum, Valid accum -> (forall v b, In (Ok (v, b)) items -> variant inp v) ->
  match all_ok items with
  | Err e => de_map_loop T items accum = Ret (Err e)
  | Ok es => exists s, de_map_loop T items accum = Ret (Ok s) /\ Valid s /\
               forall v, variant inp v -> mem s v = mem accum v || existsb (fun e => (v =? fst e)%nat && snd e) es
  end.
Proof.
  induction items as [|[[a b]|e] items IH]; intros accum Ha Hv; cbn [all_ok de_map_loop].
  - exists accum. split; [reflexivity|]. split; [assumption|]. intros. now rewrite orb_false_r.
  - assert (Hst : exists s, (if b then es_bitor_assign T accum (OVar a) else Ret accum) = Ret s /\ Valid s /\
              forall v, variant inp v -> mem s v = mem accum v || ((v =? a)%nat && b)).
    { destruct b.
      - destruct (bitor_spec HT accum (OVar a)) as (s & E & Hs & Hm); [assumption|apply (Hv a true); now left|].
        exists s. split; [exact E|]. split; [assumption|]. intros v Hvv. rewrite Hm by assumption. cbn [omem]. now rewrite andb_true_r.
      - exists accum. split; [reflexivity|]. split; [assumption|]. intros. now rewrite andb_false_r, orb_false_r. }
    destruct Hst as (s & E & Hs & Hm). rewrite E, bind_ret.
    specialize (IH s Hs (fun v b' H => Hv v b' (or_intror H))). destruct (all_ok items) as [vs|e]; [|exact IH].
    destruct IH as (s' & E' & Hs' & Hm'). exists s'. split; [assumption|]. split; [assumption|].
    intros v Hvv. rewrite Hm', Hm by assumption. cbn [existsb fst snd]. now rewrite orb_assoc.
  - reflexivity.
Qed.
Lemma de_map_spec items : (forall v b, In (Ok (v, b)) items -> variant inp v) ->
  match all_ok items with
  | Err e => de_map T (Ok items) = Ret (Err e)
  | Ok es => exists s, de_map T (Ok items) = Ret (Ok s) /\ Valid s /\
               forall v, variant inp v -> mem s v = existsb (fun e => (v =? fst e)%nat && snd e) es
  end.
Proof.
  intros Hv. pose proof (de_map_loop_spec items (es_new T) (empty_valid HT) Hv) as H. cbn [de_map].
  destruct (all_ok items); [|exact H]. destruct H as (s & E & Hs & Hm). exists s. split; [assumption|]. split; [assumption|].
  intros v Hvv. rewrite Hm by assumption. change (es_new T) with (es_empty T). now rewrite (empty_mem HT).
Qed.

(** ** Arrays *)
Lemma ser_array_end_spec l : exists e, ser_array_end l = Ret e /\ (e <= length l)%nat /\
  (forall i, (e <= i)%nat -> nth i l 0 = 0) /\
  (((forall i, nth i l 0 = 0) /\ e = Nat.min (length l) 1) \/
   (exists h, nth h l 0 <> 0 /\ (forall i, (h < i)%nat -> nth i l 0 = 0) /\ e = Nat.min (length l) (h + 2))).
Proof.
  unfold ser_array_end.
  assert (Hgo : forall k e, (k <= length l)%nat -> (e <= length l)%nat ->
    (forall i, (k <= i)%nat -> nth i l 0 = 0) -> e = Nat.min (length l) (S k) ->
    exists e', for_ctrl (B := Empty_set) (rev (seq 0 k)) e (fun i end_ =>
         x <- get l i ;; Ret (if negb (x =? 0) then Break end_ else Next (S i))) = Ret (inl e') /\
       (e' <= length l)%nat /\ (forall i, (e' <= i)%nat -> nth i l 0 = 0) /\
       (((forall i, nth i l 0 = 0) /\ e' = Nat.min (length l) 1) \/
        (exists h, nth h l 0 <> 0 /\ (forall i, (h < i)%nat -> nth i l 0 = 0) /\ e' = Nat.min (length l) (h + 2)))).
  { induction k as [|k IH]; intros e Hk He Hz Hek.
    - exists e. cbn. repeat split; auto.
      + intros i _. apply Hz. lia.
      + left. split; [intros i; apply Hz; lia|lia].
    - rewrite seq_S, rev_app_distr. cbn [rev app plus]. cbn [for_ctrl]. rewrite (get_nth l k 0) by lia. rewrite !bind_ret.
      destruct (N.eqb_spec (nth k l 0) 0) as [E|E]; cbn [negb].
      + apply IH; try lia. intros i Hi. destruct (Nat.eq_dec i k) as [-> |]; [assumption|apply Hz; lia].
      + exists e. repeat split; auto.
        * intros i Hi. destruct (Nat.lt_ge_cases i (length l)); [apply Hz; lia|now apply nth_overflow].
        * right. exists k. split; [assumption|]. split; [intros i Hi; apply Hz; lia|lia]. }
  destruct (Hgo (length l) (length l)) as (e & E & H1 & H2 & H3); try lia.
  - intros i Hi. now apply nth_overflow.
  - exists e. unfold range. rewrite Nat.sub_0_r, E, bind_ret. auto.
Qed.
(** The number of words written for the value [x] when [k] words are available. *)
Definition written (k x : N) : N := if x =? 0 then 1 else N.min k (N.log2 x / 64 + 2).
Lemma top_word l h : words_ok l -> nth h l 0 <> 0 -> (forall i, (h < i)%nat -> nth i l 0 = 0) ->
  lval l <> 0 /\ N.log2 (lval l) / 64 = N.of_nat h.
Proof.
  intros Hl Hh Hz.
  set (j := N.log2 (nth h l 0)).
  assert (Hj : N.testbit (nth h l 0) j = true) by now apply N.bit_log2.
  assert (Hj64 : j < 64).
  { destruct (N.lt_ge_cases j 64) as [|Hge]; [assumption|].
    rewrite (testbit_high _ 64) in Hj; [discriminate| |assumption]. now apply limbs_ok_nth. }
  assert (Hb : N.testbit (lval l) (64 * N.of_nat h + j) = true) by now rewrite lval_testbit_at.
  assert (H0 : lval l <> 0) by (intros E; rewrite E, N.bits_0 in Hb; discriminate).
  split; [assumption|].
  assert (H1 : 64 * N.of_nat h + j <= N.log2 (lval l)).
  { destruct (N.le_gt_cases (64 * N.of_nat h + j) (N.log2 (lval l))); [assumption|].
    rewrite N.bits_above_log2 in Hb by assumption. discriminate. }
  assert (H2 : (N.to_nat (N.log2 (lval l) / 64) <= h)%nat).
  { destruct (Nat.le_gt_cases (N.to_nat (N.log2 (lval l) / 64)) h) as [|Hgt]; [assumption|]. exfalso.
    pose proof (N.bit_log2 _ H0) as Hc. rewrite lval_testbit in Hc by assumption.
    rewrite (Hz _ Hgt), N.bits_0 in Hc. discriminate. }
  lia.
Qed.
Lemma emit_all_perform {W} (emit : sevent -> W -> bool * W) l w : emit_all emit l w = perform emit l w.
Proof.
  revert w. induction l as [|e l IH]; intros w; cbn [emit_all perform]; [reflexivity|].
  destruct (emit e w) as [[|] w']; auto.
Qed.
Lemma ser_array_spec s : Valid s ->
  exists ws, words_ok ws /\ (length ws <= r_preferred_array_len R)%nat /\ lval ws = val s /\
    N.of_nat (length ws) = written (N.of_nat (r_preferred_array_len R)) (val s) /\
    forall W (emit : sevent -> W -> bool * W) w,
      ser_array T emit s w = Ret (perform emit (EvSeq (N.of_nat (length ws)) :: map EvLimb ws ++ [EvSeqEnd]) w).
Proof.
  intros Hs. set (k := r_preferred_array_len R). set (arr := limbs k (val s)).
  destruct (ser_array_end_spec arr) as (e & E & He & Hz & Htrim).
  assert (Hfit : fits (inp := inp) (mem s) (64 * N.of_nat k) = true) by (apply (fits_pref HT); lia).
  exists (firstn e arr).
  assert (Harr : words_ok arr) by apply limbs_limbs_ok.
  assert (Hok : words_ok (firstn e arr)).
  { apply Forall_forall. intros x Hx. unfold words_ok in Harr. rewrite Forall_forall in Harr. apply Harr.
    rewrite <- (firstn_skipn e arr). apply in_or_app. now left. }
  assert (Ha : length arr = k) by apply limbs_length.
  assert (Hl : length (firstn e arr) = e) by (rewrite firstn_length; lia).
  assert (Hk : (0 < k)%nat) by apply (rl_pref_pos _ _ _ _ _ HR).
  assert (Hval : lval arr = val s) by exact (lval_limbs_valid HT s k Hs Hfit).
  split; [exact Hok|]. split; [lia|]. split; [|split].
  - rewrite <- Hval. apply bit_eq. intros i.
    rewrite !lval_testbit by assumption. f_equal.
    set (j := N.to_nat (i / 64)). destruct (Nat.lt_ge_cases j e).
    + rewrite <- (firstn_skipn e arr) at 2. rewrite app_nth1; [reflexivity|]. rewrite firstn_length. lia.
    + rewrite nth_overflow by (rewrite firstn_length; lia). symmetry. now apply Hz.
  - rewrite Hl. unfold written. destruct Htrim as [[H0 ->]|(h & Hh & Hhz & ->)].
    + replace (val s) with 0; [rewrite N.eqb_refl; lia|]. rewrite <- Hval. symmetry. apply bit_eq. intros i.
      now rewrite lval_testbit, H0, !N.bits_0 by assumption.
    + destruct (top_word arr h Harr Hh Hhz) as [Hn Hlog]. rewrite <- Hval.
      destruct (N.eqb_spec (lval arr) 0); [contradiction|]. rewrite Hlog. lia.
  - intros W emit w. unfold ser_array, es_as_array. rewrite (try_as_array_spec HT) by assumption. fold k. rewrite Hfit.
    rewrite bind_ret. cbn [expect]. rewrite bind_ret. fold arr. rewrite E, bind_ret. now rewrite emit_all_perform.
Qed.

Lemma fill_spec items : forall accum i, (i < length accum)%nat ->
  de_array_fill items accum i =
  match all_ok (firstn (length accum - i) items) with
  | Err e => Ret (Err e)
  | Ok ws => Ret (Ok (firstn i accum ++ ws ++ skipn (i + length ws) accum, skipn (length accum - i) items))
  end.
Proof.
  induction items as [|[x|e] items IH]; intros accum i Hi; cbn [de_array_fill].
  - rewrite firstn_nil, skipn_nil. cbn [all_ok length app]. now rewrite Nat.add_0_r, firstn_skipn.
  - destruct (length accum - i)%nat as [|k] eqn:Ek; [lia|]. cbn [firstn skipn all_ok].
    rewrite set_ret by assumption. rewrite bind_ret, upd_length.
    assert (Hf : firstn (S i) (upd accum i x) = firstn i accum ++ [x]).
    { clear - Hi. revert i Hi. induction accum as [|a accum IHa]; intros [|i] Hi; cbn [length] in Hi; try lia; [reflexivity|].
      change (a :: firstn (S i) (upd accum i x) = a :: firstn i accum ++ [x]). f_equal. apply IHa. lia. }
    assert (Hk : forall j, (i < j)%nat -> skipn j (upd accum i x) = skipn j accum).
    { clear. revert i. induction accum as [|a accum IHa]; intros [|i] [|j] Hj; try lia; try reflexivity.
      cbn [upd skipn]. apply IHa. lia. }
    destruct (Nat.eqb_spec (S i) (length accum)) as [E|E].
    + replace k with 0%nat by lia. cbn [firstn all_ok length skipn app].
      assert (Hfs : upd accum i x = firstn i accum ++ x :: skipn (i + 1) accum).
      { rewrite <- (firstn_skipn (S i) (upd accum i x)), Hf, Hk by lia. rewrite <- app_assoc. cbn [app].
        now rewrite Nat.add_1_r. }
      now rewrite Hfs.
    + rewrite IH by (rewrite upd_length; lia). rewrite upd_length. replace (length accum - S i)%nat with k by lia.
      destruct (all_ok (firstn k items)) as [ws|e]; [|reflexivity]. do 3 f_equal.
      rewrite Hf, Hk by lia. rewrite <- app_assoc. cbn [app length].
      replace (S i + length ws)%nat with (i + S (length ws))%nat by lia. reflexivity.
  - destruct (length accum - i)%nat as [|k] eqn:Ek; [lia|]. reflexivity.
Qed.
Lemma rest_spec items : de_array_rest items = match all_ok items with Ok _ => Ok tt | Err e => Err e end.
Proof. induction items as [|[x|e] items IH]; cbn [de_array_rest all_ok]; auto. rewrite IH. now destruct (all_ok items). Qed.

Lemma words_ok_firstn k ws : words_ok ws -> words_ok (firstn k ws).
Proof.
  intros H. apply Forall_forall. intros x Hx. unfold words_ok in H. rewrite Forall_forall in H. apply H.
  rewrite <- (firstn_skipn k ws). apply in_or_app. now left.
Qed.
Lemma de_array_spec items : (forall x, In (Ok x) items -> x < 2 ^ 64) ->
  match all_ok items with
  | Err e => de_array T (Ok items) = Ret (Err e)
  | Ok ws =>
      let ws := firstn (r_preferred_array_len R) ws in
      (only_variant_bits inp (lval ws) /\
        exists s, de_array T (Ok items) = Ret (Ok s) /\ Valid s /\ val s = lval ws) \/
      (~ only_variant_bits inp (lval ws) /\
        de_array T (Ok items) = Panic (PExpect "Bitset contains invalid variants."))
  end.
Proof.
  intros Hx. unfold de_array. set (k := r_preferred_array_len R).
  assert (Hk : (0 < k)%nat) by apply (rl_pref_pos _ _ _ _ _ HR).
  rewrite fill_spec by (rewrite repeat_length; exact Hk). rewrite repeat_length, Nat.sub_0_r.
  assert (Ei : all_ok items = match all_ok (firstn k items) with
    | Err e => Err e
    | Ok r => match all_ok (skipn k items) with Err e => Err e | Ok r' => Ok (r ++ r') end end)
    by (rewrite <- all_ok_app, firstn_skipn; reflexivity).
  rewrite Ei. clear Ei.
  destruct (all_ok (firstn k items)) as [ws|e] eqn:E1; [|reflexivity].
  rewrite bind_ret. cbn [try_]. rewrite rest_spec.
  destruct (all_ok (skipn k items)) as [ws'|e] eqn:E2; [|reflexivity]. cbn [try_].
  assert (Hfk : firstn k (ws ++ ws') = ws).
  { apply all_ok_length in E1 as L1. apply all_ok_length in E2 as L2. rewrite firstn_length in L1. rewrite skipn_length in L2.
    destruct (Nat.le_gt_cases (length items) k).
    - destruct ws'; [|cbn [length] in L2; lia]. rewrite app_nil_r. apply firstn_all2. lia.
    - rewrite firstn_app. replace (k - length ws)%nat with 0%nat by lia. cbn [firstn]. rewrite app_nil_r. apply firstn_all2. lia. }
  cbv zeta. rewrite Hfk. cbn [firstn app plus].
  assert (Hws : words_ok ws).
  { apply Forall_forall. intros x Hin. apply Hx. rewrite <- (firstn_skipn k items). apply in_or_app. left.
    eapply all_ok_In; eassumption. }
  assert (Hsk : forall j k, skipn j (repeat 0 k) = repeat 0 (k - j)).
  { clear. induction j as [|j IH]; intros [|k]; try reflexivity. cbn [repeat skipn]. apply IH. }
  rewrite Hsk.
  assert (Hl : words_ok (ws ++ repeat 0 (k - length ws))) by (apply Forall_app; split; [exact Hws|apply limbs_ok_repeat]).
  assert (El : lval (ws ++ repeat 0 (k - length ws)) = lval ws) by (apply bit_eq; intros i; now apply testbit_app0).
  pose proof (from_array_spec HT _ Hl) as HE. unfold Expects in HE. rewrite El in HE.
  destruct HE as [[Ho (s & -> & Hs & Ev)]|[Ho ->]]; [left|right]; split; auto. exists s. auto.
Qed.
Lemma de_array_ok items s : (forall x, In (Ok x) items -> x < 2 ^ 64) -> de_array T (Ok items) = Ret (Ok s) -> Valid s.
Proof.
  intros Hx H. pose proof (de_array_spec items Hx) as HS. destruct (all_ok items) as [ws|e]; [|congruence].
  destruct HS as [[_ (s' & E & Hs & _)]|[_ E]]; congruence.
Qed.
End Serde.

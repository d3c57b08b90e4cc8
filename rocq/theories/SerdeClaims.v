(** * Claims about the serde code *)
From Verif Require Import Base BaseFacts LimbFacts Prim ArrayRepr Repr ReprLaws PrimFacts ArrayFacts.
From Verif Require Import Syntax Spec Derive EnumSet Serde ApiSpec DeriveFacts TyFacts SetFacts IterFacts ConvFacts SerdeFacts ReachFacts SetClaims ConvClaims DeriveClaims.
Ltac Zify.zify_post_hook ::= Z.div_mod_to_equations.

Lemma serialize_int {W} T (emit : sevent -> W -> bool * W) s w t : sr_ity (et_serde T) = Some t ->
  es_serialize T emit s w = ser_int T emit t s w.
Proof. unfold es_serialize. destruct (et_serde T); intros H; inversion H; reflexivity. Qed.
Lemma deserialize_int T src t : sr_ity (et_serde T) = Some t -> es_deserialize T src = de_int T t (src_int src t).
Proof. unfold es_deserialize. destruct (et_serde T); intros H; inversion H; reflexivity. Qed.

(** ** C32 *)
Lemma int_format pw inp T s A t : Supported pw inp T -> Reachable pw inp T s -> Denotes inp T s A ->
  sr_ity (et_serde T) = Some t ->
  set_value inp A < 2 ^ ity_bits pw t /\
  (forall W (emit : sevent -> W -> bool * W) w, es_serialize T emit s w = Ret (emit (EvInt t (set_value inp A)) w)) /\
  (serde_compiles T = true -> forall src, src_int src t = Ok (set_value inp A) -> es_deserialize T src = Ret (Ok s)).
Proof.
  intros HS HR HA Ht. start. members s.
  pose proof (set_value_ext inp _ A Hm) as Ev.
  assert (Hmax : max_discr inp < ity_bits pw t).
  { destruct (sup_derive _ _ _ HS) as [md Hmd]. destruct (derive_serde md pw inp T Hmd) as (_ & _ & Hb). now apply Hb, sr_ity_bits. }
  assert (Hlt : set_value inp A < 2 ^ ity_bits pw t).
  { apply set_value_lt; [apply (D_nodup HT)|]. intros v Hv _. apply discr_In, max_ge in Hv. fold (max_discr inp) in Hv. lia. }
  split; [assumption|]. split.
  - intros W emit w. rewrite (serialize_int T emit s w t Ht). rewrite (ser_int_spec HT emit t s w HR Hmax). now rewrite Ev.
  - intros Hc src Es. rewrite (deserialize_int T src t Ht), Es.
    destruct (serde_int_facts HS t Ht Hc) as [_ Hl].
    assert (Hov : only_variant_bits inp (set_value inp A)).
    { rewrite <- Ev, <- (valid_val HT) by assumption. exact (valid_only_bits s HR). }
    destruct (de_int_spec HT t (set_value inp A) Hmax Hlt Hl) as [[E _]|[_ (s' & E & Hs' & Hm')]].
    + apply unknown_bits_spec in Hov. rewrite Hov, andb_false_r in E. discriminate.
    + rewrite E. do 2 f_equal. apply (valid_ext HT); auto. intros v Hv. rewrite Hm' by assumption.
      unfold bits_set. rewrite <- Ev, <- (valid_val HT) by assumption. reflexivity.
Qed.
Lemma int_input pw inp T t src : Supported pw inp T -> sr_ity (et_serde T) = Some t -> serde_compiles T = true ->
  match src_int src t with
  | Err e => es_deserialize T src = Ret (Err e)
  | Ok x => x < 2 ^ ity_bits pw t ->
      (et_deny_unknown T = true -> ~ only_variant_bits inp x ->
         es_deserialize T src = Ret (Err (DeCustom "enumset contains unknown bits"))) /\
      (et_deny_unknown T = false \/ only_variant_bits inp x ->
         exists s, es_deserialize T src = Ret (Ok s) /\ Denotes inp T s (bits_set inp x))
  end.
Proof.
  intros HS Ht Hc. start. rewrite (deserialize_int T src t Ht).
  destruct (serde_int_facts HS t Ht Hc) as [Hmax Hl].
  destruct (src_int src t) as [x|e]; [|reflexivity]. intros Hx.
  destruct (de_int_spec HT t x Hmax Hx Hl) as [[E Er]|[E (s & Er & Hs & Hm)]]; rewrite Er.
  - apply andb_true_iff in E. destruct E as [Ed Eu]. split; [auto|]. intros [H|H]; [congruence|].
    apply unknown_bits_spec in H. congruence.
  - split.
    + intros Hd Hn. exfalso. apply Hn. rewrite Hd in E. now apply unknown_bits_spec.
    + intros _. exists s. split; [reflexivity|]. now apply (valid_denotes HT).
Qed.

(** ** C33 *)
Lemma list_size inp A l : lists_set inp A l -> NoDup (discrs inp) -> set_size inp A = N.of_nat (length l).
Proof.
  intros [Hs Hin] Hn. unfold set_size. f_equal. apply Permutation.Permutation_length, Permutation.NoDup_Permutation.
  - apply NoDup_filter, seq_NoDup.
  - clear Hin. induction Hs as [|a l Hs IH Hf]; constructor; auto. intros Ha. rewrite Forall_forall in Hf.
    apply Hf in Ha. unfold discr_lt in Ha. lia.
  - intros v. rewrite filter_In, Hin. unfold variants, variant. rewrite in_seq. intuition lia.
Qed.
Lemma list_format pw inp T s A : Supported pw inp T -> Reachable pw inp T s -> Denotes inp T s A ->
  et_serde T = SList ->
  exists l, lists_set inp A l /\
    (forall W (emit : sevent -> W -> bool * W) w,
       es_serialize T emit s w = Ret (perform emit (EvSeq (set_size inp A) :: map EvElem l ++ [EvSeqEnd]) w)) /\
    (forall src, src_list src = Ok (map Ok l) -> es_deserialize T src = Ret (Ok s)).
Proof.
  intros HS HR HA Ht. start. members s. destruct (mem_list HT s HR) as (l & Hl & _).
  pose proof (lists_set_ext _ _ _ _ Hm Hl) as HlA.
  exists l. split; [assumption|]. split.
  - intros W emit w. unfold es_serialize. rewrite Ht. rewrite (ser_list_spec HT emit s l w HR Hl).
    now rewrite (list_size inp A l HlA (D_nodup HT)).
  - intros src Es. unfold es_deserialize. rewrite Ht, Es.
    assert (Hv : forall v, In (Ok v) (map (Ok (E := de_error)) l) -> variant inp v).
    { intros v Hv. apply in_map_iff in Hv. destruct Hv as (u & E & Hu). inversion E; subst. apply HlA in Hu. tauto. }
    pose proof (de_list_spec HT (map Ok l) Hv) as HD. rewrite all_ok_map_Ok in HD.
    destruct HD as (s' & -> & Hs' & Hm'). do 2 f_equal. apply (valid_ext HT); auto. intros v Hv'.
    rewrite Hm' by assumption. apply eq_true_iff_eq. rewrite existsb_exists. split.
    + intros (u & Hu & E). apply Nat.eqb_eq in E. subst u. apply Hl in Hu. tauto.
    + intros E. exists v. rewrite Nat.eqb_refl. split; [|reflexivity]. now apply Hl.
Qed.
Lemma list_input pw inp T src : Supported pw inp T -> SourceOk pw inp src -> et_serde T = SList ->
  match src_list src with
  | Err e => es_deserialize T src = Ret (Err e)
  | Ok items =>
      match all_ok items with
      | Err e => es_deserialize T src = Ret (Err e)
      | Ok vs => exists s, es_deserialize T src = Ret (Ok s) /\ Denotes inp T s (fun v => existsb (Nat.eqb v) vs)
      end
  end.
Proof.
  intros HS Ho Ht. start. unfold es_deserialize. rewrite Ht.
  destruct (src_list src) as [items|e] eqn:Es; [|reflexivity].
  pose proof (de_list_spec HT items (fun v => so_list _ _ _ Ho items v Es)) as HD.
  destruct (all_ok items) as [vs|e]; [|assumption]. destruct HD as (s & E & Hs & Hm). exists s. split; [assumption|].
  now apply (valid_denotes HT).
Qed.

(** ** C34 *)
Lemma map_format pw inp T s A : Supported pw inp T -> Reachable pw inp T s -> Denotes inp T s A ->
  et_serde T = SMap ->
  exists l, lists_set inp A l /\
    (forall W (emit : sevent -> W -> bool * W) w,
       es_serialize T emit s w = Ret (perform emit (EvMap (set_size inp A) :: map (fun v => EvEntry v true) l ++ [EvMapEnd]) w)) /\
    (forall src, src_map src = Ok (map (fun v => Ok (v, true)) l) -> es_deserialize T src = Ret (Ok s)).
Proof.
  intros HS HR HA Ht. start. members s. destruct (mem_list HT s HR) as (l & Hl & _).
  pose proof (lists_set_ext _ _ _ _ Hm Hl) as HlA.
  exists l. split; [assumption|]. split.
  - intros W emit w. unfold es_serialize. rewrite Ht. rewrite (ser_map_spec HT emit s l w HR Hl).
    now rewrite (list_size inp A l HlA (D_nodup HT)).
  - intros src Es. unfold es_deserialize. rewrite Ht, Es.
    assert (Em : map (fun v => Ok (v, true)) l = map (Ok (E := de_error)) (map (fun v => (v, true)) l)) by now rewrite map_map.
    rewrite Em.
    assert (Hv : forall v b, In (Ok (v, b)) (map (Ok (E := de_error)) (map (fun v => (v, true)) l)) -> variant inp v).
    { intros v b Hv. rewrite map_map in Hv. apply in_map_iff in Hv. destruct Hv as (u & E & Hu). inversion E; subst.
      apply HlA in Hu. tauto. }
    pose proof (de_map_spec HT _ Hv) as HD. rewrite all_ok_map_Ok in HD.
    destruct HD as (s' & -> & Hs' & Hm'). do 2 f_equal. apply (valid_ext HT); auto. intros v Hv'.
    rewrite Hm' by assumption. apply eq_true_iff_eq. rewrite existsb_exists. split.
    + intros ([u b] & Hu & E). cbn [fst snd] in E. apply andb_true_iff in E. destruct E as [E _]. apply Nat.eqb_eq in E. subst u.
      apply in_map_iff in Hu. destruct Hu as (u & E & Hu). inversion E; subst. apply Hl in Hu. tauto.
    + intros E. exists (v, true). cbn [fst snd]. rewrite Nat.eqb_refl. split; [|reflexivity]. apply in_map_iff. exists v.
      split; [reflexivity|]. now apply Hl.
Qed.
Lemma map_input pw inp T src : Supported pw inp T -> SourceOk pw inp src -> et_serde T = SMap ->
  match src_map src with
  | Err e => es_deserialize T src = Ret (Err e)
  | Ok items =>
      match all_ok items with
      | Err e => es_deserialize T src = Ret (Err e)
      | Ok es => exists s, es_deserialize T src = Ret (Ok s) /\
                   Denotes inp T s (fun v => existsb (fun e => Nat.eqb v (fst e) && snd e) es)
      end
  end.
Proof.
  intros HS Ho Ht. start. unfold es_deserialize. rewrite Ht.
  destruct (src_map src) as [items|e] eqn:Es; [|reflexivity].
  pose proof (de_map_spec HT items (fun v b => so_map _ _ _ Ho items v b Es)) as HD.
  destruct (all_ok items) as [vs|e]; [|assumption]. destruct HD as (s & E & Hs & Hm). exists s. split; [assumption|].
  now apply (valid_denotes HT).
Qed.

(** ** C35 *)
Lemma array_format pw inp T s A : Supported pw inp T -> Reachable pw inp T s -> Denotes inp T s A ->
  et_serde T = SArray ->
  exists ws, words_hold inp ws A (64 * N.of_nat (length ws)) /\
    (forall v, variant inp v -> A v = true -> discr inp v < 64 * N.of_nat (length ws)) /\
    N.of_nat (length ws) = words_written inp A /\
    (forall W (emit : sevent -> W -> bool * W) w,
       es_serialize T emit s w = Ret (perform emit (EvSeq (N.of_nat (length ws)) :: map EvLimb ws ++ [EvSeqEnd]) w)) /\
    (forall src, src_words src = Ok (map Ok ws) -> es_deserialize T src = Ret (Ok s)).
Proof.
  intros HS HR HA Ht. start. members s.
  destruct (ser_array_spec HT s HR) as (ws & Hok & Hlen & Hv & Hw & Hser).
  destruct (sup_derive _ _ _ HS) as [md Hmd]. destruct (storage_holds md pw inp T Hmd) as (_ & Hpl & _).
  assert (Hall : forall v, variant inp v -> A v = true -> discr inp v < 64 * N.of_nat (length ws)).
  { intros v Hv' HAv. destruct (N.lt_ge_cases (discr inp v) (64 * N.of_nat (length ws))) as [|Hge]; [assumption|].
    rewrite <- Hm in HAv by assumption. unfold SetFacts.mem in HAv. rewrite <- Hv in HAv.
    rewrite (testbit_high _ _ _ (lval_lt ws Hok) Hge) in HAv. discriminate. }
  exists ws. split; [|split; [exact Hall|split; [|split]]].
  - split; [exact Hok|]. intros i. rewrite (word_bit_lval ws i Hok), Hv, (valid_val HT s HR), (set_value_testbit inp _ i (D_nodup HT)).
    split.
    + intros (v & Hv' & Hmv & E). rewrite Hm in Hmv by assumption. exists v. repeat split; auto. rewrite <- E. now apply Hall.
    + intros (v & Hv' & E & HAv & _). exists v. rewrite Hm by assumption. auto.
  - rewrite Hw, Hpl, (valid_val HT s HR), (set_value_ext inp _ _ Hm). reflexivity.
  - intros W emit w. unfold es_serialize. rewrite Ht. apply Hser.
  - intros src Es. unfold es_deserialize. rewrite Ht, Es.
    assert (Hx : forall x, In (Ok x) (map (Ok (E := de_error)) ws) -> x < 2 ^ 64).
    { intros x Hx. apply in_map_iff in Hx. destruct Hx as (y & E & Hy). inversion E; subst.
      unfold words_ok in Hok. rewrite Forall_forall in Hok. now apply Hok. }
    pose proof (de_array_spec HT (map Ok ws) Hx) as HD. rewrite all_ok_map_Ok in HD. cbv zeta in HD.
    rewrite firstn_all2 in HD by assumption. rewrite Hv in HD.
    destruct HD as [[_ (s' & -> & Hs' & E)]|[Hn _]].
    + do 2 f_equal. now apply (valid_same_val HT).
    + exfalso. apply Hn. exact (valid_only_bits s HR).
Qed.
Lemma array_input pw inp T src : Supported pw inp T -> SourceOk pw inp src -> et_serde T = SArray ->
  match src_words src with
  | Err e => es_deserialize T src = Ret (Err e)
  | Ok items =>
      match all_ok items with
      | Err e => es_deserialize T src = Ret (Err e)
      | Ok ws =>
          let used := firstn (N.to_nat (storage_words (storage_of inp))) ws in
          (only_variant_words inp used ->
             exists s, es_deserialize T src = Ret (Ok s) /\ Denotes inp T s (fun v => word_bit ws (discr inp v))) /\
          (~ only_variant_words inp used ->
             es_deserialize T src = Panic (PExpect "Bitset contains invalid variants."))
      end
  end.
Proof.
  intros HS Ho Ht. start. unfold es_deserialize. rewrite Ht.
  destruct (src_words src) as [items|e] eqn:Es; [|reflexivity].
  pose proof (de_array_spec HT items (fun v => so_words _ _ _ Ho items v Es)) as HD.
  destruct (all_ok items) as [ws|e] eqn:Ei; [|assumption]. cbv zeta in HD |- *.
  destruct (sup_derive _ _ _ HS) as [md Hmd]. destruct (storage_holds md pw inp T Hmd) as (_ & Hpl & Hw & _).
  replace (N.to_nat (storage_words (storage_of inp))) with (r_preferred_array_len (et_repr T)) by lia.
  set (k := r_preferred_array_len (et_repr T)) in *.
  assert (Hok : words_ok ws).
  { apply Forall_forall. intros x Hx. apply (so_words _ _ _ Ho items x Es). eapply all_ok_In; eassumption. }
  assert (Hok' : words_ok (firstn k ws)) by now apply words_ok_firstn.
  rewrite (only_words_lval inp (firstn k ws) Hok').
  destruct HD as [[Hb (s & E & Hs & Ev)]|[Hb E]]; (split; [intros HO; try tauto|intros HO; try tauto]).
  exists s. split; [assumption|]. apply (valid_denotes HT); [assumption|]. intros v Hv.
  unfold SetFacts.mem. rewrite Ev, <- (word_bit_lval _ _ Hok'). unfold word_bit. f_equal.
  assert (Hlt : (N.to_nat (discr inp v / 64) < k)%nat).
  { pose proof (pref_len_width HT) as Hp. fold k in Hp. specialize (Hw v Hv). lia. }
  clear - Hlt. revert Hlt. generalize (N.to_nat (discr inp v / 64)). revert ws.
  induction k as [|k IH]; intros [|x ws] [|j] Hj; cbn [firstn nth]; try lia; try reflexivity. apply IH. lia.
Qed.

(** ** C36 *)
Lemma deserialized_reachable pw inp T src s : Supported pw inp T -> serde_compiles T = true -> SourceOk pw inp src ->
  es_deserialize T src = Ret (Ok s) -> Reachable pw inp T s.
Proof.
  intros HS Hc Ho E.
  destruct (sr_ity (et_serde T)) as [t|] eqn:Et.
  - rewrite (deserialize_int T src t Et) in E. eapply R_de_int; eauto. intros x. apply (so_int _ _ _ Ho t x).
  - unfold es_deserialize in E. destruct (et_serde T) eqn:Es; try discriminate.
    + eapply R_de_list; [|eassumption]. intros items v. apply (so_list _ _ _ Ho items v).
    + eapply R_de_map; [|eassumption]. intros items v b. apply (so_map _ _ _ Ho items v b).
    + eapply R_de_array; [assumption| |eassumption]. intros items x. apply (so_words _ _ _ Ho items x).
Qed.
Lemma deserialized_valid pw inp T src s : Supported pw inp T -> serde_compiles T = true -> SourceOk pw inp src ->
  es_deserialize T src = Ret (Ok s) ->
  (forall i, i < r_width (et_repr T) -> r_has_bit (et_repr T) s i = Ret true -> exists v, variant inp v /\ discr inp v = i) /\
  exists A, Denotes inp T s A /\ es_len T s = Ret (set_size inp A).
Proof.
  intros HS Hc Ho E. pose proof (deserialized_reachable pw inp T src s HS Hc Ho E) as HR.
  split; [now apply (bits_are_variants pw inp T s HS HR)|]. start.
  assert (HA : Denotes inp T s (SetFacts.mem (inp := inp) (val := val) s)) by (apply (reachable_denotes HT HS s HR)).
  eexists. split; [exact HA|]. now apply (len_members pw inp T s _ HS HR HA).
Qed.
Lemma deserialize_returns pw inp T src : Supported pw inp T -> serde_compiles T = true -> SourceOk pw inp src ->
  (exists r, es_deserialize T src = Ret r) \/
  (et_serde T = SArray /\ es_deserialize T src = Panic (PExpect "Bitset contains invalid variants.")).
Proof.
  intros HS Hc Ho. destruct (sr_ity (et_serde T)) as [t|] eqn:Et.
  - left. pose proof (int_input pw inp T t src HS Et Hc) as H. pose proof (so_int _ _ _ Ho t) as Hx.
    destruct (src_int src t) as [x|e] eqn:Es; [|eauto]. destruct (H (Hx x eq_refl)) as [H1 H2].
    destruct (et_deny_unknown T) eqn:Ed.
    + destruct (unknown_bits (inp := inp) x) eqn:Eu.
      * eexists. apply H1; [reflexivity|]. intros Hn. apply unknown_bits_spec in Hn. congruence.
      * apply unknown_bits_spec in Eu. destruct H2 as (s & E & _); eauto.
    + destruct H2 as (s & E & _); eauto.
  - destruct (et_serde T) eqn:Es; try discriminate.
    + left. pose proof (list_input pw inp T src HS Ho Es) as H. destruct (src_list src) as [items|e]; [|eauto].
      destruct (all_ok items); [destruct H as (s & E & _)|]; eauto.
    + left. pose proof (map_input pw inp T src HS Ho Es) as H. destruct (src_map src) as [items|e]; [|eauto].
      destruct (all_ok items); [destruct H as (s & E & _)|]; eauto.
    + start. unfold es_deserialize. rewrite Es. pose proof (so_words _ _ _ Ho) as Hx.
      destruct (src_words src) as [items|e]; [|left; cbn; eauto].
      pose proof (de_array_spec HT items (fun v => Hx items v eq_refl)) as HD.
      destruct (all_ok items); [destruct HD as [[_ (s & E & _)]|[_ E]]|]; eauto.
Qed.

(** ** When the generated code compiles *)
Lemma compiles md pw inp T : derive md pw inp = Ret (Ok T) ->
  (serde_compiles T = false <->
   at_deny_unknown (in_attrs inp) = true /\
   (serialize_name inp = "array"%string \/
    ((exists b, name_bits (serialize_name inp) = Some b) /\ exists n, storage_of inp = SWords n))).
Proof.
  intros H. destruct (serialization_chosen md pw inp T H) as (Es & Ed & _). pose proof (storage_chosen md pw inp T H) as Hst.
  assert (El : (exists n, storage_of inp = SWords n) <-> et_all_lit T = None).
  { destruct (storage_of inp); [destruct Hst as (_ & lit & E & _)|destruct Hst as (_ & E & _)]; rewrite E.
    - split; [intros [n En]; discriminate|discriminate].
    - split; eauto. }
  rewrite El. clear El Hst. rewrite <- Ed. unfold serde_compiles.
  assert (En : serialize_name inp = sr_name (et_serde T)) by (destruct (et_serde T); injection Es as Es; exact Es).
  rewrite En. clear En Es.
  destruct (et_serde T); cbn [sr_name]; destruct (et_deny_unknown T), (et_all_lit T); cbn [negb orb];
    (split; [intros E; try discriminate|intros [E [E'|[[b E'] E'']]]; try discriminate; try reflexivity]);
    (split; [reflexivity|]); auto; right; (split; [eexists; reflexivity|reflexivity]).
Qed.
Lemma accepted md pw inp T has_ser has_de : derive md pw inp = Ret (Ok T) ->
  (serde_accepted has_ser has_de T = false <->
   (at_deny_unknown (in_attrs inp) = true /\
    (serialize_name inp = "array"%string \/
     ((exists b, name_bits (serialize_name inp) = Some b) /\ exists n, storage_of inp = SWords n))) \/
   (In (serialize_name inp) ["list"; "map"]%string /\ (has_ser = false \/ has_de = false))).
Proof.
  intros H. rewrite <- (compiles md pw inp T H). destruct (serialization_chosen md pw inp T H) as (Es & _ & _).
  assert (En : serialize_name inp = sr_name (et_serde T)) by (destruct (et_serde T); injection Es as Es; exact Es).
  rewrite En. clear En Es. unfold serde_accepted. rewrite andb_false_iff.
  destruct (et_serde T); cbn [sr_name In]; rewrite ?andb_false_iff; intuition discriminate.
Qed.
(** The integer literals of the generated code fit their types. *)
Lemma literals_fit md pw inp T : derive md pw inp = Ret (Ok T) ->
  (forall lit, et_all_lit T = Some lit ->
     (forall i, N.testbit lit i = true <-> In i (discrs inp)) /\
     lit < 2 ^ r_width (et_repr T) /\
     (forall t, sr_ity (et_serde T) = Some t -> lit < 2 ^ ity_bits pw t)) /\
  (forall name value, In (name, value) (et_variants T) -> value < 2 ^ 32) /\
  NoDup (map snd (et_variants T)) /\
  es_bit_width T < 2 ^ 32.
Proof.
  intros H. destruct (derive_discriminants md pw inp T H) as (_ & Ev & Hnd & Hmax).
  destruct (serialization_chosen md pw inp T H) as (_ & _ & Hb). destruct (storage_holds md pw inp T H) as (_ & _ & Hw & _).
  destruct (derive_counts md pw inp T H) as (_ & _ & Hbw).
  split; [|split; [|split; [now rewrite Ev|assumption]]].
  - intros lit Hlit. destruct (derive_ok _ _ _ H) as (_ & i & _ & HG).
    assert (Hbits : forall k, N.testbit lit k = true <-> In k (discrs inp)).
    { destruct HG as [w pl l Hok Hw' Hm Hl Hbits Hpl|n all Hc Hn Hwf Hbits]; cbn in Hlit; [|discriminate].
      inversion Hlit; subst. exact Hbits. }
    split; [assumption|].
    assert (Hlt : forall b, (forall v, variant inp v -> discr inp v < b) -> lit < 2 ^ b).
    { intros b Hv. apply lt_pow2_of_bits. intros k Hk. apply not_true_is_false. intros Hc.
      apply Hbits, In_discr in Hc as (v & Hvv & E). apply Hv in Hvv. lia. }
    split; [apply Hlt; exact Hw|]. intros t Ht. apply Hlt. intros v Hv. now apply Hb.
  - intros nm x Hx. apply (in_map snd) in Hx. rewrite Ev in Hx. apply Hmax in Hx. cbn [snd] in Hx. change (2 ^ 32) with 4294967296. lia.
Qed.

(** * Claims about the sequences of events that serialization writes *)
From Verif Require Import Base BaseFacts LimbFacts Prim ArrayRepr Repr ReprLaws PrimFacts ArrayFacts.
From Verif Require Import Syntax Spec Derive EnumSet Serde ApiSpec DeriveFacts TyFacts SetFacts IterFacts ConvFacts FmtFacts SerdeFacts ReachFacts SetClaims ConvClaims DeriveClaims SerdeClaims LawClaims WireSpec Bincode BincodeFacts.
Ltac Zify.zify_post_hook ::= Z.div_mod_to_equations.

(** ** C63 *)
Definition log_event (e : sevent) (w : list sevent) : bool * list sevent := (true, w ++ [e]).
Lemma perform_log es w : perform log_event es w = (true, w ++ es).
Proof.
  revert w. induction es as [|e es IH]; intros w; cbn [perform log_event]; [now rewrite app_nil_r|].
  rewrite IH, <- app_assoc. reflexivity.
Qed.
Lemma writes_fun T s es es' : Writes T s es -> Writes T s es' -> es = es'.
Proof.
  intros H H'. specialize (H _ log_event []). rewrite (H' _ log_event []), !perform_log in H. cbn [app] in H. congruence.
Qed.
Lemma app_same_length {X} (a b r r' : list X) : length a = length b -> a ++ r = b ++ r' -> a = b /\ r = r'.
Proof.
  revert b. induction a as [|x a IH]; intros [|y b] L E; cbn in *; try discriminate; [now split|].
  inversion E; subst. destruct (IH b) as [-> ->]; auto.
Qed.
Lemma map_inj_eq {X Y} (f : X -> Y) l l' : (forall x y, f x = f y -> x = y) -> map f l = map f l' -> l = l'.
Proof.
  intros Hf. revert l'. induction l as [|x l IH]; intros [|y l'] E; cbn in *; try discriminate; auto.
  injection E as E1 E2. f_equal; auto.
Qed.
Lemma seq_prefix {X} (hd : N -> sevent) (f : X -> sevent) tl l l' r r' :
  (forall x y, hd x = hd y -> x = y) -> (forall x y, f x = f y -> x = y) ->
  (hd (N.of_nat (length l)) :: map f l ++ [tl]) ++ r = (hd (N.of_nat (length l')) :: map f l' ++ [tl]) ++ r' ->
  l = l' /\ r = r'.
Proof.
  intros Hh Hf E. cbn [app] in E. injection E as E1 E2. apply Hh, Nat2N.inj in E1.
  rewrite <- !app_assoc in E2. apply app_same_length in E2; [|now rewrite !map_length].
  destruct E2 as [E2 E3]. apply map_inj_eq in E2; [|assumption]. injection E3 as E3. auto.
Qed.
Lemma self_delimiting pw inp T s s' : Supported pw inp T -> Reachable pw inp T s -> Reachable pw inp T s' ->
  exists es es', Writes T s es /\ Writes T s' es' /\
    (s = s' -> es = es') /\
    (forall rest rest', es ++ rest = es' ++ rest' -> s = s' /\ rest = rest').
Proof.
  intros HS HR HR'.
  destruct (has_members pw inp T s HS HR) as [A HA]. destruct (has_members pw inp T s' HS HR') as [B HB].
  assert (Hsame : (forall v, variant inp v -> A v = B v) -> s = s').
  { intros H. now apply (eq_members pw inp T s A s' B HS HR HA HR' HB). }
  assert (Hlists : forall l, lists_set inp A l -> lists_set inp B l -> s = s').
  { intros l [_ Hl] [_ Hl']. apply Hsame. intros v Hv. apply eq_true_iff_eq.
    specialize (Hl v). specialize (Hl' v). tauto. }
  enough (exists es es', Writes T s es /\ Writes T s' es' /\ (forall rest rest', es ++ rest = es' ++ rest' -> s = s' /\ rest = rest')) as (es & es' & H1 & H2 & H3).
  { exists es, es'. split; [exact H1|]. split; [exact H2|]. split; [|exact H3].
    intros ->. exact (writes_fun T s' es es' H1 H2). }
  assert (Hnd : NoDup (discrs inp)).
  { clear - HS. start. exact (D_nodup HT). }
  assert (Hint : forall t, sr_ity (et_serde T) = Some t -> exists es es', Writes T s es /\ Writes T s' es' /\ (forall rest rest', es ++ rest = es' ++ rest' -> s = s' /\ rest = rest')).
  { intros t Ht. destruct (int_format pw inp T s A t HS HR HA Ht) as (_ & H & _).
    destruct (int_format pw inp T s' B t HS HR' HB Ht) as (_ & H' & _).
    exists [EvInt t (set_value inp A)], [EvInt t (set_value inp B)].
    split; [intros W emit w; rewrite H; cbn [perform]; destruct (emit _ w) as [[] ?]; reflexivity|].
    split; [intros W emit w; rewrite H'; cbn [perform]; destruct (emit _ w) as [[] ?]; reflexivity|].
    intros r r' E. injection E as E1 E2. split; [|assumption]. apply Hsame. intros v Hv.
    apply (f_equal (fun x => N.testbit x (discr inp v))) in E1. cbn beta in E1.
    now rewrite !set_value_discr in E1 by assumption. }
  destruct (et_serde T) eqn:ES; try (eapply Hint; reflexivity).
  - destruct (list_format pw inp T s A HS HR HA ES) as (l & Hl & H & _).
    destruct (list_format pw inp T s' B HS HR' HB ES) as (l' & Hl' & H' & _).
    rewrite (list_size _ _ _ Hl Hnd) in H. rewrite (list_size _ _ _ Hl' Hnd) in H'.
    do 2 eexists. split; [exact H|]. split; [exact H'|]. intros r r' E.
    apply seq_prefix in E; [|congruence..]. destruct E as [<- ->]. split; [|reflexivity]. exact (Hlists l Hl Hl').
  - destruct (map_format pw inp T s A HS HR HA ES) as (l & Hl & H & _).
    destruct (map_format pw inp T s' B HS HR' HB ES) as (l' & Hl' & H' & _).
    rewrite (list_size _ _ _ Hl Hnd) in H. rewrite (list_size _ _ _ Hl' Hnd) in H'.
    do 2 eexists. split; [exact H|]. split; [exact H'|]. intros r r' E.
    apply seq_prefix in E; [|congruence..]. destruct E as [<- ->]. split; [|reflexivity]. exact (Hlists l Hl Hl').
  - destruct (array_format pw inp T s A HS HR HA ES) as (l & Hl & Hin & _ & H & _).
    destruct (array_format pw inp T s' B HS HR' HB ES) as (l' & Hl' & Hin' & _ & H' & _).
    do 2 eexists. split; [exact H|]. split; [exact H'|]. intros r r' E.
    apply seq_prefix in E; [|congruence..]. destruct E as [<- ->]. split; [|reflexivity]. apply Hsame.
    intros v Hv. destruct Hl as [_ Hl], Hl' as [_ Hl']. apply eq_true_iff_eq. specialize (Hl (discr inp v)). specialize (Hl' (discr inp v)).
    assert (Hone : forall C, A v = true \/ B v = true ->
      (exists u, variant inp u /\ discr inp u = discr inp v /\ C u = true /\ discr inp v < 64 * N.of_nat (length l)) <-> C v = true).
    { intros C Hc. split.
      - intros (u & Hu & E & HC & _). apply discr_inj in E; auto. now subst.
      - intros HC. exists v. repeat split; auto. destruct Hc; [now apply Hin|now apply Hin']. }
    split; intros Hv'.
    + rewrite (Hone A) in Hl by auto. rewrite (Hone B) in Hl' by auto. tauto.
    + rewrite (Hone A) in Hl by auto. rewrite (Hone B) in Hl' by auto. tauto.
Qed.

(** ** C64 *)
Lemma bin_source_ok pw inp T input : Supported pw inp T -> bytes_ok input -> SourceOk pw inp (bin_source T input).
Proof.
  intros HS Hb. destruct (setup _ _ _ HS) as (val & irel & HT & HV).
  pose proof (tl_pw _ _ _ _ _ HT) as Hpw.
  assert (Hlen : length (et_variants T) = length (in_variants inp)).
  { rewrite <- (map_length snd), (tl_variants _ _ _ _ _ HT). apply discrs_length. }
  assert (H8 : forall i y r, bytes_ok i -> read_int 8 i = Ok (y, r) -> bytes_ok r).
  { intros i y r Hi E. now apply (read_int_ok 8 i y r). }
  split; cbn [bin_source src_int src_list src_map src_words]; rewrite ?Hpw, ?Hlen.
  - intros t x. destruct (read_int _ input) as [[y r]|e] eqn:E; [|discriminate]. intros H. injection H as <-.
    apply read_int_ok in E as [E _]; [|assumption]. unfold ity_bytes in E. rewrite N2Nat.id in E.
    replace (8 * (ity_bits pw t / 8)) with (ity_bits pw t) in E; [assumption|].
    destruct (sup_usize _ _ _ HS) as [->|[->| ->]]; destruct t; reflexivity.
  - intros items v E Hin. unfold variant.
    apply (read_seq_In (fun v => v < length (in_variants inp))%nat (fun _ => True) pw (read_variant (length (in_variants inp))) input items v); auto.
    intros i x r _ Ex. split; [|exact I]. now apply read_variant_ok in Ex.
  - intros items v b E Hin. unfold variant.
    apply (read_seq_In (fun e => fst e < length (in_variants inp))%nat (fun _ => True) pw (read_entry (length (in_variants inp))) input items (v, b)); auto.
    intros i [x y] r _ Ex. split; [|exact I]. now apply read_entry_ok in Ex.
  - intros items x E Hin.
    apply (read_seq_In (fun x => x < 2 ^ 64) bytes_ok pw (read_int 8) input items x); auto.
    intros i y r Hi Ey. apply read_int_ok in Ey; auto.
Qed.
Lemma word_bit_cons x ws i : word_bit (x :: ws) i = if i <? 64 then N.testbit x i else word_bit ws (i - 64).
Proof.
  unfold word_bit. destruct (N.ltb_spec i 64) as [H|H].
  - rewrite N.div_small, N.mod_small by assumption. reflexivity.
  - replace (i / 64) with (N.succ ((i - 64) / 64)) by lia. rewrite N2Nat.inj_succ. cbn [nth]. f_equal. lia.
Qed.
Lemma word_bytes ws i : byte_bit (concat (map (le_bytes 8) ws)) i = word_bit ws i.
Proof.
  revert i. induction ws as [|x ws IH]; intros i; cbn [map concat].
  - rewrite byte_bit_nil. unfold word_bit. destruct (N.to_nat (i / 64)); symmetry; apply N.bits_0.
  - rewrite byte_bit_app, le_length, word_bit_cons, IH, le_bit. change (8 * N.of_nat 8) with 64. now destruct (i <? 64).
Qed.
Lemma word_bytes_length ws : N.of_nat (length (concat (map (le_bytes 8) ws))) = 8 * N.of_nat (length ws).
Proof. induction ws as [|x ws IH]; cbn [map concat length]; [reflexivity|]. rewrite app_length, le_length. lia. Qed.
Lemma concat_bytes_ok {X} (enc : X -> list N) l : (forall x, bytes_ok (enc x)) -> bytes_ok (concat (map enc l)).
Proof. intros H. induction l as [|x l IH]; cbn [map concat]; [constructor|]. apply bytes_app. auto. Qed.
Lemma bincode_format pw inp T s A : Supported pw inp T -> Reachable pw inp T s -> Denotes inp T s A ->
  exists bytes, bin_serialize T s = Ret (true, bytes) /\ bincode_layout inp (et_serde T) A bytes /\
    (serde_compiles T = true ->
       (forall rest, bin_deserialize T (bytes ++ rest) = Ret (Ok s)) /\
       (forall part rest, bytes = part ++ rest -> rest <> [] -> bin_deserialize T part = Ret (Err bin_eof))).
Proof.
  intros HS HR HA. destruct (setup _ _ _ HS) as (val & irel & HT & HV).
  pose proof (tl_pw _ _ _ _ _ HT) as Hpw. pose proof (D_nodup HT) as Hnd.
  assert (Hpw64 : pw <= 64) by (destruct (sup_usize _ _ _ HS) as [->|[->| ->]]; lia).
  assert (Hlen : length (et_variants T) = length (in_variants inp)).
  { rewrite <- (map_length snd), (tl_variants _ _ _ _ _ HT). apply discrs_length. }
  assert (Hcount : N.of_nat (length (in_variants inp)) <= 2 ^ 32).
  { destruct (sup_derive _ _ _ HS) as [md Hmd]. destruct (derive_ok _ _ _ Hmd) as (HW & _).
    pose proof (count_lt_u32 inp HW). lia. }
  pose proof (sup_count _ _ _ HS) as Hcpw.
  assert (Hlist : forall l, lists_set inp A l -> Forall (fun v => v < length (in_variants inp))%nat l /\ N.of_nat (length l) < 2 ^ pw).
  { intros l Hl. split.
    - apply Forall_forall. intros v Hv. now apply Hl in Hv.
    - rewrite <- (list_size inp A l Hl Hnd). pose proof (size_le (inp := inp) A). lia. }
  unfold bin_serialize, bin_deserialize.
  destruct (sr_ity (et_serde T)) as [t|] eqn:Et.
  - destruct (int_format pw inp T s A t HS HR HA Et) as (Hlt & Hw & Hr).
    assert (E8 : 8 * N.of_nat (ity_bytes pw t) = ity_bits pw t /\ (0 < ity_bytes pw t)%nat).
    { unfold ity_bytes. rewrite N2Nat.id. destruct (sup_usize _ _ _ HS) as [->|[->| ->]]; destruct t; cbn; split; (reflexivity || lia). }
    destruct E8 as [E8 Hpos]. rewrite <- E8 in Hlt.
    exists (le_bytes (ity_bytes pw t) (set_value inp A)). split; [|split].
    + rewrite Hw, Hpw. reflexivity.
    + assert (HL : bytes_hold inp (le_bytes (ity_bytes pw t) (set_value inp A)) A).
      { destruct (le_spec _ _ Hlt) as (_ & Hok & Hb). split; [assumption|]. intros i. rewrite Hb.
        rewrite set_value_testbit by assumption. split; intros (v & Hv); exists v; tauto. }
      destruct (et_serde T); inversion Et; subst t; (split; [apply le_length|exact HL]).
    + intros Hc. split.
      * intros rest. apply (Hr Hc). cbn [bin_source src_int]. rewrite Hpw. now rewrite read_le.
      * intros part rest E Hne. pose proof (int_input pw inp T t (bin_source T part) HS Et Hc) as HI.
        cbn [bin_source src_int] in HI. rewrite Hpw in HI.
        rewrite (cd_short _ _ _ (int_codec _ Hpos) _ _ _ Hlt E Hne) in HI. exact HI.
  - destruct (et_serde T) eqn:Es; try discriminate; cbn [bincode_layout].
    + destruct (list_format pw inp T s A HS HR HA Es) as (l & Hl & Hw & Hr). destruct (Hlist l Hl) as [HP Hn].
      pose proof (variant_codec _ Hcount) as C.
      rewrite (list_size inp A l Hl Hnd) in Hw.
      set (enc := fun v => le_bytes 4 (N.of_nat v)) in *.
      exists (le_bytes 8 (N.of_nat (length l)) ++ concat (map enc l)). split; [|split].
      * rewrite Hw, Hpw, perform_bin. cbn [map concat bin_bytes app]. do 3 f_equal.
        rewrite map_app, concat_app, map_map. cbn [map concat bin_bytes app]. now rewrite !app_nil_r.
      * exists l, (le_bytes 8 (N.of_nat (length l))), (map enc l). split; [assumption|]. split; [|split; [|reflexivity]].
        -- apply (le_spec 8). change (8 * N.of_nat 8) with 64. eapply N.lt_le_trans; [exact Hn|]. apply N.pow_le_mono_r; [discriminate|assumption].
        -- clear - HP Hcount. induction HP as [|v l Hv Hl IH]; cbn [map]; constructor; auto.
           apply (le_spec 4). change (8 * N.of_nat 4) with 32. lia.
      * intros _. split.
        -- intros rest. apply Hr. cbn [bin_source src_list]. rewrite Hpw, Hlen, <- app_assoc. now apply (read_seq_all _ enc _ pw l rest C).
        -- intros part rest E Hne. assert (Hok : bytes_ok part).
           { assert (H : bytes_ok (part ++ rest)); [|now apply bytes_app in H]. rewrite <- E. apply bytes_app. split; [apply le_ok|].
             apply concat_bytes_ok. intros x. apply le_ok. }
           pose proof (list_input pw inp T _ HS (bin_source_ok pw inp T part HS Hok) Es) as HI.
           cbn [bin_source src_list] in HI. rewrite Hpw, Hlen in HI.
           pose proof (read_seq_short _ enc _ pw l part rest C HP Hpw64 Hn E Hne) as HE.
           destruct (read_seq pw _ part) as [items|e]; [rewrite HE in HI|rewrite HE in HI]; exact HI.
    + destruct (map_format pw inp T s A HS HR HA Es) as (l & Hl & Hw & Hr). destruct (Hlist l Hl) as [HP Hn].
      pose proof (entry_codec _ Hcount) as C.
      rewrite (list_size inp A l Hl Hnd) in Hw.
      set (l' := map (fun v => (v, true)) l).
      assert (Hl' : length l' = length l) by apply map_length.
      assert (HP' : Forall (fun e => fst e < length (in_variants inp))%nat l').
      { apply Forall_map. exact HP. }
      rewrite <- Hl' in Hn.
      exists (le_bytes 8 (N.of_nat (length l')) ++ concat (map enc_entry l')). split; [|split].
      * rewrite Hw, Hpw, perform_bin, Hl'. cbn [map concat bin_bytes app]. do 3 f_equal.
        rewrite map_app, concat_app. unfold l'. rewrite !map_map. cbn [map concat bin_bytes app]. rewrite !app_nil_r. reflexivity.
      * exists l, (le_bytes 8 (N.of_nat (length l'))), (map enc_entry l'). split; [assumption|]. split; [|split; [|reflexivity]].
        -- rewrite Hl' in *. apply (le_spec 8). change (8 * N.of_nat 8) with 64. eapply N.lt_le_trans; [exact Hn|]. apply N.pow_le_mono_r; [discriminate|assumption].
        -- unfold l'. clear - HP Hcount. induction HP as [|v l Hv Hl IH]; cbn [map]; constructor; auto.
           exists (le_bytes 4 (N.of_nat v)). split; [|reflexivity].
           apply (le_spec 4). change (8 * N.of_nat 4) with 32. lia.
      * intros _. split.
        -- intros rest. apply Hr. cbn [bin_source src_map]. rewrite Hpw, Hlen, <- app_assoc.
           rewrite (read_seq_all _ enc_entry _ pw l' rest C HP' Hpw64 Hn). unfold l'. now rewrite map_map.
        -- intros part rest E Hne. assert (Hok : bytes_ok part).
           { assert (H : bytes_ok (part ++ rest)); [|now apply bytes_app in H]. rewrite <- E. apply bytes_app. split; [apply le_ok|].
             apply concat_bytes_ok. intros [v []]; (apply bytes_app; split; [apply le_ok|repeat constructor]). }
           pose proof (map_input pw inp T _ HS (bin_source_ok pw inp T part HS Hok) Es) as HI.
           cbn [bin_source src_map] in HI. rewrite Hpw, Hlen in HI.
           pose proof (read_seq_short _ enc_entry _ pw l' part rest C HP' Hpw64 Hn E Hne) as HE.
           destruct (read_seq pw _ part) as [items|e]; [rewrite HE in HI|rewrite HE in HI]; exact HI.
    + destruct (array_format pw inp T s A HS HR HA Es) as (ws & [Hwok Hhold] & Hin & Hwr & Hw & Hr).
      assert (C : codec _ (le_bytes 8) (read_int 8)) by (apply int_codec; lia).
      assert (Hn : N.of_nat (length ws) < 2 ^ pw).
      { rewrite Hwr. unfold words_written. destruct (sup_derive _ _ _ HS) as [md Hmd].
        destruct (storage_holds md pw inp T Hmd) as (Ew & _). pose proof (tl_width_pw _ _ _ _ _ HT) as Hwp. rewrite Ew in Hwp.
        assert (H2 : 65536 <= 2 ^ pw) by (destruct (sup_usize _ _ _ HS) as [->|[->| ->]]; discriminate).
        assert (Hsw : storage_words (storage_of inp) < 2 ^ pw).
        { destruct (storage_of inp) as [b|n]; cbn [storage_words storage_bits] in *; lia. }
        destruct (_ =? 0); lia. }
      exists (le_bytes 8 (N.of_nat (length ws)) ++ concat (map (le_bytes 8) ws)). split; [|split].
      * rewrite Hw, Hpw, perform_bin. cbn [map concat bin_bytes app]. do 3 f_equal.
        rewrite map_app, concat_app, map_map. cbn [map concat bin_bytes app]. now rewrite !app_nil_r.
      * rewrite <- Hwr. exists (le_bytes 8 (N.of_nat (length ws))), (concat (map (le_bytes 8) ws)).
        split; [|split; [apply word_bytes_length|split; [|reflexivity]]].
        -- apply (le_spec 8). change (8 * N.of_nat 8) with 64. eapply N.lt_le_trans; [exact Hn|]. apply N.pow_le_mono_r; [discriminate|assumption].
        -- split; [apply concat_bytes_ok; intros x; apply le_ok|]. intros i. rewrite word_bytes, Hhold. split.
           ++ intros (v & Hv & E & HAv & _). eauto.
           ++ intros (v & Hv & <- & HAv). exists v. auto.
      * intros _. split.
        -- intros rest. apply Hr. cbn [bin_source src_words]. rewrite Hpw, <- app_assoc.
           now apply (read_seq_all _ (le_bytes 8) _ pw ws rest C).
        -- intros part rest E Hne. assert (Hok : bytes_ok part).
           { assert (H : bytes_ok (part ++ rest)); [|now apply bytes_app in H]. rewrite <- E. apply bytes_app. split; [apply le_ok|].
             apply concat_bytes_ok. intros x. apply le_ok. }
           pose proof (array_input pw inp T _ HS (bin_source_ok pw inp T part HS Hok) Es) as HI.
           cbn [bin_source src_words] in HI. rewrite Hpw in HI.
           pose proof (read_seq_short _ (le_bytes 8) _ pw ws part rest C Hwok Hpw64 Hn E Hne) as HE.
           destruct (read_seq pw _ part) as [items|e]; [rewrite HE in HI|rewrite HE in HI]; exact HI.
Qed.
Lemma bincode_input pw inp T input : Supported pw inp T -> serde_compiles T = true -> bytes_ok input ->
  (exists e, bin_deserialize T input = Ret (Err e)) \/
  (exists s, bin_deserialize T input = Ret (Ok s) /\ Reachable pw inp T s) \/
  (et_serde T = SArray /\ bin_deserialize T input = Panic (PExpect "Bitset contains invalid variants.")).
Proof.
  intros HS Hc Hb. pose proof (bin_source_ok pw inp T input HS Hb) as Ho. unfold bin_deserialize.
  destruct (deserialize_returns pw inp T _ HS Hc Ho) as [[[s|e] E]|HP]; [|eauto|auto].
  right. left. exists s. split; [assumption|]. exact (deserialized_reachable pw inp T _ s HS Hc Ho E).
Qed.

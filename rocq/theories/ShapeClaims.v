(** * Claims about data of any shape *)
From Coq Require Import ZArith DecimalString.
From Verif Require Import Base Repr Syntax Spec Derive EnumSet Serde ApiSpec Shape ShapeSpec.
From Verif Require SetClaims SerdeClaims JsonClaims.

Lemma digits_z z : decimal_z z = digits z.
Proof. destruct z as [|p|p]; reflexivity. Qed.
Lemma found_default v : found v (display_unexpected (default_unexpected v)).
Proof.
  destruct v; cbn [default_unexpected display_unexpected]; rewrite ?digits_z; try constructor. destruct b; constructor.
Qed.
Lemma found_one v a b : found v a -> found v b -> a = b.
Proof. intros Ha Hb. destruct Ha; now inversion Hb. Qed.

Definition src_of (name : string) (v : visit) : de_source := {|
  src_int := fun t => visit_int t v;
  src_list := match v with VSeq l _ => Ok l | _ => default_visit v ("a list of " ++ name) end;
  src_map := match v with VMap l => Ok l | _ => default_visit v ("a map from " ++ name ++ " to bool") end;
  src_words := match v with VSeq _ l => Ok l | _ => default_visit v "a list of u64" end
|}.
Lemma visit_src T name v : es_visit T name v = es_deserialize T (src_of name v).
Proof.
  unfold es_visit, es_deserialize. cbn [src_of src_int src_list src_map src_words].
  destruct (et_serde T); try reflexivity; unfold visit_list, visit_map, visit_array; destruct v; reflexivity.
Qed.

Lemma visit_int_ok r t v x : sr_ity r = Some t -> visit_int t v = Ok x ->
  integer (is_wide r) v (Z.of_N x).
Proof.
  intros Hr. unfold visit_int.
  destruct v; try (destruct t; discriminate).
  - destruct (_ <=? _); intros [= <-]. left. eexists. split; reflexivity.
  - destruct (0 <=? z)%Z eqn:Z0; cbn [andb]; [|discriminate]. destruct (_ <=? _); intros [= <-].
    right. left. apply Z.leb_le in Z0. now rewrite Z2N.id.
  - destruct t; try discriminate. intros [= <-]. right. right. destruct r; try discriminate Hr. split; [reflexivity|]. left. eexists. split; reflexivity.
  - destruct t; try discriminate. destruct (0 <=? z)%Z eqn:Z0; [|discriminate]. intros [= <-]. right. right. destruct r; try discriminate Hr.
    split; [reflexivity|]. right. apply Z.leb_le in Z0. now rewrite Z2N.id.
Qed.
Lemma int_max_bits r t pw n : sr_ity r = Some t -> n < 2 ^ 64 -> (n <=? int_max t = true <-> n < 2 ^ ity_bits pw t).
Proof.
  intros Hr Hn. rewrite N.leb_le. change (2 ^ 64) with 18446744073709551616 in Hn.
  destruct r; try discriminate Hr; injection Hr as <-; cbn [int_max ity_bits].
  - change (2 ^ 8) with 256. lia.
  - change (2 ^ 16) with 65536. lia.
  - change (2 ^ 32) with 4294967296. lia.
  - change (2 ^ 64) with 18446744073709551616. lia.
  - change (2 ^ 128) with 340282366920938463463374607431768211456. lia.
Qed.
Lemma visit_int_range r t v x pw inp : sr_ity r = Some t -> visit_ok inp v -> visit_int t v = Ok x -> x < 2 ^ ity_bits pw t.
Proof.
  intros Hr Ho. unfold visit_int.
  destruct v; cbn [visit_ok] in Ho; try (destruct t; discriminate).
  - destruct (_ <=? _) eqn:E; intros [= <-]. now apply (int_max_bits r t pw n Hr Ho).
  - destruct (0 <=? z)%Z eqn:Z0; cbn [andb]; [|discriminate]. destruct (_ <=? _) eqn:E; intros [= <-].
    apply (int_max_bits r t pw _ Hr); [|exact E]. apply Z.leb_le in Z0. change (2 ^ 64) with 18446744073709551616.
    change (2 ^ 63)%Z with 9223372036854775808%Z in Ho. lia.
  - destruct t; try discriminate. intros [= <-]. exact Ho.
  - destruct t; try discriminate. destruct (0 <=? z)%Z eqn:Z0; [|discriminate]. intros [= <-].
    apply Z.leb_le in Z0. cbn [ity_bits]. change (2 ^ 128) with 340282366920938463463374607431768211456.
    change (2 ^ 127)%Z with 170141183460469231731687303715884105728%Z in Ho. lia.
Qed.
Lemma visit_int_gives r t v x pw inp : sr_ity r = Some t -> visit_ok inp v -> integer (is_wide r) v (Z.of_N x) -> x < 2 ^ ity_bits pw t ->
  visit_int t v = Ok x.
Proof.
  intros Hr Ho HI Hx. destruct HI as [(n & -> & E)|[->|(Hw & [(n & -> & E)| ->])]]; cbn [visit_int visit_ok] in *.
  - apply N2Z.inj in E. subst n. now rewrite (proj2 (int_max_bits r t pw x Hr Ho) Hx).
  - rewrite N2Z.id. replace (0 <=? Z.of_N x)%Z with true by (symmetry; apply Z.leb_le; lia). cbn [andb].
    rewrite (proj2 (int_max_bits r t pw x Hr ltac:(change (2 ^ 64) with 18446744073709551616; change (2 ^ 63)%Z with 9223372036854775808%Z in Ho; lia)) Hx). reflexivity.
  - destruct r; try discriminate Hw. injection Hr as <-. apply N2Z.inj in E. now subst n.
  - destruct r; try discriminate Hw. injection Hr as <-. rewrite N2Z.id.
    replace (0 <=? Z.of_N x)%Z with true by (symmetry; apply Z.leb_le; lia). reflexivity.
Qed.

(** The source as C32-C36 want it: integers are asked for in the one type of the format. *)
Definition src_at (T : EnumTy) (name : string) (v : visit) : de_source := {|
  src_int := fun t => match sr_ity (et_serde T) with
                      | Some t' => if (match t, t' with U8, U8 | U16, U16 | U32, U32 | U64, U64 | U128, U128 => true | _, _ => false end) then visit_int t v else Err (DeInput 0)
                      | None => Err (DeInput 0)
                      end;
  src_list := src_list (src_of name v); src_map := src_map (src_of name v); src_words := src_words (src_of name v)
|}.
Lemma visit_at T name v : es_visit T name v = es_deserialize T (src_at T name v).
Proof.
  rewrite visit_src. unfold es_deserialize. cbn [src_at src_int src_list src_map src_words].
  destruct (et_serde T) eqn:E; cbn [sr_ity]; try reflexivity.
Qed.
Lemma src_at_ok pw inp T name v : visit_ok inp v -> SourceOk pw inp (src_at T name v).
Proof.
  intros Ho. constructor; cbn [src_at src_of src_int src_list src_map src_words].
  - intros t x. destruct (sr_ity (et_serde T)) as [t'|] eqn:Et; [|discriminate].
    intros H. assert (K : t = t' /\ visit_int t v = Ok x) by (destruct t, t'; try discriminate H; auto). destruct K as [-> K].
    exact (visit_int_range _ _ _ _ _ _ Et Ho K).
  - intros items u. destruct v; try discriminate. intros [= <-]. apply Ho.
  - intros items u b. destruct v; try discriminate. intros [= <-]. apply Ho.
  - intros items x. destruct v; try discriminate. intros [= <-]. apply Ho.
Qed.
Lemma src_at_int T name v t : sr_ity (et_serde T) = Some t -> src_int (src_at T name v) t = visit_int t v.
Proof. intros E. cbn [src_at src_int]. rewrite E. destruct (et_serde T); try discriminate E; injection E as <-; reflexivity. Qed.

Lemma all_ok_inv {A E} (l : list (result A E)) r : all_ok l = Ok r -> l = map Ok r.
Proof.
  revert r. induction l as [|[a|e] l IH]; cbn [all_ok]; intros r H; [injection H as <-; reflexivity| |discriminate].
  destruct (all_ok l); [|discriminate]. injection H as <-. cbn [map]. f_equal. now apply IH.
Qed.
Lemma all_ok_map {A E} (l : list A) : all_ok (map (@Ok A E) l) = Ok l.
Proof. induction l as [|a l IH]; cbn [map all_ok]; [reflexivity|now rewrite IH]. Qed.

Lemma int_cases T : sr_ity (et_serde T) = None -> et_serde T = SList \/ et_serde T = SMap \/ et_serde T = SArray.
Proof. destruct (et_serde T); cbn; auto; discriminate. Qed.
Lemma stands_int pw inp r t deny v A : sr_ity r = Some t ->
  (shape_stands pw inp r deny v A <-> exists x, integer (is_wide r) v (Z.of_N x) /\ x < 2 ^ ity_bits pw t /\
     (deny = true -> only_variant_bits inp x) /\ (forall u, A u = bits_set inp x u)).
Proof.
  intros Hr. destruct r; try discriminate Hr; injection Hr as <-; cbn [shape_stands sr_ity];
    (split; [intros (x & t & [= <-] & H); exists x; exact H|intros (x & H); exists x; eexists; split; [reflexivity|exact H]]).
Qed.

Lemma shape_accepted pw inp T name v s : Supported pw inp T -> serde_compiles T = true -> visit_ok inp v ->
  (es_visit T name v = Ret (Ok s) <->
   Reachable pw inp T s /\ exists A, shape_stands pw inp (et_serde T) (et_deny_unknown T) v A /\ Denotes inp T s A).
Proof.
  intros HS Hc Ho. rewrite visit_at. pose proof (src_at_ok pw inp T name v Ho) as HO.
  assert (HR : forall s', es_deserialize T (src_at T name v) = Ret (Ok s') -> Reachable pw inp T s').
  { intros s'. apply SerdeClaims.deserialized_reachable; assumption. }
  assert (UN : forall s' A, es_deserialize T (src_at T name v) = Ret (Ok s') -> Denotes inp T s' A -> Reachable pw inp T s -> Denotes inp T s A ->
    es_deserialize T (src_at T name v) = Ret (Ok s)).
  { intros s' A E D R D'. rewrite E. do 2 f_equal. apply (proj2 (SetClaims.eq_members pw inp T s' A s A HS (HR s' E) D R D')). reflexivity. }
  split.
  - intros E. split; [now apply HR|]. destruct (sr_ity (et_serde T)) as [t|] eqn:Et.
    + pose proof (SerdeClaims.int_input pw inp T t (src_at T name v) HS Et Hc) as HI.
      rewrite (src_at_int _ _ _ _ Et) in HI. destruct (visit_int t v) as [x|e] eqn:Ev; [|rewrite E in HI; discriminate].
      pose proof (visit_int_range _ _ _ _ pw _ Et Ho Ev) as Hx. destruct (HI Hx) as [H1 H2].
      assert (K : et_deny_unknown T = true -> only_variant_bits inp x).
      { intros Hd. destruct (JsonClaims.only_variant_bits_dec pw inp T x HS) as [Y|Y]; [exact Y|]. specialize (H1 Hd Y). rewrite E in H1. discriminate. }
      destruct H2 as (s' & E' & D). { destruct (et_deny_unknown T); auto. }
      rewrite E in E'. injection E' as <-. exists (bits_set inp x). split; [|exact D].
      apply (stands_int _ _ _ t _ _ _ Et). exists x. split; [exact (visit_int_ok _ _ _ _ Et Ev)|]. auto.
    + destruct (int_cases T Et) as [Es|[Es|Es]]; rewrite Es; cbn [shape_stands].
      * pose proof (SerdeClaims.list_input pw inp T _ HS HO Es) as HL. cbn [src_at src_of src_list] in HL.
        destruct v; try (cbn [default_visit] in HL; rewrite E in HL; discriminate).
        destruct (all_ok variants) as [vs|e] eqn:Ea; [|rewrite E in HL; discriminate]. destruct HL as (s' & E' & D).
        rewrite E in E'. injection E' as <-. apply all_ok_inv in Ea. subst variants. eexists. split; [|exact D].
        exists vs, words. split; [reflexivity|]. intros u. apply JsonClaims.existsb_eqb.
      * pose proof (SerdeClaims.map_input pw inp T _ HS HO Es) as HL. cbn [src_at src_of src_map] in HL.
        destruct v; try (cbn [default_visit] in HL; rewrite E in HL; discriminate).
        destruct (all_ok entries) as [vs|e] eqn:Ea; [|rewrite E in HL; discriminate]. destruct HL as (s' & E' & D).
        rewrite E in E'. injection E' as <-. apply all_ok_inv in Ea. subst entries. eexists. split; [|exact D].
        exists vs. split; [reflexivity|]. intros u. apply JsonClaims.existsb_entry.
      * pose proof (SerdeClaims.array_input pw inp T _ HS HO Es) as HL. cbn [src_at src_of src_words] in HL.
        destruct v; try (cbn [default_visit] in HL; rewrite E in HL; discriminate).
        destruct (all_ok words) as [ws|e] eqn:Ea; [|rewrite E in HL; discriminate]. destruct HL as [H1 H2].
        apply all_ok_inv in Ea. subst words.
        assert (Hw : words_ok ws). { apply Forall_forall. intros w Hin. apply Ho. apply in_map. exact Hin. }
        destruct (JsonClaims.only_variant_words_dec pw inp T (firstn (N.to_nat (storage_words (storage_of inp))) ws) HS (JsonClaims.words_ok_firstn _ ws Hw)) as [Y|Y];
          [|rewrite (H2 Y) in E; discriminate].
        destruct (H1 Y) as (s' & E' & D). rewrite E in E'. injection E' as <-. eexists. split; [|exact D].
        exists variants, ws. split; [reflexivity|]. split; [exact Y|]. reflexivity.
  - intros (R & A & HA & HD). destruct (sr_ity (et_serde T)) as [t|] eqn:Et.
    + apply (stands_int _ _ _ t _ _ _ Et) in HA as (x & Hi & Hx & Hd & HA).
      pose proof (SerdeClaims.int_input pw inp T t (src_at T name v) HS Et Hc) as HI.
      rewrite (src_at_int _ _ _ _ Et), (visit_int_gives _ _ _ _ _ _ Et Ho Hi Hx) in HI. destruct (HI Hx) as [_ H2].
      destruct H2 as (s' & E' & D). { destruct (et_deny_unknown T); auto. }
      apply (UN s' A E'); auto. eapply JsonClaims.denotes_ext; [exact D|]. intros u _. now rewrite HA.
    + destruct (int_cases T Et) as [Es|[Es|Es]]; rewrite Es in HA; cbn [shape_stands] in HA.
      * destruct HA as (vs & ws & -> & HA).
        pose proof (SerdeClaims.list_input pw inp T _ HS HO Es) as HL. cbn [src_at src_of src_list] in HL. rewrite all_ok_map in HL.
        destruct HL as (s' & E' & D). apply (UN s' A E'); auto. eapply JsonClaims.denotes_ext; [exact D|]. intros u _. cbv beta.
        eapply JsonClaims.same_bool; [apply JsonClaims.existsb_eqb|apply HA].
      * destruct HA as (vs & -> & HA).
        pose proof (SerdeClaims.map_input pw inp T _ HS HO Es) as HL. cbn [src_at src_of src_map] in HL. rewrite all_ok_map in HL.
        destruct HL as (s' & E' & D). apply (UN s' A E'); auto. eapply JsonClaims.denotes_ext; [exact D|]. intros u _. cbv beta.
        eapply JsonClaims.same_bool; [apply JsonClaims.existsb_entry|apply HA].
      * destruct HA as (vs & ws & -> & Hu & HA).
        pose proof (SerdeClaims.array_input pw inp T _ HS HO Es) as HL. cbn [src_at src_of src_words] in HL. rewrite all_ok_map in HL.
        destruct HL as [H1 _]. destruct (H1 Hu) as (s' & E' & D). apply (UN s' A E'); auto.
        eapply JsonClaims.denotes_ext; [exact D|]. intros u _. cbv beta. now rewrite HA.
Qed.

(** Data of another shape *)
Lemma shape_refused pw inp T name v what : Supported pw inp T -> ~ fits (et_serde T) v -> found v what ->
  es_visit T name v = Ret (Err (DeCustom ("invalid type: " ++ what ++ ", expected " ++ wanted (et_serde T) name))).
Proof.
  intros _ HF Hw. pose proof (found_one v what _ Hw (found_default v)) as K. subst what. clear Hw.
  unfold es_visit. destruct (et_serde T) eqn:Es; cbn [fits wanted is_wide] in *.
  all: try (destruct v; try (now (destruct HF; eauto)); reflexivity).
  all: destruct v; cbn [visit_int default_visit de_int ity_text]; try reflexivity;
    exfalso; apply HF; unfold integer;
    first [eexists; left; eexists; split; reflexivity | eexists; right; left; reflexivity
          | eexists; right; right; split; [reflexivity|]; left; eexists; split; reflexivity
          | eexists; right; right; split; [reflexivity|]; right; reflexivity].
Qed.

(** Integers that are too large, or negative *)
Lemma shape_out_of_range pw inp T name v t z what : Supported pw inp T -> visit_ok inp v -> sr_ity (et_serde T) = Some t ->
  integer (is_wide (et_serde T)) v z -> ~ (0 <= z < 2 ^ Z.of_N (ity_bits pw t))%Z -> found_value v what ->
  es_visit T name v = Ret (Err (DeCustom ("invalid value: " ++ what ++ ", expected " ++ wanted (et_serde T) name))).
Proof.
  intros _ Ho Et Hi Hz Hw.
  assert (E : visit_int t v = Err (DeCustom ("invalid value: " ++ what ++ ", expected " ++ wanted (et_serde T) name))).
  { assert (W : wanted (et_serde T) name = ity_text t) by (destruct (et_serde T); try discriminate Et; injection Et as <-; reflexivity).
    rewrite W. destruct Hw; cbn [visit_int visit_ok] in *.
    - destruct Hi as [(n' & [= <-] & ->)|[[=]|(_ & [(n' & [=] & _)|[=]])]].
      destruct (n <=? int_max t) eqn:L.
      + apply (int_max_bits _ _ pw _ Et Ho) in L. exfalso. apply Hz. split; [lia|].
        apply N2Z.inj_lt in L. rewrite N2Z.inj_pow in L. exact L.
      + unfold invalid_value. cbn [display_unexpected]. now rewrite digits_z.
    - destruct Hi as [(n' & [=] & _)|[[= ->]|(_ & [(n' & [=] & _)|[=]])]].
      destruct (0 <=? z)%Z eqn:Z0; cbn [andb]; [destruct (Z.to_N z <=? int_max t) eqn:L|].
      + apply Z.leb_le in Z0. apply (int_max_bits _ _ pw _ Et) in L.
        2: { change (2 ^ 64) with 18446744073709551616. change (2 ^ 63)%Z with 9223372036854775808%Z in Ho. lia. }
        exfalso. apply Hz. split; [lia|]. apply N2Z.inj_lt in L. rewrite N2Z.inj_pow, Z2N.id in L by exact Z0. exact L.
      + unfold invalid_value. cbn [display_unexpected]. now rewrite digits_z.
      + unfold invalid_value. cbn [display_unexpected]. now rewrite digits_z.
    - destruct Hi as [(n' & [=] & _)|[[=]|(Hw & [(n' & [=] & _)|[= ->]])]].
      destruct (et_serde T); try discriminate Hw. injection Et as <-.
      destruct (0 <=? z)%Z eqn:Z0; [|reflexivity]. exfalso. apply Hz. apply Z.leb_le in Z0. split; [exact Z0|].
      cbn [ity_bits]. change (2 ^ Z.of_N 128)%Z with 340282366920938463463374607431768211456%Z.
      change (2 ^ 127)%Z with 170141183460469231731687303715884105728%Z in Ho. lia. }
  unfold es_visit. destruct (et_serde T) eqn:Es; try discriminate Et; injection Et as <-; rewrite E; reflexivity.
Qed.

(** Every call ends in a set, an error or the panic of the array format. *)
Lemma shape_any pw inp T name v : Supported pw inp T -> serde_compiles T = true -> visit_ok inp v ->
  (exists s, es_visit T name v = Ret (Ok s) /\ Reachable pw inp T s) \/
  (exists e, es_visit T name v = Ret (Err e)) \/
  (exists vs ws, v = VSeq vs (map Ok ws) /\ et_serde T = SArray /\
     ~ only_variant_words inp (firstn (N.to_nat (storage_words (storage_of inp))) ws) /\
     es_visit T name v = Panic (PExpect "Bitset contains invalid variants.")).
Proof.
  intros HS Hc Ho. rewrite visit_at. pose proof (src_at_ok pw inp T name v Ho) as HO.
  destruct (SerdeClaims.deserialize_returns pw inp T _ HS Hc HO) as [[[s|e] E]|[Es E]].
  - left. exists s. split; [exact E|]. exact (SerdeClaims.deserialized_reachable pw inp T _ s HS Hc HO E).
  - right. left. exists e. exact E.
  - right. right. pose proof (SerdeClaims.array_input pw inp T _ HS HO Es) as HL. cbn [src_at src_of src_words] in HL.
    destruct v; try (cbn [default_visit] in HL; rewrite E in HL; discriminate).
    destruct (all_ok words) as [ws|e] eqn:Ea; [|rewrite E in HL; discriminate]. destruct HL as [H1 _].
    apply all_ok_inv in Ea. subst words. exists variants, ws. split; [reflexivity|]. split; [exact Es|]. split; [|exact E].
    intros Hu. destruct (H1 Hu) as (s & E' & _). rewrite E in E'. discriminate.
Qed.

Lemma all_ok_err {A} (l : list (result A de_error)) e : all_ok l = Err e <-> first_error l e.
Proof.
  unfold first_error. split.
  - induction l as [|[a|e'] l IH]; cbn [all_ok]; intros H; [discriminate| |].
    + destruct (all_ok l); [discriminate|]. injection H as <-. destruct (IH eq_refl) as (g & r & ->). exists (a :: g), r. reflexivity.
    + injection H as <-. exists [], l. reflexivity.
  - intros (g & r & ->). induction g as [|a g IH]; cbn [map app all_ok]; [reflexivity|now rewrite IH].
Qed.
Lemma range_z r t pw n : sr_ity r = Some t -> (n < 2 ^ ity_bits pw t <-> (0 <= Z.of_N n < 2 ^ Z.of_N (ity_bits pw t))%Z).
Proof.
  intros _. rewrite N2Z.inj_lt, N2Z.inj_pow. change (Z.of_N 2) with 2%Z. split; [intros H; split; [lia|exact H]|intros [_ H]; exact H].
Qed.

Lemma shape_refusals pw inp T name v e : Supported pw inp T -> serde_compiles T = true -> visit_ok inp v ->
  (es_visit T name v = Ret (Err e) <-> refusal pw inp (et_serde T) (et_deny_unknown T) name v e).
Proof.
  intros HS Hc Ho. pose proof (src_at_ok pw inp T name v Ho) as HO. split.
  - intros E. destruct (sr_ity (et_serde T)) as [t|] eqn:Et.
    + pose proof (SerdeClaims.int_input pw inp T t (src_at T name v) HS Et Hc) as HI. rewrite <- visit_at in HI.
      rewrite (src_at_int _ _ _ _ Et) in HI. destruct (visit_int t v) as [x|e'] eqn:Ev.
      * pose proof (visit_int_range _ _ _ _ pw _ Et Ho Ev) as Hx. destruct (HI Hx) as [H1 H2].
        destruct (et_deny_unknown T) eqn:Hd.
        -- destruct (JsonClaims.only_variant_bits_dec pw inp T x HS) as [Y|Y].
           ++ destruct H2 as (s & E' & _); [now right|]. rewrite E in E'. discriminate.
           ++ rewrite (H1 eq_refl Y) in E. injection E as <-. eapply Rf_unknown; eauto. exact (visit_int_ok _ _ _ _ Et Ev).
        -- destruct H2 as (s & E' & _); [now left|]. rewrite E in E'. discriminate.
      * rewrite HI in E. injection E as ->.
        assert (OUT : forall z, integer (is_wide (et_serde T)) v z -> ~ (0 <= z < 2 ^ Z.of_N (ity_bits pw t))%Z).
        { intros z Hi [Z0 Z1]. assert (Z.of_N (Z.to_N z) = z) as Zz by (now apply Z2N.id). rewrite <- Zz in Hi, Z0, Z1.
          rewrite (visit_int_gives _ _ _ _ pw inp Et Ho Hi) in Ev; [discriminate|]. apply (range_z _ _ _ _ Et). split; assumption. }
        assert (FV : forall z, integer (is_wide (et_serde T)) v z -> refusal pw inp (et_serde T) (et_deny_unknown T) name v e).
        { intros z Hi. specialize (OUT z Hi).
          assert (K : exists what, found_value v what).
          { destruct Hi as [(n & -> & _)|[->|(Hw & [(n & -> & ->)| ->])]]; try (eexists; constructor).
            exfalso. apply OUT. destruct (et_serde T); try discriminate Hw. injection Et as <-. apply (range_z SU128 U128 pw n eq_refl). exact Ho. }
          destruct K as (what & Hf). pose proof (shape_out_of_range pw inp T name v t z what HS Ho Et Hi OUT Hf) as X.
          rewrite HI in X. injection X as ->. eapply Rf_range; eauto. }
        assert (FS : (forall z, ~ integer (is_wide (et_serde T)) v z) -> refusal pw inp (et_serde T) (et_deny_unknown T) name v e).
        { intros N. assert (F : ~ fits (et_serde T) v).
          { destruct (et_serde T); try discriminate Et; cbn [fits]; intros (z & Hz); exact (N z Hz). }
          pose proof (shape_refused pw inp T name v _ HS F (found_default v)) as X. rewrite HI in X. injection X as ->.
          apply Rf_shape; [exact F|apply found_default]. }
        destruct v; try solve [apply FS; intros z [(n' & [=] & _)|[[=]|(_ & [(n' & [=] & _)|[=]])]]].
        -- eapply FV. left. eexists. split; reflexivity.
        -- eapply FV. right. left. reflexivity.
        -- destruct (is_wide (et_serde T)) eqn:W; [eapply FV; right; right; split; [reflexivity|]; left; eexists; split; reflexivity|].
           apply FS. intros z [(n' & [=] & _)|[[=]|([=] & _)]].
        -- destruct (is_wide (et_serde T)) eqn:W; [eapply FV; right; right; split; [reflexivity|]; right; reflexivity|].
           apply FS. intros z' [(n' & [=] & _)|[[=]|([=] & _)]].
    + assert (FS : ~ fits (et_serde T) v -> refusal pw inp (et_serde T) (et_deny_unknown T) name v e).
      { intros F. pose proof (shape_refused pw inp T name v _ HS F (found_default v)) as X. rewrite E in X. injection X as ->.
        apply Rf_shape; [exact F|apply found_default]. }
      rewrite visit_at in E.
      destruct (int_cases T Et) as [Es|[Es|Es]].
      * destruct v; try solve [apply FS; rewrite Es; cbn [fits]; intros (? & ? & [=])].
        pose proof (SerdeClaims.list_input pw inp T _ HS HO Es) as HL. cbn [src_at src_of src_list] in HL.
        destruct (all_ok variants) as [vs|e'] eqn:Ea; [destruct HL as (s & E' & _); rewrite E in E'; discriminate|].
        rewrite E in HL. injection HL as <-. eapply Rf_list; [exact Es|reflexivity|now apply all_ok_err].
      * destruct v; try solve [apply FS; rewrite Es; cbn [fits]; intros (? & [=])].
        pose proof (SerdeClaims.map_input pw inp T _ HS HO Es) as HL. cbn [src_at src_of src_map] in HL.
        destruct (all_ok entries) as [vs|e'] eqn:Ea; [destruct HL as (s & E' & _); rewrite E in E'; discriminate|].
        rewrite E in HL. injection HL as <-. eapply Rf_map; [exact Es|reflexivity|now apply all_ok_err].
      * destruct v; try solve [apply FS; rewrite Es; cbn [fits]; intros (? & ? & [=])].
        pose proof (SerdeClaims.array_input pw inp T _ HS HO Es) as HL. cbn [src_at src_of src_words] in HL.
        destruct (all_ok words) as [ws|e'] eqn:Ea.
        -- destruct HL as [H1 H2]. apply all_ok_inv in Ea. subst words.
           assert (Hw : words_ok ws). { apply Forall_forall. intros w Hin. apply Ho. apply in_map. exact Hin. }
           destruct (JsonClaims.only_variant_words_dec pw inp T (firstn (N.to_nat (storage_words (storage_of inp))) ws) HS (JsonClaims.words_ok_firstn _ ws Hw)) as [Y|Y].
           ++ destruct (H1 Y) as (s & E' & _). rewrite E in E'. discriminate.
           ++ rewrite (H2 Y) in E. discriminate.
        -- rewrite E in HL. injection HL as <-. eapply Rf_words; [exact Es|reflexivity|now apply all_ok_err].
  - intros [what F Hf|t z what Et Hi Hz Hf|t x Et Hd Hi Hx Hu|vs ws e' Es -> He|es e' Es -> He|vs ws e' Es -> He].
    + exact (shape_refused pw inp T name v what HS F Hf).
    + exact (shape_out_of_range pw inp T name v t z what HS Ho Et Hi Hz Hf).
    + rewrite visit_at. pose proof (SerdeClaims.int_input pw inp T t (src_at T name v) HS Et Hc) as HI.
      rewrite (src_at_int _ _ _ _ Et), (visit_int_gives _ _ _ _ pw inp Et Ho Hi Hx) in HI. exact (proj1 (HI Hx) Hd Hu).
    + rewrite visit_at. pose proof (SerdeClaims.list_input pw inp T _ HS HO Es) as HL. cbn [src_at src_of src_list] in HL.
      apply all_ok_err in He. now rewrite He in HL.
    + rewrite visit_at. pose proof (SerdeClaims.map_input pw inp T _ HS HO Es) as HL. cbn [src_at src_of src_map] in HL.
      apply all_ok_err in He. now rewrite He in HL.
    + rewrite visit_at. pose proof (SerdeClaims.array_input pw inp T _ HS HO Es) as HL. cbn [src_at src_of src_words] in HL.
      apply all_ok_err in He. now rewrite He in HL.
Qed.

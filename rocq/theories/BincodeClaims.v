(** * Claims about the bytes that are read as sets *)
From Verif Require Import Base BaseFacts LimbFacts Prim ArrayRepr Repr ReprLaws PrimFacts ArrayFacts.
From Verif Require Import Syntax Spec Derive EnumSet Serde ApiSpec DeriveFacts TyFacts SetFacts IterFacts ConvFacts FmtFacts SerdeFacts ReachFacts SetClaims ConvClaims DeriveClaims SerdeClaims WireSpec Bincode BincodeFacts BincodeReadFacts WireClaims.
From Verif Require JsonClaims.
Ltac Zify.zify_post_hook ::= Z.div_mod_to_equations.

Section Read.
Context {pw : N} {inp : derive_input} {T : EnumTy} (HS : Supported pw inp T).
Lemma pw_le : pw <= 64.
Proof. destruct (sup_usize _ _ _ HS) as [->|[->| ->]]; lia. Qed.
Lemma pw_of : et_pw T = pw.
Proof. destruct (setup _ _ _ HS) as (val & irel & HT & HV). exact (tl_pw _ _ _ _ _ HT). Qed.
Lemma variants_length : length (et_variants T) = length (in_variants inp).
Proof.
  destruct (setup _ _ _ HS) as (val & irel & HT & HV). rewrite <- (map_length snd), (tl_variants _ _ _ _ _ HT). apply discrs_length.
Qed.
Lemma variants_u32 : N.of_nat (length (in_variants inp)) <= 2 ^ 32.
Proof.
  destruct (sup_derive _ _ _ HS) as [md Hmd]. destruct (derive_ok _ _ _ Hmd) as (HW & _). pose proof (count_lt_u32 inp HW). lia.
Qed.
Lemma ity_whole t : N.of_nat (ity_bytes pw t) = ity_bits pw t / 8 /\ 8 * N.of_nat (ity_bytes pw t) = ity_bits pw t /\ (0 < ity_bytes pw t)%nat.
Proof.
  unfold ity_bytes. rewrite N2Nat.id. destruct (sup_usize _ _ _ HS) as [->|[->| ->]]; destruct t; cbn; repeat split; lia.
Qed.
Lemma count_bytes n count : little_endian 8 n count -> count = le_bytes 8 n.
Proof. intros H. now apply little_endian_inv in H. Qed.
Lemma variant_items vs items : Forall2 (fun v item => little_endian 4 (N.of_nat v) item) vs items ->
  items = map (fun v => le_bytes 4 (N.of_nat v)) vs.
Proof. apply items_map. intros v i H. now apply little_endian_inv in H. Qed.
Lemma entry_items (es : list (nat * bool)) items :
  Forall2 (fun e item => exists key, little_endian 4 (N.of_nat (fst e)) key /\ item = key ++ [if snd e : bool then 1 else 0]) es items ->
  items = map enc_entry es.
Proof. apply items_map. intros [v b] i (key & H & ->). apply little_endian_inv in H as [-> _]. reflexivity. Qed.
Lemma word_items ws items : Forall2 (little_endian 8) ws items -> items = map (le_bytes 8) ws /\ words_ok ws.
Proof.
  intros H. split; [revert H; apply items_map; intros w i H; now apply little_endian_inv in H|].
  induction H as [|w i ws items Hw _ IH]; constructor; auto. now apply little_endian_inv in Hw.
Qed.

Lemma bincode_stands_reads used rest A : serde_compiles T = true -> bytes_ok (used ++ rest) ->
  bincode_stands pw inp (et_serde T) (et_deny_unknown T) used A ->
  exists s, bin_deserialize T (used ++ rest) = Ret (Ok s) /\ Denotes inp T s A.
Proof.
  intros Hc Hb H. pose proof (bin_source_ok pw inp T _ HS Hb) as Ho. unfold bin_deserialize.
  assert (HI : forall x t, sr_ity (et_serde T) = Some t -> little_endian (ity_bits pw t / 8) x used ->
      (et_deny_unknown T = true -> only_variant_bits inp x) -> (forall v, A v = bits_set inp x v) ->
      exists s, es_deserialize T (bin_source T (used ++ rest)) = Ret (Ok s) /\ Denotes inp T s A).
  { intros x t Et Hx Hd HA. destruct (ity_whole t) as (E1 & E2 & _). rewrite <- E1 in Hx.
    apply little_endian_inv in Hx as [-> Hx]. rewrite Nat2N.id in *. rewrite E2 in Hx.
    pose proof (int_input pw inp T t (bin_source T (le_bytes (ity_bytes pw t) x ++ rest)) HS Et Hc) as HI.
    cbn [bin_source src_int] in HI. rewrite pw_of, read_le in HI by now rewrite E2.
    destruct (HI Hx) as [_ H2]. destruct H2 as (s & E & HD); [destruct (et_deny_unknown T); auto|]. exists s. split; [exact E|].
    eapply JsonClaims.denotes_ext; [exact HD|]. intros v _. now rewrite HA. }
  destruct (et_serde T) eqn:Es; cbn [bincode_stands] in H.
  all: try (destruct H as (x & t & Et & Hx & Hd & HA); exact (HI x t Et Hx Hd HA)).
  - destruct H as (vs & count & items & HV & Hn & Hcnt & HF & -> & HA). apply count_bytes in Hcnt as ->. apply variant_items in HF as ->.
    pose proof (list_input pw inp T _ HS Ho Es) as HL. cbn [bin_source src_list] in HL.
    rewrite pw_of, variants_length, <- app_assoc in HL.
    rewrite (read_seq_all _ _ _ pw vs rest (variant_codec _ variants_u32) HV pw_le Hn), all_ok_map_Ok in HL.
    destruct HL as (s & E & HD). exists s. rewrite <- app_assoc. split; [exact E|]. eapply JsonClaims.denotes_ext; [exact HD|]. intros v _. cbv beta.
    eapply JsonClaims.same_bool; [apply JsonClaims.existsb_eqb|apply HA].
  - destruct H as (es & count & items & HV & Hn & Hcnt & HF & -> & HA). apply count_bytes in Hcnt as ->. apply entry_items in HF as ->.
    pose proof (map_input pw inp T _ HS Ho Es) as HL. cbn [bin_source src_map] in HL.
    rewrite pw_of, variants_length, <- app_assoc in HL.
    rewrite (read_seq_all _ _ _ pw es rest (entry_codec _ variants_u32) HV pw_le Hn), all_ok_map_Ok in HL.
    destruct HL as (s & E & HD). exists s. rewrite <- app_assoc. split; [exact E|]. eapply JsonClaims.denotes_ext; [exact HD|]. intros v _. cbv beta.
    eapply JsonClaims.same_bool; [apply JsonClaims.existsb_entry|apply HA].
  - destruct H as (ws & count & items & Hn & Hcnt & HF & -> & Hu & HA). apply count_bytes in Hcnt as ->. apply word_items in HF as [-> Hw].
    pose proof (array_input pw inp T _ HS Ho Es) as HL. cbn [bin_source src_words] in HL.
    rewrite pw_of, <- app_assoc in HL.
    rewrite (read_seq_all _ _ _ pw ws rest (int_codec 8 ltac:(lia)) Hw pw_le Hn), all_ok_map_Ok in HL.
    destruct HL as [H1 _]. destruct (H1 Hu) as (s & E & HD). exists s. rewrite <- app_assoc. split; [exact E|].
    eapply JsonClaims.denotes_ext; [exact HD|]. intros v _. cbv beta. now rewrite HA.
Qed.

Lemma bincode_reads_stand input s : serde_compiles T = true -> bytes_ok input ->
  bin_deserialize T input = Ret (Ok s) ->
  exists A used rest, input = used ++ rest /\ bincode_stands pw inp (et_serde T) (et_deny_unknown T) used A /\ Denotes inp T s A.
Proof.
  intros Hc Hb Ed. pose proof (bin_source_ok pw inp T _ HS Hb) as Ho. unfold bin_deserialize in Ed.
  assert (HI : forall t, sr_ity (et_serde T) = Some t -> exists x used rest, input = used ++ rest /\
      little_endian (ity_bits pw t / 8) x used /\ (et_deny_unknown T = true -> only_variant_bits inp x) /\ Denotes inp T s (bits_set inp x)).
  { intros t Et. pose proof (int_input pw inp T t (bin_source T input) HS Et Hc) as HI.
    cbn [bin_source src_int] in HI. rewrite pw_of in HI.
    destruct (read_int (ity_bytes pw t) input) as [[x rest]|e] eqn:Er; [|rewrite Ed in HI; discriminate].
    apply read_int_inv in Er as (Hx & Ei & _); [|assumption]. destruct (ity_whole t) as (E1 & E2 & _).
    assert (Hx' := Hx). rewrite E2 in Hx'. destruct (HI Hx') as [H1 H2].
    assert (Hd : et_deny_unknown T = true -> only_variant_bits inp x).
    { intros Hd. destruct (JsonClaims.only_variant_bits_dec pw inp T x HS) as [Hu|Hu]; [assumption|]. rewrite (H1 Hd Hu) in Ed. discriminate. }
    exists x, (le_bytes (ity_bytes pw t) x), rest. split; [assumption|]. split; [rewrite <- E1; now apply le_spec|]. split; [assumption|].
    destruct H2 as (s' & E & HD); [destruct (et_deny_unknown T); auto|]. rewrite Ed in E. injection E as <-. assumption. }
  destruct (et_serde T) eqn:Es; cbn [bincode_stands].
  all: try (destruct (HI _ eq_refl) as (x & used & rest & Hi & Hx & Hd & HD); exists (bits_set inp x), used, rest; split; [assumption|]; split; [|assumption]; eexists x, _; split; [reflexivity|]; auto; fail).
  - pose proof (list_input pw inp T _ HS Ho Es) as HL. cbn [bin_source src_list] in HL. rewrite pw_of, variants_length in HL.
    destruct (read_seq _ _ input) as [items|e] eqn:Er; [|rewrite Ed in HL; discriminate].
    destruct (all_ok items) as [vs|e] eqn:Ea; [|rewrite Ed in HL; discriminate].
    destruct HL as (s' & E & HD). rewrite Ed in E. injection E as <-.
    destruct (read_seq_inv _ _ _ pw input items vs (variant_exact _) (cd_nonempty _ _ _ (variant_codec _ variants_u32)) Hb Er Ea) as (H1 & H2 & H3 & rest & ->).
    do 2 eexists. exists rest. split; [reflexivity|]. split; [|exact HD].
    exists vs, (le_bytes 8 (N.of_nat (length vs))), (map (fun v => le_bytes 4 (N.of_nat v)) vs).
    split; [exact H1|]. split; [assumption|]. split; [assumption|]. split; [|split; [reflexivity|intros v; apply JsonClaims.existsb_eqb]].
    eapply map_items; [|exact H1]. intros v Hv. cbv beta in *. apply (le_spec 4). change (8 * N.of_nat 4) with 32. pose proof variants_u32. lia.
  - pose proof (map_input pw inp T _ HS Ho Es) as HL. cbn [bin_source src_map] in HL. rewrite pw_of, variants_length in HL.
    destruct (read_seq _ _ input) as [items|e] eqn:Er; [|rewrite Ed in HL; discriminate].
    destruct (all_ok items) as [es|e] eqn:Ea; [|rewrite Ed in HL; discriminate].
    destruct HL as (s' & E & HD). rewrite Ed in E. injection E as <-.
    destruct (read_seq_inv _ _ _ pw input items es (entry_exact _) (cd_nonempty _ _ _ (entry_codec _ variants_u32)) Hb Er Ea) as (H1 & H2 & H3 & rest & ->).
    do 2 eexists. exists rest. split; [reflexivity|]. split; [|exact HD].
    exists es, (le_bytes 8 (N.of_nat (length es))), (map enc_entry es).
    split; [exact H1|]. split; [assumption|]. split; [assumption|]. split; [|split; [reflexivity|intros v; apply JsonClaims.existsb_entry]].
    eapply map_items; [|exact H1]. intros [v b] Hv. cbn [fst snd] in *. exists (le_bytes 4 (N.of_nat v)). split; [|reflexivity].
    apply (le_spec 4). change (8 * N.of_nat 4) with 32. pose proof variants_u32. lia.
  - pose proof (array_input pw inp T _ HS Ho Es) as HL. cbn [bin_source src_words] in HL. rewrite pw_of in HL.
    destruct (read_seq _ _ input) as [items|e] eqn:Er; [|rewrite Ed in HL; discriminate].
    destruct (all_ok items) as [ws|e] eqn:Ea; [|rewrite Ed in HL; discriminate]. destruct HL as [H1 H2].
    destruct (read_seq_inv _ _ _ pw input items ws (int_exact 8) (cd_nonempty _ _ _ (int_codec 8 ltac:(lia))) Hb Er Ea) as (H3 & H4 & H5 & rest & ->).
    set (u := firstn _ ws) in *.
    destruct (JsonClaims.only_variant_words_dec pw inp T u HS (JsonClaims.words_ok_firstn _ ws H3)) as [Hu|Hu]; [|rewrite (H2 Hu) in Ed; discriminate].
    destruct (H1 Hu) as (s' & E & HD). rewrite Ed in E. injection E as <-.
    do 2 eexists. exists rest. split; [reflexivity|]. split; [|exact HD].
    exists ws, (le_bytes 8 (N.of_nat (length ws))), (map (le_bytes 8) ws). split; [assumption|]. split; [assumption|].
    split; [|split; [reflexivity|split; [assumption|reflexivity]]].
    eapply map_items; [|exact H3]. intros w Hw. apply (le_spec 8). exact Hw.
Qed.
End Read.

Lemma bincode_accepted pw inp T input s : Supported pw inp T -> serde_compiles T = true -> bytes_ok input ->
  (bin_deserialize T input = Ret (Ok s) <->
   Reachable pw inp T s /\
   exists A used rest, input = used ++ rest /\ bincode_stands pw inp (et_serde T) (et_deny_unknown T) used A /\ Denotes inp T s A).
Proof.
  intros HS Hc Hb.
  assert (HR : forall s', bin_deserialize T input = Ret (Ok s') -> Reachable pw inp T s').
  { intros s' E. destruct (bincode_input pw inp T input HS Hc Hb) as [[e E']|[(s2 & E' & R)|[_ E']]]; rewrite E in E';
      try discriminate. now injection E' as ->. }
  split.
  - intros E. split; [now apply HR|]. now apply (bincode_reads_stand HS).
  - intros (R & A & used & rest & -> & HA & HD).
    destruct (bincode_stands_reads HS used rest A Hc Hb HA) as (s' & E & HD').
    rewrite E. do 2 f_equal. apply (proj2 (eq_members pw inp T s' A s A HS (HR s' E) HD' R HD)). reflexivity.
Qed.
Lemma bincode_panics pw inp T input m : Supported pw inp T -> serde_compiles T = true -> bytes_ok input ->
  (bin_deserialize T input = Panic m <->
   m = PExpect "Bitset contains invalid variants." /\ et_serde T = SArray /\
   exists ws count items rest, input = count ++ concat items ++ rest /\ N.of_nat (length ws) < 2 ^ pw /\
     little_endian 8 (N.of_nat (length ws)) count /\ Forall2 (little_endian 8) ws items /\
     ~ only_variant_words inp (firstn (N.to_nat (storage_words (storage_of inp))) ws)).
Proof.
  intros HS Hc Hb. pose proof (bin_source_ok pw inp T _ HS Hb) as Ho. split.
  - intros Ed. destruct (bincode_input pw inp T input HS Hc Hb) as [[e E']|[(s2 & E' & R)|[Es E']]]; rewrite Ed in E'; try discriminate.
    injection E' as ->. split; [reflexivity|]. split; [assumption|]. unfold bin_deserialize in Ed.
    pose proof (array_input pw inp T _ HS Ho Es) as HL. cbn [bin_source src_words] in HL. rewrite (pw_of HS) in HL.
    destruct (read_seq _ _ input) as [items|e] eqn:Er; [|rewrite Ed in HL; discriminate].
    destruct (all_ok items) as [ws|e] eqn:Ea; [|rewrite Ed in HL; discriminate]. destruct HL as [H1 H2].
    destruct (read_seq_inv _ _ _ pw input items ws (int_exact 8) (cd_nonempty _ _ _ (int_codec 8 ltac:(lia))) Hb Er Ea) as (H3 & H4 & H5 & rest & ->).
    exists ws, (le_bytes 8 (N.of_nat (length ws))), (map (le_bytes 8) ws), rest. split; [now rewrite <- app_assoc|].
    split; [assumption|]. split; [assumption|]. split.
    + eapply map_items; [|exact H3]. intros w Hw. apply (le_spec 8). exact Hw.
    + intros Hu. destruct (H1 Hu) as (s & E & _). rewrite Ed in E. discriminate.
  - intros (-> & Es & ws & count & items & rest & -> & Hn & Hcnt & HF & Hu).
    apply count_bytes in Hcnt as ->. apply word_items in HF as [-> Hw].
    pose proof (array_input pw inp T _ HS Ho Es) as HL. cbn [bin_source src_words] in HL. rewrite (pw_of HS) in HL.
    rewrite (read_seq_all _ _ _ pw ws rest (int_codec 8 ltac:(lia)) Hw (pw_le HS) Hn), all_ok_map_Ok in HL.
    destruct HL as [_ H2]. exact (H2 Hu).
Qed.

(** * Claims about agreement of conversions, declaration order, unwinding, unfused sequences *)
From Verif Require Import Base BaseFacts LimbFacts Repr ReprLaws.
From Verif Require Import Syntax Spec Derive EnumSet Serde ApiSpec ExtraSpec TyFacts SetFacts IterFacts ConvFacts MacroFacts SerdeFacts ReachFacts.
From Verif Require Import DeriveFacts SetClaims SerdeClaims MiscClaims EvolveClaims.
From Verif Require IterClaims ConvClaims.
Ltac Zify.zify_post_hook ::= Z.div_mod_to_equations.

(** ** C44 *)
Lemma upd_length {A} (l : list A) i x : length (upd l i x) = length l.
Proof. revert i. induction l as [|a l IH]; intros [|i]; cbn; auto. Qed.
Lemma fill_answers l : forall accum i, (i < length accum)%nat ->
  match de_array_fill (before_end l) accum i with
  | Ret (Ok (acc, rest)) =>
      exists rest', de_array_fill_answers l accum i = Ret (Ok (acc, rest')) /\
        ((length accum - i <= length (before_end l))%nat /\ before_end rest' = rest \/
         (length (before_end l) < length accum - i)%nat /\ rest = [] /\ rest' = after_end l)
  | Ret (Err e) => de_array_fill_answers l accum i = Ret (Err e)
  | _ => False
  end.
Proof.
  induction l as [|[[x|]|e] l IH]; intros accum i Hi; cbn [before_end after_end de_array_fill de_array_fill_answers length].
  - exists []. split; [reflexivity|]. right. split; [lia|auto].
  - unfold set. destruct (Nat.ltb_spec i (length accum)) as [_|]; [|lia]. rewrite !bind_ret, !upd_length.
    destruct (Nat.eqb_spec (S i) (length accum)) as [E|E].
    + exists l. split; [reflexivity|]. left. split; [lia|reflexivity].
    + specialize (IH (upd accum i x) (S i)). rewrite upd_length in IH. specialize (IH ltac:(lia)).
      destruct (de_array_fill (before_end l) (upd accum i x) (S i)) as [[[acc rest]|e]| | |]; auto.
      destruct IH as (rest' & E1 & E2). exists rest'. split; [exact E1|]. destruct E2 as [(H1 & H2)|(H1 & H2 & H3)]; [left|right]; repeat split; auto; lia.
  - exists l. split; [reflexivity|]. right. split; [lia|auto].
  - reflexivity.
Qed.
Lemma rest_answers l : de_array_rest_answers l = match all_ok (before_end l) with Ok _ => Ok tt | Err e => Err e end.
Proof.
  induction l as [|[[x|]|e] l IH]; cbn [de_array_rest_answers before_end all_ok]; auto. rewrite IH. now destruct (all_ok (before_end l)).
Qed.
Lemma fill_short items : forall accum i, (length items < length accum - i)%nat ->
  match all_ok items with
  | Ok _ => exists acc, de_array_fill items accum i = Ret (Ok (acc, []))
  | Err e => de_array_fill items accum i = Ret (Err e)
  end.
Proof.
  induction items as [|[x|e] items IH]; intros accum i Hi; cbn [all_ok de_array_fill length] in *; [eauto| |reflexivity].
  unfold set. destruct (Nat.ltb_spec i (length accum)) as [_|]; [|lia]. rewrite bind_ret, upd_length.
  destruct (Nat.eqb_spec (S i) (length accum)) as [E|E]; [lia|].
  specialize (IH (upd accum i x) (S i)). rewrite upd_length in IH. specialize (IH ltac:(lia)). now destruct (all_ok items).
Qed.
Lemma unfused_input pw inp T l : Supported pw inp T ->
  let n := r_preferred_array_len (et_repr T) in
  let first := before_end l in let later := before_end (after_end l) in
  ((n <= length first)%nat -> de_array_answers T l = de_array T (Ok first)) /\
  ((length first < n)%nat ->
     match all_ok first, all_ok later with
     | Ok _, Err e => de_array_answers T l = Ret (Err e)
     | _, _ => de_array_answers T l = de_array T (Ok first)
     end).
Proof.
  intros HS n first later. subst n first later. start. pose proof (rl_pref_pos _ _ _ _ _ (tl_repr _ _ _ _ _ HT)) as HP.
  set (n := r_preferred_array_len (et_repr T)) in *.
  pose proof (fill_answers l (repeat 0 n) 0) as HF. rewrite repeat_length, Nat.sub_0_r in HF. specialize (HF HP).
  unfold de_array_answers, de_array. fold n. split; intros Hn.
  - destruct (de_array_fill (before_end l) (repeat 0 n) 0) as [[[acc rest]|e]| | |]; try contradiction; [|now rewrite HF].
    destruct HF as (rest' & E1 & [[_ E2]|[H _]]); [|lia]. rewrite E1, !bind_ret. cbn [try_].
    rewrite rest_answers, E2, (rest_spec rest). reflexivity.
  - pose proof (fill_short (before_end l) (repeat 0 n) 0) as HS'. rewrite repeat_length, Nat.sub_0_r in HS'. specialize (HS' Hn).
    destruct (all_ok (before_end l)) as [ws|e].
    + destruct HS' as (acc & E). rewrite E in HF. destruct HF as (rest' & E1 & [[H _]|(_ & _ & ->)]); [lia|].
      rewrite E1, E, !bind_ret. cbn [try_]. rewrite rest_answers. now destruct (all_ok (before_end (after_end l))).
    + rewrite HS' in *. now rewrite HF.
Qed.

(** ** C25 *)
Lemma extend_unwind_members pw inp T s A steps : Supported pw inp T -> Reachable pw inp T s -> Denotes inp T s A ->
  (forall v, In v (delivered steps) -> variant inp v) ->
  exists s', es_extend_unwind T s steps = Ret (s', panics steps) /\ es_extend T s (delivered steps) = Ret s' /\
    Reachable pw inp T s' /\ Denotes inp T s' (fun v => A v || existsb (Nat.eqb v) (delivered steps)).
Proof.
  intros HS HR HA Hi.
  destruct (collect_variants pw inp T s A (delivered steps) HS HR HA Hi) as ((s' & E & HD) & _). exists s'. repeat split; auto.
  - clear HD HA HR A. unfold es_extend in E. revert s E Hi. induction steps as [|[v|] steps IH]; intros s E Hi; cbn [delivered for_each es_extend_unwind panics existsb orb] in *.
    + now inversion E.
    + destruct (es_insert T s v) as [[b s1]| | |]; try discriminate. rewrite bind_ret in *. cbn [bind] in E. apply IH; auto. intros; apply Hi; now right.
    + now inversion E.
  - now apply R_extend with (a := s) (items := delivered steps).
Qed.
Lemma extend_sets_unwind_members pw inp T s A steps Bs : Supported pw inp T -> Reachable pw inp T s -> Denotes inp T s A ->
  Forall2 (fun x B => Reachable pw inp T x /\ Denotes inp T x B) (delivered steps) Bs ->
  exists s', es_extend_sets_unwind T s steps = Ret (s', panics steps) /\ es_extend_sets T s (delivered steps) = Ret s' /\
    Reachable pw inp T s' /\ Denotes inp T s' (fun v => A v || existsb (fun B => B v) Bs).
Proof.
  intros HS HR HA Hi.
  destruct (collect_sets pw inp T s A (delivered steps) Bs HS HR HA Hi) as ((s' & E & HD) & _). exists s'. repeat split; auto.
  - clear HD HA HR A Hi. unfold es_extend_sets in E. revert s E. induction steps as [|[v|] steps IH]; intros s E; cbn [delivered for_each es_extend_sets_unwind panics existsb orb] in *.
    + now inversion E.
    + destruct (es_insert_all T s v) as [s1| | |]; try discriminate. rewrite bind_ret in *. apply IH; auto.
    + now inversion E.
  - apply R_extend_sets with (a := s) (items := delivered steps); auto.
    intros x Hx. apply In_nth_error in Hx as (k & Hk). clear - Hi Hk. revert k Hk. induction Hi as [|x' B l Bs' [H _] _ IH]; intros [|k] Hk; cbn in Hk; try discriminate; [congruence|eauto].
Qed.

(** ** C52 *)
Lemma nth_firstn_lt {A} (l : list A) d : forall k i, (i < k)%nat -> nth i (firstn k l) d = nth i l d.
Proof. induction l as [|a l IH]; intros [|k] [|i] H; cbn; auto; try lia. apply IH. lia. Qed.
Lemma limbs_prefix k n x : x < 2 ^ (64 * N.of_nat n) -> limbs k x = firstn k (limbs n x ++ repeat 0 k).
Proof.
  intros Hx. apply (nth_ext _ _ 0 0).
  - rewrite firstn_length, app_length, !limbs_length, repeat_length. lia.
  - intros i Hi. rewrite limbs_length in Hi. rewrite nth_firstn_lt by assumption. rewrite limbs_nth.
    destruct (Nat.ltb_spec i k) as [_|]; [|lia]. destruct (Nat.ltb_spec i n) as [Hn|Hn].
    + rewrite app_nth1 by (now rewrite limbs_length). rewrite limbs_nth. destruct (Nat.ltb_spec i n); [reflexivity|lia].
    + rewrite app_nth2 by (rewrite limbs_length; lia). rewrite nth_repeat. unfold limb.
      rewrite N.div_small; [apply N.mod_0_l; lia|].
      eapply N.lt_le_trans; [exact Hx|]. apply N.pow_le_mono_r; lia.
Qed.
Lemma limbs_1 x : limbs 1 x = [x mod 2 ^ 64].
Proof. unfold limbs, limb. cbn [seq map]. change (64 * N.of_nat 0) with 0. now rewrite N.pow_0_r, N.div_1_r. Qed.
Lemma limbs_2 x : limbs 2 x = [x mod 2 ^ 128 mod 2 ^ 64; x mod 2 ^ 128 / 2 ^ 64].
Proof.
  unfold limbs, limb. cbn [seq map]. change (64 * N.of_nat 0) with 0. change (64 * N.of_nat 1) with 64. rewrite N.pow_0_r, N.div_1_r.
  change (2 ^ 128) with (2 ^ 64 * 2 ^ 64). set (q := 2 ^ 64). assert (q <> 0) by discriminate. clearbody q.
  rewrite N.mod_mul_r by assumption. set (r := x mod q). assert (r < q) by (apply N.mod_lt; assumption). f_equal; [|f_equal].
  - rewrite (N.mul_comm q), N.mod_add by assumption. symmetry. now apply N.mod_small.
  - rewrite (N.mul_comm q), N.div_add by assumption. rewrite (N.div_small r q) by assumption. lia.
Qed.
Lemma conversions_agree pw inp T s : Supported pw inp T -> Reachable pw inp T s ->
  (forall out, es_copy_into_slice_truncated T s out = es_as_array_truncated T s (length out) /\
     es_try_copy_into_slice T s out =
       (o <- es_try_as_array T s (length out) ;; Ret (match o with Some ws => (Some tt, ws) | None => (None, out) end))) /\
  (forall k, es_as_array_truncated T s k = (ws <- es_to_vec T s ;; Ret (firstn k (ws ++ repeat 0 k)))) /\
  es_as_array_truncated T s 1 = (x <- es_as_truncated T U64 s ;; Ret [x]) /\
  es_try_as_array T s 1 = (o <- es_try_as T U64 s ;; Ret (option_map (fun x => [x]) o)) /\
  es_as_array_truncated T s 2 = (x <- es_as_truncated T U128 s ;; Ret [x mod 2 ^ 64; x / 2 ^ 64]) /\
  es_try_as_array T s 2 = (o <- es_try_as T U128 s ;; Ret (option_map (fun x => [x mod 2 ^ 64; x / 2 ^ 64]) o)) /\
  (forall t, es_as_truncated T t s = (x <- es_as_truncated T U128 s ;; Ret (x mod 2 ^ ity_bits pw t))) /\
  (forall t t', ity_bits pw t <= ity_bits pw t' ->
     es_try_as T t s = (o <- es_try_as T t' s ;;
                        Ret (match o with Some x => if x <? 2 ^ ity_bits pw t then Some x else None | None => None end))).
Proof.
  intros HS HR. start. apply HV in HR.
  assert (Hfit : forall n, fits (inp := inp) (mem (inp := inp) (val := val) s) n = true -> set_value inp (mem (inp := inp) (val := val) s) < 2 ^ n).
  { intros n H. apply (set_value_lt inp _ n (D_nodup HT)). now apply fits_spec. }
  assert (Hnfit : forall n, fits (inp := inp) (mem (inp := inp) (val := val) s) n = false -> ~ set_value inp (mem (inp := inp) (val := val) s) < 2 ^ n).
  { intros n H H'. rewrite (set_value_lt inp _ n (D_nodup HT)) in H'. apply fits_spec in H'. congruence. }
  assert (Hv : val s = set_value inp (mem (inp := inp) (val := val) s)) by now apply (valid_val HT).
  assert (Hpw : pw <= 128) by (destruct HS as [[->|[->| ->]] _ _ _]; lia).
  repeat split.
  - rewrite (copy_truncated_spec HT), (as_array_truncated_spec HT) by assumption. reflexivity.
  - rewrite (try_copy_spec HT), (try_as_array_spec HT), bind_ret by assumption. now destruct (fits _ _).
  - intros k. rewrite (as_array_truncated_spec HT), (to_vec_spec HT), bind_ret by assumption. f_equal. apply limbs_prefix.
    rewrite Hv. apply Hfit, (fits_pref HT). lia.
  - rewrite (as_array_truncated_spec HT), (as_truncated_spec HT), bind_ret, limbs_1, Hv by assumption. reflexivity.
  - rewrite (try_as_array_spec HT), (try_as_spec HT), bind_ret by assumption. cbn [ity_bits]. change (64 * N.of_nat 1) with 64.
    destruct (fits (inp := inp) (mem (inp := inp) (val := val) s) 64) eqn:E; [|reflexivity]. cbn [option_map]. rewrite limbs_1, Hv, N.mod_small by now apply Hfit. reflexivity.
  - rewrite (as_array_truncated_spec HT), (as_truncated_spec HT), bind_ret, limbs_2, Hv by assumption. reflexivity.
  - rewrite (try_as_array_spec HT), (try_as_spec HT), bind_ret by assumption. cbn [ity_bits]. change (64 * N.of_nat 2) with 128.
    destruct (fits (inp := inp) (mem (inp := inp) (val := val) s) 128) eqn:E; [|reflexivity]. cbn [option_map]. rewrite limbs_2, Hv, (N.mod_small _ (2 ^ 128)) by now apply Hfit. reflexivity.
  - intros t. rewrite !(as_truncated_spec HT), bind_ret by assumption. f_equal. cbn [ity_bits].
    assert (Ht : ity_bits pw t <= 128) by (destruct t; cbn [ity_bits]; lia).
    replace (2 ^ 128) with (2 ^ ity_bits pw t * 2 ^ (128 - ity_bits pw t)) by (rewrite <- N.pow_add_r; f_equal; lia).
    rewrite N.mod_mul_r by (apply N.pow_nonzero; lia). rewrite (N.mul_comm (2 ^ ity_bits pw t)), N.mod_add by (apply N.pow_nonzero; lia).
    symmetry. apply N.mod_mod, N.pow_nonzero. lia.
  - intros t t' Hle. rewrite !(try_as_spec HT), bind_ret by assumption.
    destruct (fits (inp := inp) (mem (inp := inp) (val := val) s) (ity_bits pw t)) eqn:E.
    + apply Hfit in E. destruct (fits (inp := inp) (mem (inp := inp) (val := val) s) (ity_bits pw t')) eqn:E'.
      * now rewrite (proj2 (N.ltb_lt _ _) E).
      * exfalso. apply (Hnfit _ E'). eapply N.lt_le_trans; [exact E|]. apply N.pow_le_mono_r; lia.
    + destruct (fits (inp := inp) (mem (inp := inp) (val := val) s) (ity_bits pw t')); [|reflexivity]. destruct (N.ltb_spec (set_value inp (mem (inp := inp) (val := val) s)) (2 ^ ity_bits pw t)) as [H|]; [|reflexivity].
      exfalso. now apply (Hnfit _ E).
Qed.

(** ** C53 *)
Lemma embed_onto inp inp' f : NoDup (discrs inp) -> NoDup (discrs inp') -> embeds inp inp' f ->
  length (in_variants inp) = length (in_variants inp') ->
  forall u, variant inp' u -> exists v, variant inp v /\ f v = u.
Proof.
  intros HD HD' HE Hl u Hu. pose proof (known_dec inp inp' f u Hu) as [H|[_ Hn]]; [exact H|exfalso].
  assert (Hi : NoDup (u :: map f (variants inp))).
  { constructor.
    - intros H. apply in_map_iff in H as (v & E & Hv). apply (Hn v); [now apply variants_In|exact E].
    - assert (Hinj : forall l, (forall v, In v l -> variant inp v) -> NoDup l -> NoDup (map f l)).
      { induction l as [|v l IH]; intros Hv Hnd; cbn [map]; constructor; inversion Hnd; subst.
        - intros H. apply in_map_iff in H as (w & E & Hw). assert (w = v); [|now subst].
          apply (discr_inj inp w v HD); [apply Hv; now right|apply Hv; now left|].
          rewrite <- (emb_discr _ _ _ HE w), <- (emb_discr _ _ _ HE v), E; auto; apply Hv; [now left|now right].
        - apply IH; auto. intros w Hw. apply Hv. now right. }
      apply Hinj; [intros v Hv; now apply variants_In|apply seq_NoDup]. }
  apply (NoDup_incl_length (l' := variants inp')) in Hi.
  - cbn [length] in Hi. rewrite map_length in Hi. unfold variants in Hi. rewrite !seq_length in Hi. lia.
  - intros x [<-|Hx]; [now apply variants_In|]. apply in_map_iff in Hx as (v & <- & Hv).
    apply variants_In, (emb_variant _ _ _ HE). now apply variants_In.
Qed.
Lemma max_discr_le inp b : max_discr inp <= b <-> forall v, variant inp v -> discr inp v <= b.
Proof.
  assert (H : max_discr inp <= b <-> forall d, In d (discrs inp) -> d <= b).
  { unfold max_discr. induction (discrs inp) as [|d l IH]; cbn [fold_right In].
    - split; [intros _ d []|intros _; lia].
    - rewrite N.max_lub_iff, IH. split; [intros [H1 H2] e [<-|He]; auto|intros HH; split; auto]. }
  rewrite H. split; intros HH.
  - intros v Hv. apply HH, In_discr. eauto.
  - intros d Hd. apply In_discr in Hd as (v & Hv & <-). auto.
Qed.
Lemma order_storage inp inp' f : NoDup (discrs inp) -> NoDup (discrs inp') -> embeds inp inp' f ->
  length (in_variants inp) = length (in_variants inp') -> in_attrs inp = in_attrs inp' ->
  max_discr inp = max_discr inp' /\ storage_of inp = storage_of inp' /\ serialize_name inp = serialize_name inp'.
Proof.
  intros HD HD' HE Hl Ha. assert (Hm : max_discr inp = max_discr inp').
  { apply N.le_antisymm; apply max_discr_le.
    - intros v Hv. rewrite <- (emb_discr _ _ _ HE v Hv). apply (proj1 (max_discr_le inp' (max_discr inp')) (N.le_refl _)).
      now apply (emb_variant _ _ _ HE).
    - intros u Hu. destruct (embed_onto inp inp' f HD HD' HE Hl u Hu) as (v & Hv & <-). rewrite (emb_discr _ _ _ HE v Hv).
      now apply (proj1 (max_discr_le inp (max_discr inp)) (N.le_refl _)). }
  unfold storage_of, serialize_name. rewrite Hm, Ha. auto.
Qed.
Lemma order_value inp inp' f A : NoDup (discrs inp) -> NoDup (discrs inp') -> embeds inp inp' f ->
  length (in_variants inp) = length (in_variants inp') -> set_value inp (fun v => A (f v)) = set_value inp' A.
Proof.
  intros HD HD' HE Hl. apply bit_eq. intros i. apply eq_true_iff_eq. rewrite !set_value_testbit by assumption. split.
  - intros (v & Hv & HA & <-). exists (f v). split; [now apply (emb_variant _ _ _ HE)|]. split; [assumption|now apply (emb_discr _ _ _ HE)].
  - intros (u & Hu & HA & <-). destruct (embed_onto inp inp' f HD HD' HE Hl u Hu) as (v & Hv & <-). exists v.
    split; [assumption|]. split; [assumption|]. symmetry. now apply (emb_discr _ _ _ HE).
Qed.
Lemma order_lists inp inp' f A l : NoDup (discrs inp) -> NoDup (discrs inp') -> embeds inp inp' f ->
  length (in_variants inp) = length (in_variants inp') -> lists_set inp (fun v => A (f v)) l -> lists_set inp' A (map f l).
Proof.
  intros HD HD' HE Hl [Hs Hin]. split.
  - assert (Hv : forall v, In v l -> variant inp v) by (intros v Hv; now apply Hin). clear Hin.
    induction Hs as [|v l Hs IH Hf]; cbn [map]; constructor.
    + apply IH. intros w Hw. apply Hv. now right.
    + rewrite Forall_forall in *. intros u Hu. apply in_map_iff in Hu as (w & <- & Hw). unfold discr_lt.
      rewrite !(emb_discr _ _ _ HE) by (apply Hv; cbn; auto). now apply Hf.
  - intros u. rewrite in_map_iff. split.
    + intros (v & <- & Hv). apply Hin in Hv as [Hv HA]. split; [now apply (emb_variant _ _ _ HE)|exact HA].
    + intros [Hu HA]. destruct (embed_onto inp inp' f HD HD' HE Hl u Hu) as (v & Hv & <-). exists v. split; [reflexivity|]. now apply Hin.
Qed.
Lemma words_of pw inp T s A : Supported pw inp T -> Reachable pw inp T s -> Denotes inp T s A ->
  let n := N.to_nat (storage_words (storage_of inp)) in
  es_to_vec T s = Ret (limbs n (set_value inp A)) /\
  words_hold inp (limbs n (set_value inp A)) A (64 * storage_words (storage_of inp)).
Proof.
  intros HS HR HA n. subst n. destruct (sup_derive _ _ _ HS) as [md HD].
  destruct (DeriveClaims.storage_holds md pw inp T HD) as (_ & Hp & _). rewrite <- Hp, Nat2N.id.
  destruct (ConvClaims.to_vec_lossless pw inp T s A HS HR HA) as (_ & ws & E & _ & Hw & _).
  start. pose proof HR as HR'. apply HV in HR'. rewrite (to_vec_spec HT) in E by assumption. injection E as <-.
  rewrite <- (set_value_ext inp _ _ (denotes_iff HT s A HR' HA)), <- (valid_val HT) by assumption.
  split; [now apply (to_vec_spec HT)|exact Hw].
Qed.
Lemma declaration_order pw inp T inp' T' f a A b B a' b' : Supported pw inp T -> Supported pw inp' T' ->
  in_attrs inp = in_attrs inp' -> embeds inp inp' f -> length (in_variants inp) = length (in_variants inp') ->
  Reachable pw inp T a -> Denotes inp T a (fun v => A (f v)) -> Reachable pw inp' T' a' -> Denotes inp' T' a' A ->
  Reachable pw inp T b -> Denotes inp T b (fun v => B (f v)) -> Reachable pw inp' T' b' -> Denotes inp' T' b' B ->
  storage_of inp = storage_of inp' /\ serialize_name inp = serialize_name inp' /\
  es_len T a = es_len T' a' /\ es_to_vec T a = es_to_vec T' a' /\
  (forall t, es_try_as T t a = es_try_as T' t a' /\ es_as_truncated T t a = es_as_truncated T' t a') /\
  (exists l, es_collect T a = Ret l /\ es_collect T' a' = Ret (map f l)) /\
  es_cmp T a b = es_cmp T' a' b'.
Proof.
  intros HS HS' Hat HE Hl Ra Da Ra' Da' Rb Db Rb' Db'.
  pose proof (sup_distinct _ _ _ HS) as Hn. pose proof (sup_distinct _ _ _ HS') as Hn'.
  destruct (order_storage inp inp' f Hn Hn' HE Hl Hat) as (_ & Hst & Hse).
  pose proof (order_value inp inp' f A Hn Hn' HE Hl) as HvA. pose proof (order_value inp inp' f B Hn Hn' HE Hl) as HvB.
  destruct (words_of pw inp T a _ HS Ra Da) as [Va Wa]. destruct (words_of pw inp' T' a' _ HS' Ra' Da') as [Va' Wa'].
  destruct (words_of pw inp T b _ HS Rb Db) as [_ Wb]. destruct (words_of pw inp' T' b' _ HS' Rb' Db') as [_ Wb'].
  rewrite Hst, HvA in Va, Wa. rewrite Hst, HvB in Wb.
  destruct (IterClaims.iteration pw inp T a _ HS Ra Da) as (l & Cl & _ & Hls).
  destruct (IterClaims.iteration pw inp' T' a' _ HS' Ra' Da') as (l' & Cl' & _ & Hls').
  pose proof (order_lists inp inp' f A l Hn Hn' HE Hl Hls) as Hm. rewrite (lists_set_unique inp' A _ _ Hn' Hls' Hm) in Cl'.
  split; [exact Hst|]. split; [exact Hse|]. split; [|split; [|split; [|split]]].
  - rewrite (proj1 (len_members pw inp T a _ HS Ra Da)), (proj1 (len_members pw inp' T' a' _ HS' Ra' Da')).
    rewrite <- (lists_set_length _ _ _ Hls), <- (lists_set_length _ _ _ Hm). now rewrite map_length.
  - congruence.
  - intros t. destruct (setup _ _ _ HS) as (val & irel & HT & HV). destruct (setup _ _ _ HS') as (val' & irel' & HT' & HV').
    apply HV in Ra as Xa. apply HV' in Ra' as Xa'.
    pose proof (set_value_ext inp _ _ (denotes_iff HT a _ Xa Da)) as Ea. pose proof (set_value_ext inp' _ _ (denotes_iff HT' a' _ Xa' Da')) as Ea'.
    rewrite (try_as_spec HT), (try_as_spec HT'), (as_truncated_spec HT), (as_truncated_spec HT') by assumption.
    rewrite Ea, Ea', HvA. split; [|reflexivity].
    rewrite <- (val_lt_fits HT), <- (val_lt_fits HT'), (valid_val HT), (valid_val HT'), Ea, Ea', HvA by assumption. reflexivity.
  - exists l. auto.
  - pose proof (cmp_order pw inp T a _ b _ HS Ra Da Rb Db) as C. pose proof (cmp_order pw inp' T' a' _ b' _ HS' Ra' Da' Rb' Db') as C'.
    rewrite Hst in *. destruct (storage_of inp') as [w|n].
    + congruence.
    + cbn [storage_words] in *. rewrite (C' _ _ (limbs_length _ _) (limbs_length _ _) Wa' Wb').
      apply C; auto using limbs_length.
Qed.

(** * Facts about the derive macro *)
From Verif Require Import Base BaseFacts LimbFacts Prim ArrayRepr Repr ReprLaws PrimFacts ArrayFacts.
From Verif Require Import Syntax Spec Derive EnumSet ApiSpec.
Ltac Zify.zify_post_hook ::= Z.div_mod_to_equations.

Ltac str_cases :=
  repeat match goal with
  | |- context[(?a =? ?b)%string] => destruct (String.eqb_spec a b); [try discriminate; subst|]
  | H : context[(?a =? ?b)%string] |- _ => destruct (String.eqb_spec a b); [subst|]
  end.

Section DeriveFacts.
Context {md : build}.

Definition MAXD : N := 0xFFFFFFBF.
Definition names (vs : list variant_decl) : list string := map vd_name vs.

(** ** The loop over the variants *)
Record WFv (i : info) (vs : list variant_decl) : Prop := {
  wfv_unit : forall v, In v vs -> vd_unit v = true;
  wfv_lit : forall v, In v vs -> literal_discr v;
  wfv_names : NoDup (names vs);
  wfv_names_fresh : forall n, In n (names vs) -> ~ In n (i_used_names i);
  wfv_max : forall d, In d (rustc_discrs_from (i_cur_discrim i) vs) -> d <= MAXD;
  wfv_nodup : NoDup (rustc_discrs_from (i_cur_discrim i) vs);
  wfv_fresh : forall d, In d (rustc_discrs_from (i_cur_discrim i) vs) -> ~ In d (i_used_discrs i)
}.

(** Violations among the variants [vs], the first of which is the variant number
    [k], given what was seen before. *)
Inductive Vv (i : info) (k : nat) (vs : list variant_decl) : derive_error -> span -> Prop :=
| Vv_name b v : nth_error vs b = Some v ->
    (In (vd_name v) (i_used_names i) \/ exists a u, (a < b)%nat /\ nth_error vs a = Some u /\ vd_name u = vd_name v) ->
    Vv i k vs EDupName (SpVariant (k + b))
| Vv_fields b v : nth_error vs b = Some v -> vd_unit v = false -> Vv i k vs EFields (SpVariant (k + b))
| Vv_u32 b v n : nth_error vs b = Some v -> vd_discr v = Some (DInt n) -> 2 ^ 32 <= n -> Vv i k vs EDiscrU32 (SpDiscr (k + b))
| Vv_neg b v : nth_error vs b = Some v -> vd_discr v = Some DNeg -> Vv i k vs EDiscrNeg (SpDiscr (k + b))
| Vv_lit b v : nth_error vs b = Some v -> vd_discr v = Some DOther -> Vv i k vs EDiscrLit (SpVariant (k + b))
| Vv_max b d : nth_error (rustc_discrs_from (i_cur_discrim i) vs) b = Some d -> MAXD < d ->
    Vv i k vs EDiscrMax (SpVariant (k + b))
| Vv_discr b d : nth_error (rustc_discrs_from (i_cur_discrim i) vs) b = Some d ->
    (In d (i_used_discrs i) \/ exists a, (a < b)%nat /\ nth_error (rustc_discrs_from (i_cur_discrim i) vs) a = Some d) ->
    Vv i k vs EDupDiscr (SpVariant (k + b)).

Definition max_from (m : N) (ds : list N) : N := fold_left N.max ds m.

Record pushed (i i' : info) (k : nat) (vs : list variant_decl) : Prop := {
  pu_internal : i_explicit_internal i' = i_explicit_internal i;
  pu_force : i_force_array i' = i_force_array i;
  pu_serde : i_explicit_serde i' = i_explicit_serde i;
  pu_deny : i_deny_unknown i' = i_deny_unknown i;
  pu_variants : i_variants i' = i_variants i ++ combine (names vs) (rustc_discrs_from (i_cur_discrim i) vs);
  pu_max : i_max_discrim i' = max_from (i_max_discrim i) (rustc_discrs_from (i_cur_discrim i) vs);
  pu_max_span : i_max_discrim i' = i_max_discrim i /\ i_max_discrim_span i' = i_max_discrim_span i \/
    exists b, nth_error (rustc_discrs_from (i_cur_discrim i) vs) b = Some (i_max_discrim i') /\
              i_max_discrim_span i' = Some (SpVariant (k + b))
}.

Lemma existsb_In_str n l : existsb (String.eqb n) l = true <-> In n l.
Proof.
  rewrite existsb_exists. split.
  - intros (x & H & E). apply String.eqb_eq in E. now subst.
  - intros H. exists n. split; [assumption|apply String.eqb_refl].
Qed.
Lemma existsb_In_N n l : existsb (N.eqb n) l = true <-> In n l.
Proof.
  rewrite existsb_exists. split.
  - intros (x & H & E). apply N.eqb_eq in E. now subst.
  - intros H. exists n. split; [assumption|apply N.eqb_refl].
Qed.

Lemma Vv_tail i i' k v vs e sp d :
  i_used_names i' = vd_name v :: i_used_names i ->
  i_used_discrs i' = d :: i_used_discrs i ->
  rustc_discrs_from (i_cur_discrim i) (v :: vs) = d :: rustc_discrs_from (i_cur_discrim i') vs ->
  Vv i' (S k) vs e sp -> Vv i k (v :: vs) e sp.
Proof.
  intros En Ed Er H. assert (Ek : forall b, (S k + b = k + S b)%nat) by (intros; lia).
  destruct H as [b u Hu Hn|b u Hu Hf|b u n Hu He Hn|b u Hu He|b u Hu He|b x Hx Hm|b x Hx Hm]; rewrite Ek.
  - eapply Vv_name; [exact Hu|]. rewrite En in Hn. destruct Hn as [[Hn|Hn]|(a & w & Ha & Hw & E)].
    + right. exists O, v. split; [lia|]. auto.
    + now left.
    + right. exists (S a), w. split; [lia|]. auto.
  - eapply Vv_fields; eassumption.
  - eapply Vv_u32; eassumption.
  - eapply Vv_neg; eassumption.
  - eapply Vv_lit; eassumption.
  - eapply Vv_max; [|eassumption]. now rewrite Er.
  - eapply Vv_discr; rewrite Er; [exact Hx|]. rewrite Ed in Hm. destruct Hm as [[Hm|Hm]|(a & Ha & Hw)].
    + right. exists O. split; [lia|]. cbn. now rewrite Hm.
    + now left.
    + right. exists (S a). split; [lia|]. exact Hw.
Qed.
Lemma rustc_discrs_head c v vs : exists d, rustc_discrs_from c (v :: vs) = d :: rustc_discrs_from (d + 1) vs /\
  d = match vd_discr v with Some (DInt n) => n | Some _ => 0 | None => c end.
Proof. cbn [rustc_discrs_from]. destruct (vd_discr v) as [[]|]; eauto. Qed.
(** A violation is one of the first variant or one further on. *)
Lemma Vv_head i k v vs e sp d :
  rustc_discrs_from (i_cur_discrim i) (v :: vs) = d :: rustc_discrs_from (d + 1) vs ->
  Vv i k (v :: vs) e sp ->
  (err_stage e = 5 /\ k < err_position sp)%nat \/
  match e with
  | EDupName => sp = SpVariant k /\ In (vd_name v) (i_used_names i)
  | EFields => sp = SpVariant k /\ vd_unit v = false
  | EDiscrU32 => sp = SpDiscr k /\ exists n, vd_discr v = Some (DInt n) /\ 2 ^ 32 <= n
  | EDiscrNeg => sp = SpDiscr k /\ vd_discr v = Some DNeg
  | EDiscrLit => sp = SpVariant k /\ vd_discr v = Some DOther
  | EDiscrMax => sp = SpVariant k /\ MAXD < d
  | EDupDiscr => sp = SpVariant k /\ In d (i_used_discrs i)
  | _ => False
  end.
Proof.
  intros Er H.
  destruct H as [[|b] u Hu Hn|[|b] u Hu Hf|[|b] u n Hu He Hn|[|b] u Hu He|[|b] u Hu He|[|b] x Hx Hm|[|b] x Hx Hm];
    try (left; cbn; lia); right; rewrite Nat.add_0_r; (split; [reflexivity|]);
    rewrite ?Er in *; cbn [nth_error] in *;
    repeat match goal with H : Some _ = Some _ |- _ => inversion H; clear H; subst end; eauto.
  - destruct Hn as [Hn|(a & w & Ha & _)]; [assumption|lia].
  - destruct Hm as [Hm|(a & Ha & _)]; [assumption|lia].
Qed.
Lemma Vv_cons i i' k v vs e sp d :
  i_used_names i' = vd_name v :: i_used_names i ->
  i_used_discrs i' = d :: i_used_discrs i ->
  i_cur_discrim i' = d + 1 ->
  rustc_discrs_from (i_cur_discrim i) (v :: vs) = d :: rustc_discrs_from (d + 1) vs ->
  ~ In (vd_name v) (i_used_names i) -> vd_unit v = true -> literal_discr v -> d <= MAXD -> ~ In d (i_used_discrs i) ->
  Vv i k (v :: vs) e sp -> Vv i' (S k) vs e sp.
Proof.
  intros En Ed Ec Er N1 N2 N3 N4 N5 H.
  assert (Hd : match vd_discr v with Some (DInt n) => d = n | _ => True end).
  { cbn [rustc_discrs_from] in Er. destruct (vd_discr v) as [[]|]; try exact I. now inversion Er. }
  assert (Ek : forall b, (k + S b = S k + b)%nat) by (intros; lia). unfold literal_discr in N3.
  destruct H as [[|b] u Hu Hn|[|b] u Hu Hf|[|b] u n Hu He Hn|[|b] u Hu He|[|b] u Hu He|[|b] x Hx Hm|[|b] x Hx Hm];
    rewrite ?Er in *; cbn [nth_error] in *; rewrite ?Ek;
    repeat match goal with H : Some _ = Some _ |- _ => inversion H; clear H; subst u || subst x end.
  - destruct Hn as [Hn|(a & w & Ha & _)]; [contradiction|lia].
  - eapply Vv_name; [exact Hu|]. rewrite En. destruct Hn as [Hn|([|a] & w & Ha & Hw & E)].
    + left. now right.
    + cbn in Hw. inversion Hw; subst w. left. now left.
    + right. exists a, w. split; [lia|]. auto.
  - congruence.
  - eapply Vv_fields; eassumption.
  - rewrite He in Hd. subst n. unfold MAXD in N4. change (2 ^ 32) with 4294967296 in Hn. lia.
  - eapply Vv_u32; eassumption.
  - now rewrite He in N3.
  - eapply Vv_neg; eassumption.
  - now rewrite He in N3.
  - eapply Vv_lit; eassumption.
  - lia.
  - eapply Vv_max; [rewrite Ec|]; eassumption.
  - destruct Hm as [Hn|(a & Ha & _)]; [contradiction|lia].
  - eapply Vv_discr; rewrite Ec; [exact Hx|]. rewrite Ed. destruct Hm as [Hm|([|a] & Ha & Hw)].
    + left. now right.
    + cbn in Hw. inversion Hw; subst. left. now left.
    + right. exists a. split; [lia|]. auto.
Qed.

(** [e] at [sp] comes before everything else of which [P] holds. *)
Definition first_of (P : derive_error -> span -> Prop) (e : derive_error) (sp : span) : Prop :=
  P e sp /\ forall e' sp', P e' sp' -> (e', sp') = (e, sp) \/ err_before e sp e' sp'.

Lemma push_variants_spec vs : forall i k,
  exists r, push_variants md i k vs = Ret r /\
    match r with
    | Ok i' => WFv i vs /\ pushed i i' k vs
    | Err (e, sp) => first_of (Vv i k vs) e sp
    end.
Proof.
  induction vs as [|v vs IH]; intros i k.
  - exists (Ok i). split; [reflexivity|]. split.
    + constructor; cbn; try (intros; contradiction); constructor.
    + constructor; cbn; auto. now rewrite app_nil_r.
  - destruct (rustc_discrs_head (i_cur_discrim i) v vs) as (d0 & Hds & Ed0).
    assert (Hhd : forall e sp, Vv i k (v :: vs) e sp -> _) by (intros e sp; exact (Vv_head i k v vs e sp d0 Hds)).
    assert (Ek : k = (k + 0)%nat) by lia.
    assert (Hset : forall e sp, (err_stage e = 5)%nat -> err_position sp = k -> Vv i k (v :: vs) e sp ->
      (forall e' sp', Vv i k (v :: vs) e' sp' -> err_position sp' = k -> (e', sp') = (e, sp) \/ (err_check e < err_check e')%nat) ->
      first_of (Vv i k (v :: vs)) e sp).
    { intros e sp Es Ep Hv Hm. split; [assumption|]. intros e' sp' Hv'. pose proof (Hhd _ _ Hv') as H.
      unfold err_before. rewrite Es, Ep.
      destruct (Nat.eq_dec (err_position sp') k) as [Ep'|Ep'].
      - destruct (Hm _ _ Hv' Ep') as [E|E]; [now left|right]. right.
        destruct H as [[_ H]|H]; [lia|]. split; [destruct e'; try contradiction; reflexivity|]. right. auto.
      - right. destruct H as [[E5 H]|H]; [right; split; [congruence|left; exact H]|].
        exfalso. apply Ep'. destruct e'; try contradiction; destruct H as [-> _]; reflexivity. }
    cbn [push_variants]. unfold push_variant.
    destruct (existsb (String.eqb (vd_name v)) (i_used_names i)) eqn:En.
    { eexists. split; [reflexivity|]. cbn [try_]. apply existsb_In_str in En. apply Hset; try reflexivity.
      - rewrite Ek at 2. eapply Vv_name; [reflexivity|]. now left.
      - intros e' sp' Hv' Hp. apply Hhd in Hv'; destruct Hv' as [[_ Hv']|Hv']; [lia|]. destruct e'; try contradiction; destruct Hv' as [-> _]; cbn; auto; right; lia. }
    assert (Nn : ~ In (vd_name v) (i_used_names i)) by (intros Hc; apply existsb_In_str in Hc; congruence).
    destruct (vd_unit v) eqn:Eu.
    2: { eexists. split; [reflexivity|]. cbn [try_]. apply Hset; try reflexivity.
         - rewrite Ek at 2. eapply Vv_fields; [reflexivity|exact Eu].
         - intros e' sp' Hv' Hp. apply Hhd in Hv'; destruct Hv' as [[_ Hv']|Hv']; [lia|]. destruct e'; try contradiction; destruct Hv' as [-> ?]; try contradiction; cbn; auto; right; lia. }
    destruct (parse_discr k (i_cur_discrim i) (vd_discr v)) as [d|[e sp]] eqn:Ep.
    2: { eexists. split; [reflexivity|]. cbn [try_]. unfold parse_discr, try_into in Ep.
         destruct (vd_discr v) as [[n| |]|] eqn:Ed; try discriminate.
         - destruct (N.ltb_spec n (2 ^ 32)) as [|Hge]; inversion Ep; subst e sp. apply Hset; try reflexivity.
           + rewrite Ek at 2. eapply Vv_u32; [reflexivity|exact Ed|assumption].
           + intros e' sp' Hv' Hp. apply Hhd in Hv'; destruct Hv' as [[_ Hv']|Hv']; [lia|]. destruct e'; try contradiction; destruct Hv' as [-> Hx]; try contradiction;
               rewrite ?Ed in Hx; try congruence; cbn; auto; right; lia.
         - inversion Ep; subst e sp. apply Hset; try reflexivity.
           + rewrite Ek at 2. eapply Vv_neg; [reflexivity|exact Ed].
           + intros e' sp' Hv' Hp. apply Hhd in Hv'; destruct Hv' as [[_ Hv']|Hv']; [lia|]. destruct e'; try contradiction; destruct Hv' as [-> Hx]; try contradiction;
               rewrite ?Ed in Hx; try congruence; try (destruct Hx as (? & Hx & _); discriminate); cbn; auto; right; lia.
         - inversion Ep; subst e sp. apply Hset; try reflexivity.
           + rewrite Ek at 2. eapply Vv_lit; [reflexivity|exact Ed].
           + intros e' sp' Hv' Hp. apply Hhd in Hv'; destruct Hv' as [[_ Hv']|Hv']; [lia|]. destruct e'; try contradiction; destruct Hv' as [-> Hx]; try contradiction;
               rewrite ?Ed in Hx; try congruence; try (destruct Hx as (? & Hx & _); discriminate); cbn; auto; right; lia. }
    assert (Hlit : literal_discr v /\ d0 = d /\ forall n, vd_discr v = Some (DInt n) -> n < 2 ^ 32).
    { unfold literal_discr. unfold parse_discr, try_into in Ep.
      destruct (vd_discr v) as [[n| |]|]; try discriminate.
      - destruct (N.ltb_spec n (2 ^ 32)); inversion Ep; subst. repeat split; auto. intros m Em. now inversion Em; subst.
      - inversion Ep; subst. repeat split; auto. discriminate. }
    destruct Hlit as (Hlit & -> & Hn32). cbn [try_].
    assert (Hhd2 : forall e' sp', Vv i k (v :: vs) e' sp' -> err_position sp' = k ->
              e' = EDiscrMax /\ sp' = SpVariant k /\ MAXD < d \/ e' = EDupDiscr /\ sp' = SpVariant k /\ In d (i_used_discrs i)).
    { intros e' sp' Hv' Hp. apply Hhd in Hv'; destruct Hv' as [[_ Hv']|Hv']; [lia|]. unfold literal_discr in Hlit. destruct e'; try contradiction; destruct Hv' as [-> Hx]; try contradiction; auto; exfalso.
      - congruence.
      - destruct Hx as (n & E & Hge). apply Hn32 in E. lia.
      - now rewrite Hx in Hlit.
      - now rewrite Hx in Hlit. }
    destruct (N.leb_spec 0xFFFFFFC0 d) as [Hmax|Hmax].
    { eexists. split; [reflexivity|]. cbn [try_]. apply Hset; try reflexivity.
      - rewrite Ek at 2. eapply Vv_max; [rewrite Hds; reflexivity|]. unfold MAXD. lia.
      - intros e' sp' Hv' Hp. destruct (Hhd2 _ _ Hv' Hp) as [(-> & -> & _)|(-> & -> & _)]; cbn; auto. }
    destruct (existsb (N.eqb d) (i_used_discrs i)) eqn:Ed.
    { eexists. split; [reflexivity|]. cbn [try_]. apply existsb_In_N in Ed. apply Hset; try reflexivity.
      - rewrite Ek at 2. eapply Vv_discr; [rewrite Hds; reflexivity|]. now left.
      - intros e' sp' Hv' Hp. destruct (Hhd2 _ _ Hv' Hp) as [(-> & -> & Hx)|(-> & -> & _)]; cbn; auto. unfold MAXD in Hx. lia. }
    assert (Nd : ~ In d (i_used_discrs i)) by (intros Hc; apply existsb_In_N in Hc; congruence).
    unfold cadd. rewrite (proj2 (N.ltb_lt (d + 1) (2 ^ 32))) by (change (2 ^ 32) with 4294967296; lia).
    rewrite !bind_ret. cbn [try_].
    match goal with |- context[push_variants md ?i' (S k) vs] => set (i1 := i') end.
    destruct (IH i1 (S k)) as (r & E & Hr). exists r. split; [exact E|].
    destruct r as [i'|[e sp]].
    + destruct Hr as [HW HP]. split.
      * destruct HW as [W1 W2 W3 W4 W5 W6 W7]. cbn in W4, W5, W6, W7.
        constructor; rewrite ?Hds.
        -- intros u [<-|Hu]; auto.
        -- intros u [<-|Hu]; auto.
        -- cbn. constructor; [|assumption]. intros Hin. apply (W4 _ Hin). now left.
        -- cbn. intros n [<-|Hn]; [assumption|]. intros Hc. apply (W4 _ Hn). now right.
        -- intros x [<-|Hx]; [unfold MAXD; lia|auto].
        -- constructor; [|assumption]. intros Hin. apply (W7 _ Hin). now left.
        -- intros x [<-|Hx]; [assumption|]. intros Hc. apply (W7 _ Hx). now right.
      * destruct HP as [P1 P2 P3 P4 P5 P6 P7]. cbn in P1, P2, P3, P4, P5, P6, P7.
        constructor; rewrite ?Hds; auto.
        -- rewrite P5, <- app_assoc. reflexivity.
        -- rewrite P6. unfold max_from. cbn [fold_left]. f_equal.
           destruct (N.ltb_spec (i_max_discrim i) d); lia.
        -- destruct P7 as [[Em Es]|(b & Hb & Es)].
           ++ rewrite Em, Es. destruct (i_max_discrim i <? d); [right|now left].
              exists O. rewrite Nat.add_0_r. auto.
           ++ right. exists (S b). rewrite Es. split; [exact Hb|]. do 2 f_equal. lia.
    + destruct Hr as [Hr Hm]. split.
      * eapply (Vv_tail i i1 k v vs e sp d); auto.
      * intros e' sp' Hv'. apply Hm. eapply (Vv_cons i i1 k v vs e' sp' d); auto. unfold MAXD. lia.
Qed.

Lemma max_from_spec m ds : max_from m ds = N.max m (fold_right N.max 0 ds).
Proof.
  revert m. induction ds as [|d ds IH]; intros m; unfold max_from; cbn [fold_left fold_right]; [lia|].
  fold (max_from (N.max m d) ds). rewrite IH. lia.
Qed.

Lemma max_ge ds d : In d ds -> d <= fold_right N.max 0 ds.
Proof. induction ds as [|a ds IH]; intros []; cbn [fold_right]; [lia|]. specialize (IH H). lia. Qed.
Lemma max_le ds b : (forall d, In d ds -> d <= b) -> fold_right N.max 0 ds <= b.
Proof.
  induction ds as [|a ds IH]; intros H; cbn [fold_right]; [lia|].
  specialize (H a (or_introl eq_refl)) as Ha. assert (fold_right N.max 0 ds <= b) by (apply IH; intros; apply H; now right). lia.
Qed.
Lemma max_in ds : ds <> [] -> In (fold_right N.max 0 ds) ds.
Proof.
  induction ds as [|a ds IH]; [congruence|]. intros _. cbn [fold_right].
  destruct ds as [|b ds]. { left. cbn [fold_right]. lia. }
  specialize (IH ltac:(discriminate)). destruct (N.max_spec a (fold_right N.max 0 (b :: ds))) as [[_ ->]|[_ ->]]; [now right|now left].
Qed.

(** ** Attributes *)
Inductive Vr (k : nat) (rs : list (option string)) : derive_error -> span -> Prop :=
| Vr_parse b : nth_error rs b = Some None -> Vr k rs EReprParse (SpReprAttr (k + b))
| Vr_name b r : nth_error rs b = Some (Some r) -> ~ In r rust_repr_names -> Vr k rs (ERustRepr r) (SpReprAttr (k + b)).
Lemma check_rust_reprs_spec rs : forall k,
  match check_rust_reprs k rs with
  | Ok _ => forall r, In r rs -> exists s, r = Some s /\ In s rust_repr_names
  | Err (e, sp) => first_of (Vr k rs) e sp
  end.
Proof.
  induction rs as [|r0 rs IH]; intros k; cbn [check_rust_reprs].
  - intros r [].
  - assert (Hlater : forall e sp e' sp' b, err_stage e = 2%nat -> err_stage e' = 2%nat -> err_position sp = k ->
      err_position sp' = (k + S b)%nat -> err_before e sp e' sp').
    { intros e sp e' sp' b E1 E2 E3 E4. right. rewrite E3, E4. split; [congruence|left; lia]. }
    destruct r0 as [r|].
    + destruct (existsb (String.eqb r) allowed_rust_reprs) eqn:E; change allowed_rust_reprs with rust_repr_names in E.
      * apply existsb_In_str in E. specialize (IH (S k)). destruct (check_rust_reprs (S k) rs) as [u|[e sp]].
        -- intros r' [<-|H']; [|auto]. exists r. auto.
        -- destruct IH as [H Hm]. split.
           ++ destruct H as [b Hb|b s Hb Hs]; replace (S k + b)%nat with (k + S b)%nat by lia; constructor; assumption.
           ++ intros e' sp' H'. apply Hm.
              destruct H' as [[|b] Hb|[|b] s Hb Hs]; cbn in Hb; try discriminate.
              ** replace (k + S b)%nat with (S k + b)%nat by lia. now constructor.
              ** inversion Hb; subst. contradiction.
              ** replace (k + S b)%nat with (S k + b)%nat by lia. now constructor.
      * assert (Hn : ~ In r rust_repr_names) by (intros Hc; apply existsb_In_str in Hc; congruence).
        split.
        -- replace k with (k + 0)%nat at 2 by lia. now constructor.
        -- intros e' sp' H'. destruct H' as [[|b] Hb|[|b] s Hb Hs]; cbn in Hb; try discriminate;
             try (right; eapply Hlater; reflexivity).
           inversion Hb; subst. left. now rewrite Nat.add_0_r.
    + split.
      * replace k with (k + 0)%nat at 2 by lia. now constructor.
      * intros e' sp' H'. destruct H' as [[|b] Hb|[|b] s Hb Hs]; cbn in Hb; try discriminate;
          try (right; eapply Hlater; reflexivity).
        left. now rewrite Nat.add_0_r.
Qed.

Definition ir_of_name (s : string) : option internal_repr :=
  (if s =? "u8" then Some IU8 else if s =? "u16" then Some IU16 else if s =? "u32" then Some IU32
   else if s =? "u64" then Some IU64 else if s =? "u128" then Some IU128 else None)%string.

Lemma push_repr_spec i s :
  match push_repr i s with
  | Ok i' => In s repr_names /\
      i_explicit_internal i' = match ir_of_name s with Some r => Some r | None => i_explicit_internal i end /\
      i_force_array i' = (if (s =? "array")%string then true else i_force_array i) /\
      i_explicit_serde i' = i_explicit_serde i /\ i_variants i' = i_variants i /\ i_max_discrim i' = i_max_discrim i /\
      i_max_discrim_span i' = i_max_discrim_span i /\ i_cur_discrim i' = i_cur_discrim i /\ i_used_names i' = i_used_names i /\ i_used_discrs i' = i_used_discrs i /\
      i_deny_unknown i' = i_deny_unknown i
  | Err e => e = (EInvalidRepr, SpRepr) /\ ~ In s repr_names
  end.
Proof.
  unfold push_repr, ir_of_name. str_cases; cbn; try (repeat split; auto 10; fail).
  split; [reflexivity|]. intros H. repeat destruct H as [H|H]; congruence.
Qed.

Definition sr_of_name (s : string) : option serde_repr :=
  (if s =? "u8" then Some SU8 else if s =? "u16" then Some SU16 else if s =? "u32" then Some SU32
   else if s =? "u64" then Some SU64 else if s =? "u128" then Some SU128
   else if s =? "list" then Some SList else if s =? "map" then Some SMap
   else if s =? "array" then Some SArray else None)%string.

Lemma push_serialize_repr_spec i s :
  match push_serialize_repr i s with
  | Ok i' => In s serialize_repr_names /\ exists r, sr_of_name s = Some r /\ i' = with_serde i (Some r)
  | Err e => e = (EInvalidSerdeRepr, SpSerializeRepr) /\ ~ In s serialize_repr_names
  end.
Proof.
  unfold push_serialize_repr, sr_of_name. str_cases; cbn; try (split; eauto 12; fail).
  split; [reflexivity|]. intros H. repeat destruct H as [H|H]; congruence.
Qed.

(** The storage and serialization named by the attributes. *)
Definition repr_attr (inp : derive_input) : option internal_repr :=
  match at_repr (in_attrs inp) with Some s => ir_of_name s | None => None end.
Definition force_attr (inp : derive_input) : bool :=
  match at_repr (in_attrs inp) with Some s => (s =? "array")%string | None => false end.
Definition serde_attr (inp : derive_input) : option serde_repr :=
  match serialize_choice (in_attrs inp) with Some s => sr_of_name s | None => None end.

Record InfoOk (inp : derive_input) (i : info) : Prop := {
  io_internal : i_explicit_internal i = repr_attr inp;
  io_force : i_force_array i = force_attr inp;
  io_serde : i_explicit_serde i = serde_attr inp;
  io_deny : i_deny_unknown i = at_deny_unknown (in_attrs inp);
  io_variants : i_variants i = combine (names (in_variants inp)) (discrs inp);
  io_max : i_max_discrim i = max_discr inp;
  io_max_span : 0 < max_discr inp -> exists k, nth_error (discrs inp) k = Some (max_discr inp) /\
    i_max_discrim_span i = Some (SpVariant k)
}.

Lemma name_bits_ir s : name_bits s = match ir_of_name s with Some r => Some (ir_supported r) | None => None end.
Proof. unfold name_bits, ir_of_name. str_cases; reflexivity. Qed.
Lemma name_bits_sr s : In s serialize_repr_names ->
  name_bits s = match sr_of_name s with Some r => sr_supported r | None => None end.
Proof.
  intros H. unfold serialize_repr_names in H. cbn in H.
  repeat destruct H as [<-|H]; reflexivity || contradiction.
Qed.

(** The violations by stage *)
Lemma Vr_violation inp e sp : Vr 0 (in_rust_reprs inp) e sp <-> Violation inp e sp /\ err_stage e = 2%nat.
Proof.
  split.
  - intros [b H|b r H Hn]; (split; [|reflexivity]).
    + now apply V_repr_parse.
    + now apply V_rust_repr.
  - intros [H Hs]. destruct H; try discriminate.
    + now apply (Vr_parse 0).
    + now apply (Vr_name 0).
Qed.
Lemma Vv_violation inp i e sp : i_used_names i = [] -> i_used_discrs i = [] -> i_cur_discrim i = 0 ->
  Vv i 0 (in_variants inp) e sp <-> Violation inp e sp /\ err_stage e = 5%nat.
Proof.
  intros En Ed Ec. assert (Er : rustc_discrs_from (i_cur_discrim i) (in_variants inp) = discrs inp) by now rewrite Ec.
  split.
  - intros H. destruct H as [b u Hu Hn|b u Hu Hf|b u n Hu He Hn|b u Hu He|b u Hu He|b x Hx Hm|b x Hx Hm];
      rewrite ?En, ?Ed, ?Er in *; cbn [Nat.add]; (split; [|reflexivity]).
    + destruct Hn as [[]|(a & w & Ha & Hw & E)]. eapply V_name; eassumption.
    + eapply V_fields; eassumption.
    + eapply V_u32; eassumption.
    + eapply V_neg; eassumption.
    + eapply V_literal; eassumption.
    + eapply V_max; eassumption.
    + destruct Hm as [[]|(a & Ha & Hw)]. eapply V_discr; eassumption.
  - intros [H Hs]. destruct H as [|?|k H|k r H Hn|s H Hn|s H Hn|a b u v Hab Ha Hb E|k v Hv Hf|k v n Hv He Hn|k v Hv He|k v Hv He|k d Hd Hm|a b d Hab Ha Hb|s b k H Hb Hk Hm|s b k H Hb Hk Hm];
      try discriminate.
    + apply (Vv_name i 0 _ b v Hb). right. exists a, u. auto.
    + eapply (Vv_fields i 0); eassumption.
    + eapply (Vv_u32 i 0); eassumption.
    + eapply (Vv_neg i 0); eassumption.
    + eapply (Vv_lit i 0); eassumption.
    + eapply (Vv_max i 0); [rewrite Er|]; eassumption.
    + apply (Vv_discr i 0 _ b d); rewrite Er; [assumption|]. right. exists a. auto.
Qed.
(** The first violation of the first stage that has one is the first of all. *)
Lemma first_stage inp n e sp : (forall e' sp', Violation inp e' sp' -> (n <= err_stage e')%nat) ->
  err_stage e = n -> first_of (fun e sp => Violation inp e sp /\ err_stage e = n) e sp -> first_of (Violation inp) e sp.
Proof.
  intros Hlow Hn [[Hv _] Hm]. split; [assumption|]. intros e' sp' Hv'. pose proof (Hlow _ _ Hv').
  destruct (Nat.eq_dec (err_stage e') n) as [E|E]; [now apply Hm|]. right. left. lia.
Qed.
Lemma first_of_iff P Q e sp : (forall e sp, P e sp <-> Q e sp) -> first_of P e sp -> first_of Q e sp.
Proof. intros H [Hp Hm]. split; [now apply H|]. intros e' sp' Hq. apply Hm. now apply H. Qed.

Lemma internal_fits i : match i_explicit_internal i with Some (IArray _) => False | _ => True end ->
  (ir_supported (internal_repr_of i) <=? i_max_discrim i) =
  match i_explicit_internal i with Some r => ir_supported r <=? i_max_discrim i | None => false end.
Proof.
  intros _. unfold internal_repr_of. destruct (i_explicit_internal i) as [r|]; [reflexivity|].
  apply N.leb_gt. set (x := i_max_discrim i).
  destruct (N.ltb_spec x 8), (N.ltb_spec x 16), (N.ltb_spec x 32), (N.ltb_spec x 64), (i_force_array i);
    cbn [andb negb ir_supported]; lia.
Qed.
Lemma serde_fits i :
  match sr_supported (serde_repr_of i) with Some s => s <=? i_max_discrim i | None => false end =
  match i_explicit_serde i with
  | Some r => match sr_supported r with Some s => s <=? i_max_discrim i | None => false end
  | None => false
  end.
Proof.
  unfold serde_repr_of. destruct (i_explicit_serde i) as [r|]; [reflexivity|]. set (x := i_max_discrim i).
  destruct (N.ltb_spec x 8), (N.ltb_spec x 16), (N.ltb_spec x 32), (N.ltb_spec x 64), (N.ltb_spec x 128);
    cbn [sr_supported]; try reflexivity; apply N.leb_gt; lia.
Qed.

Lemma discr_listed inp v n : In v (in_variants inp) -> vd_discr v = Some (DInt n) -> In n (discrs inp).
Proof.
  intros Hv He. unfold discrs, rustc_discrs. generalize 0 as c. revert Hv.
  induction (in_variants inp) as [|u vs IH]; intros Hv c; [destruct Hv|].
  cbn [rustc_discrs_from]. destruct Hv as [->|Hv]; [rewrite He; now left|]. right. now apply IH.
Qed.

Theorem derive_info_spec inp :
  exists r, derive_info md inp = Ret r /\
    match r with
    | Ok i => WellFormed inp /\ InfoOk inp i
    | Err (e, sp) => first_of (Violation inp) e sp
    end.
Proof.
  unfold derive_info.
  destruct (in_generic inp) eqn:Eg.
  { eexists. split; [reflexivity|]. split; [now constructor|]. intros e' sp' V.
    destruct V; (left; reflexivity) || (right; left; cbn; lia). }
  assert (L1 : forall e' sp', Violation inp e' sp' -> (1 <= err_stage e')%nat).
  { intros e' sp' V. destruct V; cbn; try lia. congruence. }
  destruct (in_is_enum inp) eqn:Ee; cbn [negb].
  2: { eexists. split; [reflexivity|]. apply (first_stage inp 1); [assumption|reflexivity|].
       split; [split; [now constructor|reflexivity]|]. intros e' sp' [V E]. destruct V; try discriminate. now left. }
  assert (L2 : forall e' sp', Violation inp e' sp' -> (2 <= err_stage e')%nat).
  { intros e' sp' V. pose proof (L1 _ _ V). destruct V; cbn in *; try lia. congruence. }
  pose proof (check_rust_reprs_spec (in_rust_reprs inp) 0) as Hrr.
  destruct (check_rust_reprs 0 (in_rust_reprs inp)) as [[]|[e sp]]; cbn [try_].
  2: { eexists. split; [reflexivity|]. apply (first_of_iff _ _ _ _ (Vr_violation inp)) in Hrr.
       apply (first_stage inp 2); [assumption|apply Hrr|assumption]. }
  assert (L3 : forall e' sp', Violation inp e' sp' -> (3 <= err_stage e')%nat).
  { intros e' sp' V. pose proof (L2 _ _ V). destruct V as [| |k H'|k r H' Hn| | | | | | | | | | |]; cbn in *; try lia; exfalso;
      apply nth_error_In, Hrr in H'; destruct H' as (s & E & Hs); inversion E; subst; contradiction. }
  set (a := in_attrs inp) in *. set (i0 := info_new a).
  (* repr *)
  assert (H1 : match (match at_repr a with Some r => push_repr i0 r | None => Ok i0 end) with
    | Ok i1 => (forall s, at_repr a = Some s -> In s repr_names) /\
        i_explicit_internal i1 = repr_attr inp /\ i_force_array i1 = force_attr inp /\
        i_explicit_serde i1 = None /\ i_variants i1 = [] /\ i_max_discrim i1 = 0 /\ i_cur_discrim i1 = 0 /\
        i_used_names i1 = [] /\ i_used_discrs i1 = [] /\ i_deny_unknown i1 = at_deny_unknown a
    | Err (e, sp) => e = EInvalidRepr /\ sp = SpRepr /\ Violation inp e sp end).
  { unfold repr_attr, force_attr. fold a. destruct (at_repr a) as [s|] eqn:Er.
    - pose proof (push_repr_spec i0 s) as H. destruct (push_repr i0 s) as [i1|e].
      + destruct H as (Hin & E1 & E2 & E3 & E4 & E5 & E5s & E6 & E7 & E8 & E9). cbn in *.
        repeat split; auto.
        * intros s' E'. inversion E'. now subst.
        * rewrite E1. destruct (ir_of_name s); reflexivity.
        * rewrite E2. destruct (s =? "array")%string; reflexivity.
      + destruct H as [-> Hn]. repeat split. eapply V_repr; eassumption.
    - cbn. repeat split; auto. discriminate. }
  destruct (match at_repr a with Some r => push_repr i0 r | None => Ok i0 end) as [i1|[e sp]]; cbn [try_].
  2: { destruct H1 as (-> & -> & HV). eexists. split; [reflexivity|]. apply (first_stage inp 3); [assumption|reflexivity|].
       split; [auto|]. intros e' sp' [V E]. destruct V; try discriminate. now left. }
  destruct H1 as (Hrepr & E1 & E2 & E3 & E4 & E5 & E6 & E7 & E8 & E9).
  assert (L4 : forall e' sp', Violation inp e' sp' -> (4 <= err_stage e')%nat).
  { intros e' sp' V. pose proof (L3 _ _ V). destruct V as [| | | |s H' Hn| | | | | | | | | |]; cbn in *; try lia; exfalso; auto. }
  (* serialize_repr *)
  assert (H2 : match (match at_serialize_repr a with Some r => push_serialize_repr i1 r | None => Ok i1 end) with
    | Ok i2 => (forall s, at_serialize_repr a = Some s -> In s serialize_repr_names) /\
        exists o, i2 = with_serde i1 o /\ o = match at_serialize_repr a with Some s => sr_of_name s | None => None end
    | Err (e, sp) => e = EInvalidSerdeRepr /\ sp = SpSerializeRepr /\ Violation inp e sp end).
  { destruct (at_serialize_repr a) as [s|] eqn:Es.
    - pose proof (push_serialize_repr_spec i1 s) as H. destruct (push_serialize_repr i1 s) as [i2|e].
      + destruct H as (Hin & r & Er & ->). split. { intros s' E'. inversion E'. now subst. }
        eauto.
      + destruct H as [-> Hn]. repeat split. eapply V_serialize_repr; eassumption.
    - split; [discriminate|]. exists None. split; [|reflexivity]. destruct i1; cbn in *. now rewrite E3. }
  destruct (match at_serialize_repr a with Some r => push_serialize_repr i1 r | None => Ok i1 end) as [i2|[e sp]]; cbn [try_].
  2: { destruct H2 as (-> & -> & HV). eexists. split; [reflexivity|]. apply (first_stage inp 4); [assumption|reflexivity|].
       split; [auto|]. intros e' sp' [V E]. destruct V; try discriminate. now left. }
  destruct H2 as (Hser & o & -> & Ho).
  assert (L5 : forall e' sp', Violation inp e' sp' -> (5 <= err_stage e')%nat).
  { intros e' sp' V. pose proof (L4 _ _ V). destruct V as [| | | | |s H' Hn| | | | | | | | |]; cbn in *; try lia; exfalso; auto. }
  match goal with |- context[push_variants md ?i' _ _] => set (i4 := i') end.
  assert (H4 : i_explicit_internal i4 = repr_attr inp /\ i_force_array i4 = force_attr inp /\
     i_explicit_serde i4 = serde_attr inp /\ i_variants i4 = [] /\ i_max_discrim i4 = 0 /\ i_cur_discrim i4 = 0 /\
     i_used_names i4 = [] /\ i_used_discrs i4 = [] /\ i_deny_unknown i4 = at_deny_unknown a).
  { unfold i4, serde_attr, serialize_choice. fold a. destruct (at_as_map a), (at_as_list a); cbn; repeat split; auto. }
  clearbody i4. destruct H4 as (F1 & F2 & F3 & F4 & F5 & F6 & F7 & F8 & F9).
  assert (HVv := fun e sp => Vv_violation inp i4 e sp F7 F8 F6).
  destruct (push_variants_spec (in_variants inp) i4 0) as (r & -> & Hr). rewrite bind_ret.
  destruct r as [i5|[e sp]]; cbn [try_].
  2: { eexists. split; [reflexivity|]. apply (first_of_iff _ _ _ _ HVv) in Hr.
       apply (first_stage inp 5); [assumption|apply Hr|assumption]. }
  destruct Hr as [[W1 W2 W3 W4 W5 W6 W7] [P1 P2 P3 P4 P5 P6 P7]]. clear HVv.
  rewrite F6 in *. change (rustc_discrs_from 0 (in_variants inp)) with (discrs inp) in *.
  assert (Hio : InfoOk inp i5).
  { assert (Hmx : i_max_discrim i5 = max_discr inp) by (rewrite P6, F5, max_from_spec; unfold max_discr; lia).
    constructor; fold a; try congruence.
    - rewrite P5, F4. reflexivity.
    - intros Hpos. destruct P7 as [[Em _]|(k & Hk & Es)]; [lia|]. exists k. rewrite <- Hmx. auto. }
  assert (L6 : forall e' sp', Violation inp e' sp' -> (6 <= err_stage e')%nat).
  { intros e' sp' V. pose proof (L5 _ _ V). destruct V as [| | | | | |i j u v Hij Hi Hj E|k v Hv Hf|k v n Hv He Hn|k v Hv He|k v Hv He|k d Hd Hm|i j d Hij Hi Hj| |];
      cbn in *; try lia; exfalso.
    - rewrite NoDup_nth_error in W3. assert (i = j); [|lia]. apply W3.
      + unfold names. rewrite map_length. apply nth_error_Some. congruence.
      + unfold names. rewrite !nth_error_map, Hi, Hj. cbn. congruence.
    - apply nth_error_In, W1 in Hv. congruence.
    - apply nth_error_In in Hv. apply (discr_listed inp) in He; [|assumption]. apply W5 in He. unfold MAXD in He.
      change (2 ^ 32) with 4294967296 in Hn. lia.
    - apply nth_error_In, W2 in Hv. unfold literal_discr in Hv. now rewrite He in Hv.
    - apply nth_error_In, W2 in Hv. unfold literal_discr in Hv. now rewrite He in Hv.
    - apply nth_error_In, W5 in Hd. unfold MAXD in Hd. lia.
    - rewrite NoDup_nth_error in W6. assert (i = j); [|lia]. apply W6; [apply nth_error_Some|]; congruence. }
  assert (Huniq : forall j k d, nth_error (discrs inp) j = Some d -> nth_error (discrs inp) k = Some d -> j = k).
  { intros j k d Hj Hk. rewrite NoDup_nth_error in W6. apply W6; [apply nth_error_Some|]; congruence. }
  assert (HWF : name_fits inp (at_repr a) -> name_fits inp (serialize_choice a) -> WellFormed inp).
  { intros Hf1 Hf2. constructor; auto. }
  unfold validate. rewrite internal_fits.
  2: { rewrite P1, F1. unfold repr_attr, ir_of_name. destruct (at_repr (in_attrs inp)); [|exact I]. now str_cases. }
  rewrite (io_internal _ _ Hio), (io_max _ _ Hio).
  destruct (match repr_attr inp with Some r => ir_supported r <=? max_discr inp | None => false end) eqn:Ev1.
  { eexists. split; [reflexivity|]. unfold repr_attr in Ev1. fold a in Ev1. destruct (at_repr a) as [s|] eqn:Er; [|discriminate].
    pose proof (name_bits_ir s) as Hb. destruct (ir_of_name s) as [r|] eqn:Eir; [|discriminate]. apply N.leb_le in Ev1.
    assert (Hpos : 0 < max_discr inp).
    { eapply N.lt_le_trans; [|exact Ev1]. unfold ir_of_name in Eir. revert Eir. str_cases; intros Eir; inversion Eir; subst; reflexivity. }
    destruct (io_max_span _ _ Hio Hpos) as (k & Hk & ->).
    apply (first_stage inp 6); [assumption|reflexivity|]. split.
    - split; [|reflexivity]. eapply V_repr_small; [exact Er|exact Hb|exact Hk|assumption].
    - intros e' sp' [V E]. destruct V as [| | | | | | | | | | | | |s' b' k' Hs' Hb' Hk' Hm'|]; try discriminate.
      left. now rewrite (Huniq _ _ _ Hk' Hk). }
  assert (Hf1 : name_fits inp (at_repr a)).
  { intros s b Es Eb. unfold repr_attr in Ev1. fold a in Ev1. rewrite Es in Ev1.
    rewrite name_bits_ir in Eb. destruct (ir_of_name s); inversion Eb; subst. now apply N.leb_gt. }
  assert (L7 : forall e' sp', Violation inp e' sp' -> (7 <= err_stage e')%nat).
  { intros e' sp' V. pose proof (L6 _ _ V). destruct V as [| | | | | | | | | | | | |s' b' k' Hs' Hb' Hk' Hm'|]; cbn in *; try lia.
    specialize (Hf1 _ _ Hs' Hb'). lia. }
  pose proof (serde_fits i5) as Hsf. rewrite (io_serde _ _ Hio), (io_max _ _ Hio) in Hsf.
  assert (Hin : forall s, serialize_choice a = Some s -> In s serialize_repr_names).
  { intros s Ec. unfold serialize_choice in Ec. destruct (at_as_list a); [inversion Ec; cbn; auto 10|].
    destruct (at_as_map a); [inversion Ec; cbn; auto 10|auto]. }
  assert (Hf2 : match sr_supported (serde_repr_of i5) with Some s => s <=? max_discr inp | None => false end = false ->
            name_fits inp (serialize_choice a)).
  { intros Hok s b Es Eb. rewrite Hok in Hsf. unfold serde_attr in Hsf. fold a in Hsf. rewrite Es in Hsf.
    rewrite (name_bits_sr s (Hin s Es)) in Eb. destruct (sr_of_name s); [|discriminate]. rewrite Eb in Hsf.
    symmetry in Hsf. now apply N.leb_gt. }
  destruct (sr_supported (serde_repr_of i5)) as [sb|] eqn:Esb.
  - destruct (sb <=? max_discr inp) eqn:Ev2.
    + eexists. split; [reflexivity|]. apply N.leb_le in Ev2.
      unfold serde_attr in Hsf. fold a in Hsf. destruct (serialize_choice a) as [s|] eqn:Ec; [|discriminate].
      pose proof (name_bits_sr s (Hin s eq_refl)) as Hb. destruct (sr_of_name s) as [r|]; [|discriminate].
      destruct (sr_supported r) as [b|] eqn:Esr; [|discriminate]. symmetry in Hsf. apply N.leb_le in Hsf.
      assert (Hpos : 0 < max_discr inp).
      { eapply N.lt_le_trans; [|exact Hsf]. destruct r; inversion Esr; subst; reflexivity. }
      destruct (io_max_span _ _ Hio Hpos) as (k & Hk & ->).
      apply (first_stage inp 7); [assumption|reflexivity|]. split.
      * split; [|reflexivity]. eapply V_serialize_small; [exact Ec|exact Hb|exact Hk|assumption].
      * intros e' sp' [V E]. destruct V as [| | | | | | | | | | | | | |s' b' k' Hs' Hb' Hk' Hm']; try discriminate.
        left. now rewrite (Huniq _ _ _ Hk' Hk).
    + cbn [try_]. eexists. split; [reflexivity|]. split; [|assumption]. apply HWF; auto.
  - cbn [try_]. eexists. split; [reflexivity|]. split; [|assumption]. apply HWF; auto.
Qed.

(** A well-formed declaration has no violation. *)
Lemma wf_no_violation inp e sp : WellFormed inp -> ~ Violation inp e sp.
Proof.
  intros W V. destruct W as [W1 W2 wf_rust_reprs0 wf_repr0 wf_serialize_repr0 wf_names0 wf_unit0 wf_literal0 wf_max0 wf_distinct0 wf_repr_fits0 wf_serialize_fits0]. destruct V as [H|H|k H|k r H Hn|s H Hn|s H Hn|i j u v Hij Hi Hj E|k v Hv Hf|k v n Hv He Hn|k v Hv He|k v Hv He|k d Hd Hm|i j d Hij Hi Hj|s b k Hs Hb Hk Hm|s b k Hs Hb Hk Hm];
    try apply nth_error_In in H; try apply nth_error_In in Hv; try apply nth_error_In in Hd.
  - congruence.
  - congruence.
  - destruct (wf_rust_reprs0 _ H) as (s & E & _). discriminate.
  - destruct (wf_rust_reprs0 _ H) as (s & E & Hs). inversion E; subst. contradiction.
  - apply Hn. auto.
  - apply Hn. auto.
  - rewrite NoDup_nth_error in wf_names0. assert (i = j); [|lia]. apply wf_names0.
    + rewrite map_length. apply nth_error_Some. congruence.
    + rewrite !nth_error_map, Hi, Hj. cbn. congruence.
  - rewrite wf_unit0 in Hf by assumption. discriminate.
  - pose proof (discr_listed inp v n Hv He) as Hin.
    specialize (wf_max0 _ Hin). change (2 ^ 32) with 4294967296 in Hn. lia.
  - specialize (wf_literal0 _ Hv). unfold literal_discr in wf_literal0. now rewrite He in wf_literal0.
  - specialize (wf_literal0 _ Hv). unfold literal_discr in wf_literal0. now rewrite He in wf_literal0.
  - specialize (wf_max0 _ Hd). lia.
  - rewrite NoDup_nth_error in wf_distinct0. assert (i = j); [|lia]. apply wf_distinct0.
    + apply nth_error_Some. congruence.
    + congruence.
  - specialize (wf_repr_fits0 _ _ Hs Hb). lia.
  - specialize (wf_serialize_fits0 _ _ Hs Hb). lia.
Qed.

End DeriveFacts.

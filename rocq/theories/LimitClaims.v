(** * Claims about 16-bit targets *)
From Coq Require Import Permutation FinFun.
From Verif Require Import Base BaseFacts LimbFacts Repr ReprLaws PrimFacts ArrayRepr ArrayFacts.
From Verif Require Import Syntax Spec Derive EnumSet ApiSpec ExtraSpec DeriveFacts TyFacts SetFacts ReachFacts SetClaims DeriveClaims Examples.
Ltac Zify.zify_post_hook ::= Z.div_mod_to_equations.

(** ** C41 *)
Lemma discr_max_16 reprs :
  (forall r, In (Some r) reprs -> In r ["C"; "Rust"; "u8"; "i8"; "i16"; "isize"]%string) ->
  rustc_discr_max 16 reprs <= 2 ^ 15 - 1.
Proof.
  induction reprs as [|[r|] reprs IH]; intros H; cbn [rustc_discr_max].
  - discriminate.
  - assert (Hr : In r ["C"; "Rust"; "u8"; "i8"; "i16"; "isize"]%string) by (apply H; now left).
    assert (IH' : rustc_discr_max 16 reprs <= 2 ^ 15 - 1) by (apply IH; intros; apply H; now right).
    cbn in Hr. repeat destruct Hr as [<-|Hr]; [..|contradiction]; cbn [int_max String.eqb Ascii.eqb Bool.eqb]; first [exact IH'|discriminate].
  - apply IH. intros; apply H. now right.
Qed.
Lemma supported_16 md inp T : derive md 16 inp = Ret (Ok T) -> rustc_accepts 16 inp ->
  (forall r, In (Some r) (in_rust_reprs inp) -> In r ["C"; "Rust"; "u8"; "i8"; "i16"; "isize"]%string) ->
  Supported 16 inp T.
Proof.
  intros H HA HR. apply discr_max_16 in HR. destruct (derive_ok _ _ _ H) as (HW & _).
  assert (Hd : forall d, In d (discrs inp) -> d < 2 ^ 15).
  { intros d Hd. apply HA in Hd. change (2 ^ 15) with 32768 in *. lia. }
  constructor; eauto.
  - intros d Hin. apply Hd in Hin. eapply N.lt_trans; [exact Hin|reflexivity].
  - rewrite <- (discrs_length inp). eapply N.le_lt_trans; [apply (bounded_length _ (2 ^ 15)); [apply HW|exact Hd]|reflexivity].
Qed.

Lemma sorted_nodup l : StronglySorted N.lt l -> NoDup l.
Proof.
  induction 1 as [|a l Hs IH Hf]; constructor; auto. rewrite Forall_forall in Hf. intros H. apply Hf in H. lia.
Qed.
(** An enum with [n] variants, [#[repr(u16)]]; the names are A, AA, AAA, .. *)
Fixpoint name_of (k : nat) : string := match k with O => "A" | S k => append "A" (name_of k) end%string.
Definition crowd (n : nat) : derive_input :=
  MkInput false true [Some "u16"%string] plain_attrs (map (fun k => MkVariant (name_of k) true None) (seq 0 n)).
Lemma crowd_discrs n : discrs (crowd n) = map N.of_nat (seq 0 n).
Proof.
  unfold discrs, rustc_discrs, crowd. cbn [in_variants]. change 0 with (N.of_nat 0). generalize 0%nat as a.
  induction n as [|n IH]; intros a; cbn [seq map rustc_discrs_from vd_discr]; [reflexivity|]. f_equal. rewrite <- IH. f_equal. lia.
Qed.
Lemma name_of_length k : String.length (name_of k) = S k.
Proof. induction k; cbn; congruence. Qed.
Lemma crowd_well_formed n : N.of_nat n <= 65536 -> WellFormed (crowd n).
Proof.
  intros Hn. constructor; try reflexivity; try discriminate.
  - cbn. intros r [<-|[]]. eexists. split; [reflexivity|]. cbn. tauto.
  - cbn [crowd in_variants]. rewrite map_map. cbn [vd_name]. apply FinFun.Injective_map_NoDup; [|apply seq_NoDup].
    intros a b E. apply (f_equal String.length) in E. rewrite !name_of_length in E. lia.
  - intros v Hv. apply in_map_iff in Hv as (k & <- & _). reflexivity.
  - intros v Hv. apply in_map_iff in Hv as (k & <- & _). exact I.
  - rewrite crowd_discrs. intros d Hd. apply in_map_iff in Hd as (k & <- & Hk). apply in_seq in Hk. lia.
  - rewrite crowd_discrs. apply FinFun.Injective_map_NoDup; [|apply seq_NoDup]. intros a b E. lia.
Qed.
Lemma crowd_max n : (0 < n)%nat -> max_discr (crowd n) = N.of_nat n - 1.
Proof.
  intros Hn. unfold max_discr. rewrite crowd_discrs. apply N.le_antisymm.
  - apply max_le. intros d Hd. apply in_map_iff in Hd as (k & <- & Hk). apply in_seq in Hk. lia.
  - apply max_ge. apply in_map_iff. exists (n - 1)%nat. split; [lia|]. apply in_seq. lia.
Qed.
Lemma len_wraps_16 :
  exists inp T, rustc_accepts 16 inp /\ derive Debug 16 inp = Ret (Ok T) /\
    N.of_nat (length (in_variants inp)) = 65536 /\ es_is_empty T (es_all T) = false /\ es_len T (es_all T) = Ret 0.
Proof.
  assert (Hn : exists n, N.of_nat n = 65536) by (exists (N.to_nat 65536); apply N2Nat.id). destruct Hn as [n Hn].
  pose proof (crowd_well_formed n ltac:(lia)) as HW.
  destruct (derive_total Debug 16 (crowd n)) as (r & E & Hr & _). destruct (proj2 Hr HW) as [T ->].
  exists (crowd n), T. split.
  { intros d Hd. rewrite crowd_discrs in Hd. apply in_map_iff in Hd as (k & <- & Hk). apply in_seq in Hk. cbn. lia. }
  split; [exact E|]. split. { cbn [crowd in_variants]. rewrite map_length, seq_length. exact Hn. }
  destruct (derive_ok 16 (crowd n) T E) as (_ & i & Hi & HG).
  assert (HM : max_discr (crowd n) = 65535) by (rewrite crowd_max; lia).
  assert (HC : forall x, (forall k, N.testbit x k = true <-> In k (discrs (crowd n))) -> u_count_ones x = 65536 /\ x <> 0).
  { intros x Hx. assert (HP : Permutation (bits_of x) (discrs (crowd n))).
    { apply NoDup_Permutation; [|apply HW|intros k; rewrite bits_of_In; apply Hx].
      apply sorted_nodup, bits_of_sorted. }
    split.
    - rewrite <- bits_of_length, (Permutation_length HP), crowd_discrs, map_length, seq_length. exact Hn.
    - intros ->. change (bits_of 0) with (@nil N) in HP. apply Permutation_nil in HP. rewrite crowd_discrs in HP. destruct n; [discriminate|discriminate HP]. }
  destruct HG as [w pl lit Hok _ Hmax|m all _ Hm Hall Hb]; rewrite HM in *.
  { exfalso. unfold prim_ok in Hok. lia. }
  destruct (HC _ Hb) as [Hc Hne]. assert (Hm' : N.of_nat m = 1024) by (rewrite Hm, N2Nat.id; reflexivity).
  pose proof (@array_laws Debug 16 m ltac:(lia) ltac:(rewrite Hm'; reflexivity) ltac:(lia)) as HL.
  split.
  - unfold es_is_empty, es_all. cbn [array_ty et_repr et_all_bits].
    rewrite (rl_is_empty _ _ _ _ _ HL) by exact Hall. now apply N.eqb_neq.
  - unfold es_len, es_all. cbn [array_ty et_repr et_all_bits et_pw].
    rewrite (rl_count_ones _ _ _ _ _ HL) by exact Hall. rewrite Hc. reflexivity.
Qed.

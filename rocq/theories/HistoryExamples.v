(** * A concrete history, used beside the theorems about histories *)
From Verif Require Import Base Repr Syntax Spec Derive EnumSet Serde ApiSpec Examples HistorySpec History MultiSpec Multi.
From Verif Require HistoryFacts HistoryClaims.

(** The variants of [small] stored in words: [#[enumset(repr = "array")]] *)
Definition arrayed : derive_input := with_attrs (MkAttrs (Some "array"%string) None false false false).
Definition ArrayedT : EnumTy := derived (derive Debug 64 arrayed).
(** [small] in a release build *)
Definition SmallReleaseT : EnumTy := derived (derive Release 64 small).
Lemma arrayed_supported : Supported 64 arrayed ArrayedT. Proof. supported. Qed.

(** [#[enumset(repr = "u8")] enum Renamed { P, Q = 5, R = 6 }]: the
    discriminants and the storage of [small], under other names *)
Definition renamed : derive_input :=
  enum_of (MkAttrs (Some "u8"%string) None false false false) [("P", None); ("Q", Some 5); ("R", Some 6)]%string.
Definition RenamedT : EnumTy := derived (derive Debug 64 renamed).
Lemma renamed_supported : Supported 64 renamed RenamedT. Proof. supported. Qed.

(** A history on two set variables and one iterator for enums with three
    variants or more: the set is changed while the iterator runs; at the end a
    conversion panics. *)
Definition calm : list cmd :=
  [ CLet 0 (KOnly 0); CInsert 0 2; CInsert 0 2; CIter 0 0; CRemove 0 0; CNext 0; CNextBack 0; CNext 0; CSizeHint 0;
    CNext 1; CLet 1 (KOper BOr 0 (AVar 1)); CLen 1; CIsSubset 0 1; CLet 1 (KComplement 1); CCollect 1;
    CLet 1 (KMacro BXor (ASet 0) [AVar 2; AVar 1]); CDebug (names small_variants) 1;
    CTryFrom 1 U128 0x60; CCollect 1; CTryFrom 1 U32 0x61; CTryFrom 1 U32 0x62; CAsTruncated U8 1; CTryAsArray 2 1;
    CSerialize 1; CDeserialize 1 (source 0x40 [] [] []); CCollectRev 1;
    CLet 2 KAll; CIter 2 2; CNthBack 2 0; CAny 2 (Nat.eqb 5); CIterLen 2; CIter 2 2; CAllItems 2 (Nat.eqb 0);
    CLet 3 KNew; CExtendIter 3 2; CCollect 3; CNth 2 0; CIter 2 2; CFind 2 (Nat.eqb 1); CFindBack 2 (Nat.eqb 0);
    CIter 2 2; CLast 2; CNext 2; CIter 2 2; CPosition Debug 2 (Nat.eqb 1); CRest 2; CIter 2 2; CNext 2; CCount Release 2;
    CIter 2 2; CFoldBack 2 (fun x v => 10 * x + N.of_nat v) 7; CIter 2 2; CFold 2 (fun x v => 10 * x + N.of_nat v) 7;
    CIter 2 2; CPartition 4 5 2 (Nat.eqb 1); CCollect 4; CCollect 5; CNe 4 5 ].
(** A foreign function that turns a set of [small] into its complement *)
Definition toggle (x : N) : N := N.lxor x 0x61.
Definition small_history : list cmd := calm ++ [ CHash 1; CLt 4 5; CMax 6 4 5; CClamp 6 2 4 5; CGe 6 5;
    CAsRepr 1; CTryFromRepr 7 0x62; CFromRepr 7 0x61; CForeign 8 toggle 1; CCollect 8; CFromReprTruncated 8 0xC1; CCollect 8;
    CFromReprUnchecked 8 0x20; CCollect 8; CFromNum 0 U64 7; CLen 0 ].

Lemma small_source_ok pw inp : 16 <= pw -> SourceOk pw inp (source 0x40 [] [] []).
Proof.
  intros Hp. constructor.
  - intros t x. now apply source_int_ok.
  - intros ? v [= <-] [].
  - intros ? v b [= <-] [].
  - intros ? x [= <-] [].
Qed.
Lemma calm_ok_on pw : 16 <= pw -> Forall (cmd_ok pw small) calm.
Proof.
  intros Hp.
  assert (Hu : serde_usable small) by (intros E; discriminate E).
  unfold calm. repeat (apply Forall_cons; [cbn [cmd_ok scall_ok arg_ok]|]); try apply Forall_nil; try exact I; try exact Hu;
    try (vm_compute; lia); try reflexivity; try (split; [exact Hu|now apply small_source_ok]).
  intros p H. cbn in H. intuition (subst; vm_compute; auto with arith).
Qed.
Lemma calm_ok : Forall (cmd_ok 64 small) calm. Proof. now apply calm_ok_on. Qed.
Lemma calm_ok32 : Forall (cmd_ok 32 small) calm. Proof. now apply calm_ok_on. Qed.
Lemma small_bits x : known small x = true -> only_variant_bits small x.
Proof. apply HistoryFacts.known_spec. vm_compute. repeat constructor; cbn; intuition discriminate. Qed.
Lemma small_history_ok : Forall (cmd_ok 64 small) small_history.
Proof.
  assert (Hv : forall x, x < 2 ^ 8 -> repr_value small x) by (intros x Hx; exists 8; now split).
  apply Forall_app. split; [exact calm_ok|].
  repeat (apply Forall_cons; [cbn [cmd_ok]|]); try apply Forall_nil; try exact I; try (apply Hv; reflexivity); try reflexivity;
    (split; [apply Hv; reflexivity|]).
  - intros x Hx i. unfold toggle. rewrite N.lxor_spec. destruct (N.testbit x i) eqn:E; [intros _; now apply Hx|].
    intros H. apply (small_bits 97 eq_refl). now destruct (N.testbit 97 i).
  - now apply small_bits.
Qed.
Lemma calm_portable : Forall portable calm.
Proof. unfold calm. repeat (apply Forall_cons; [exact I|]). apply Forall_nil. Qed.
Lemma calm_not_to_usize : Forall (fun c => ~ to_usize c) calm.
Proof. unfold calm. repeat (apply Forall_cons; [intros []|]). apply Forall_nil. Qed.
Lemma calm_total c : In c calm -> ~ may_panic small c.
Proof. intros Hc. cbn in Hc. intuition (subst; cbn in *; auto; discriminate). Qed.
Lemma small_arrayed : same_format small arrayed.
Proof. split; [reflexivity|split; [discriminate|reflexivity]]. Qed.
Lemma arrayed_usable : serde_usable arrayed.
Proof. intros E; discriminate E. Qed.
(** A program that removes from the full set whatever its iterator yields, and
    asks for the length when the iterator is exhausted. *)
Definition prune : program := fun seen =>
  match seen with
  | [] => Some (CLet 0 KAll)
  | [_] => Some (CIter 0 0)
  | _ =>
      match last seen OUnit with
      | OUnit | OBool _ => Some (CNext 0)
      | OOptVariant (Some v) => Some (CRemove 0 v)
      | OOptVariant None => Some (CLen 0)
      | _ => None
      end
  end.
Lemma prune_ok : calls 64 small (fun c => cmd_ok 64 small c /\ cmd_ok 32 small c /\ portable c /\ ~ uses_serde c /\ ~ to_usize c) 20 prune.
Proof. vm_compute. repeat split; auto 10 with arith. Qed.
Ltac pruned := eapply HistoryClaims.a_calls_weaken; [|exact prune_ok]; cbv beta; tauto.
Lemma prune_ok1 : calls 64 small (cmd_ok 64 small) 20 prune. Proof. pruned. Qed.
Lemma prune_ok2 : calls 64 small (fun c => cmd_ok 64 small c /\ portable c /\ ~ uses_serde c) 20 prune. Proof. pruned. Qed.
Lemma prune_ok3 : calls 64 small (fun c => cmd_ok 64 small c /\ cmd_ok 32 small c /\ ~ to_usize c) 20 prune. Proof. pruned. Qed.
(** Two enums, and a program that extends a set of [wide] through a closure which
    panics on [B], asks [small] for what was not consumed and puts its counterpart
    into the set; then a conversion panics. *)
Definition two (e : nat) : derive_input := match e with O => small | _ => wide end.
Definition TwoT (e : nat) : EnumTy := match e with O => SmallT | _ => WideT end.
Lemma two_supported e : Supported 64 (two e) (TwoT e).
Proof. destruct e; [exact small_supported|exact wide_supported]. Qed.
Definition not_b (v : nat) : option nat := match v with 1%nat => None | _ => Some v end.
Definition tour : mprogram := fun seen =>
  match seen with
  | [] => Some (MCall 0 (CLet 0 KAll))
  | [_] => Some (MCall 0 (CIter 0 0))
  | [_; _] => Some (MCall 1 (CInsert 0 3))
  | [_; _; _] => Some (MExtendMap 0 0 1 0 not_b)
  | _ =>
      match last seen (MOut OUnit) with
      | MClosurePanicked => Some (MCall 0 (CNext 0))
      | MOut (OOptVariant (Some v)) => Some (MCall 1 (CInsert 0 v))
      | MOut (OBool _) => Some (MCall 1 (CCollect 0))
      | MOut (OVariants _) => Some (MCall 0 (CFromNum 0 U8 2))
      | MPanicked _ => Some (MCall 0 (CLen 0))
      | _ => None
      end
  end.
Lemma tour_ok : mcalls 64 two 20 tour.
Proof.
  vm_compute. repeat split; auto 10 with arith.
  intros v u Hv E. destruct v as [|[|v]]; try discriminate; injection E as <-; auto with arith.
Qed.
#[export] Hint Resolve arrayed_supported renamed_supported calm_ok calm_ok32 calm_not_to_usize
  small_history_ok calm_portable calm_total small_arrayed arrayed_usable : ex.

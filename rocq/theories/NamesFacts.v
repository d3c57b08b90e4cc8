(** * Facts about names in the generated code *)
From Verif Require Import Base BaseFacts Syntax Spec Derive DeriveFacts TyFacts SerdeFacts Impls Names NamesSpec.
From Verif Require DeriveClaims.
Local Open Scope string_scope.
Local Open Scope list_scope.

(** The names that, given to the enum, would spoil one use *)
Definition spoils (p : place) (s : string) : Prop :=
  match pl_use p with
  | UEnum => In s (pl_scope p)
  | UOutside x => s = x
  | UOwn _ => False
  end.
(** The generated code binds its own names, and hides none it uses. *)
Definition sound (p : place) : Prop :=
  match pl_use p with
  | UEnum => True
  | UOutside x => ~ In x (pl_scope p)
  | UOwn x => In x (pl_scope p)
  end.
Lemma right_spec name p : sound p -> (right name p <-> ~ spoils p name).
Proof.
  unfold sound, right, spoils. destruct p as [sc [|x|x]]; cbn [pl_scope pl_use]; intros Hs.
  - split; [intros H; now inversion H|now constructor].
  - split; [intros H; inversion H; congruence|intros H; constructor; congruence].
  - split; [tauto|now constructor].
Qed.
Lemma all_right name ps : Forall sound ps -> (Forall (right name) ps <-> forall p, In p ps -> ~ spoils p name).
Proof.
  rewrite !Forall_forall. intros Hs. split; intros H p Hp; [apply right_spec|apply right_spec]; auto.
Qed.
Lemma in_scope_app (s : string) sc b : In s (sc ++ [b]) <-> In s sc \/ s = b.
Proof. rewrite in_app_iff. cbn [In]. intuition. Qed.

(** One of the uses is spoilt. *)
Definition spoilt (ps : list place) (s : string) : Prop := Exists (fun p => spoils p s) ps.
Definition names_enum (ps : list place) : Prop := Exists (fun p => pl_use p = UEnum) ps.
Lemma spoilt_app ps qs s : spoilt (ps ++ qs) s <-> spoilt ps s \/ spoilt qs s.
Proof. apply Exists_app. Qed.
Lemma spoilt_binding b ps s : spoilt (binding b ps) s <-> spoilt ps s \/ (s = b /\ names_enum ps).
Proof.
  unfold spoilt, names_enum, binding. rewrite Exists_map, !Exists_exists.
  split.
  - intros (p & Hp & H). destruct p as [sc [|x|x]]; cbn in H; [apply in_scope_app in H; destruct H as [H| ->]|..].
    + left. eexists. split; [exact Hp|exact H].
    + right. split; [reflexivity|]. eexists. split; [exact Hp|reflexivity].
    + left. eexists. split; [exact Hp|exact H].
    + destruct H.
  - intros [(p & Hp & H)|(-> & p & Hp & H)]; exists p; (split; [assumption|]); destruct p as [sc [|x|x]]; cbn in *;
      try discriminate; try assumption; apply in_scope_app; auto.
Qed.
Lemma spoilt_here us s : spoilt (here us) s <-> In (UOutside s) us.
Proof.
  unfold spoilt, here. rewrite Exists_map, Exists_exists. split.
  - intros (u & Hu & H). destruct u; cbn in H; [destruct H|now subst|destruct H].
  - intros H. eexists. split; [exact H|reflexivity].
Qed.
Lemma spoilt_nil s : spoilt [] s <-> False.
Proof. unfold spoilt. apply Exists_nil. Qed.
Lemma names_enum_app ps qs : names_enum (ps ++ qs) <-> names_enum ps \/ names_enum qs.
Proof. apply Exists_app. Qed.
Lemma names_enum_binding b ps : names_enum (binding b ps) <-> names_enum ps.
Proof. unfold names_enum, binding. rewrite Exists_map. reflexivity. Qed.
Lemma names_enum_here us : names_enum (here us) <-> In UEnum us.
Proof.
  unfold names_enum, here. rewrite Exists_map, Exists_exists. cbn. split; [intros (u & Hu & ->); assumption|intros H; now exists UEnum].
Qed.
Lemma names_enum_nil : names_enum [] <-> False.
Proof. apply Exists_nil. Qed.

Lemma uo_inj a b : UOutside a = UOutside b <-> a = b.
Proof. split; [now intros [=]|now intros ->]. Qed.
Ltac spoil := repeat (rewrite ?spoilt_app, ?spoilt_binding, ?spoilt_here, ?spoilt_nil, ?names_enum_app, ?names_enum_binding, ?names_enum_here, ?names_enum_nil,
  ?in_app_iff); cbn [In]; rewrite ?uo_inj.
Ltac spoil_done := intuition (subst; try discriminate; auto).

(** ** The pieces *)
Definition is_int (s : string) : Prop := name_bits s <> None.
Lemma repr_spoils r s : In (UOutside s) (repr_uses r) <-> match r with IArray _ => False | _ => name_bits s = Some (ir_supported r) end.
Proof.
  rewrite name_bits_ir. unfold ir_of_name.
  destruct r; cbn [repr_uses In]; rewrite ?uo_inj; try tauto;
    DeriveFacts.str_cases; cbn [ir_supported]; split; try discriminate; try congruence; spoil_done; congruence.
Qed.
Lemma repr_no_enum r : In UEnum (repr_uses r) <-> False.
Proof. destruct r; cbn; intuition discriminate. Qed.
Lemma ops_spoils o s : spoilt (ops_uses o) s <-> sw_no_ops o = false /\ (s = "O" \/ s = "Into" \/ s = "bool").
Proof. unfold ops_uses, binary_op. destruct (sw_no_ops o); spoil; spoil_done. Qed.
Lemma super_spoils o i s : spoilt (super_uses o i) s <->
  sw_no_super_impls o = false /\ (s = "bool" \/ (s = "u32" /\ i_variants i <> [])).
Proof. unfold super_uses. destruct (sw_no_super_impls o); [|destruct (i_variants i)]; spoil; spoil_done. Qed.
Lemma with_repr_spoils i s : spoilt (with_repr_uses i) s -> In (UOutside s) (repr_uses (internal_repr_of i)).
Proof. unfold with_repr_uses. destruct (i_explicit_internal i); spoil; spoil_done. Qed.
Lemma inherent_spoils i s : spoilt (inherent_uses i) s <->
  match internal_repr_of i with
  | IArray _ => s = "u32" \/ s = "usize"
  | r => i_variants i <> [] /\ In (UOutside s) (repr_uses r)
  end.
Proof.
  unfold inherent_uses, helper_fns, helper_fn.
  destruct (internal_repr_of i) eqn:E; (try destruct (i_variants i)); spoil; cbn [repeat repr_uses In]; rewrite ?uo_inj; spoil_done.
Qed.
Lemma is_int_names s : is_int s <-> In s int_names.
Proof. unfold is_int, name_bits, int_names. cbn [In]. DeriveFacts.str_cases; spoil_done; congruence. Qed.
Lemma spoilt_concat {A} (f : A -> list place) l s : spoilt (concat (map f l)) s <-> exists x, In x l /\ spoilt (f x) s.
Proof.
  induction l as [|x l IH]; cbn [map concat In]; [rewrite spoilt_nil; firstorder|].
  rewrite spoilt_app, IH. split.
  - intros [H|(y & Hy & H)]; eauto.
  - intros (y & [<-|Hy] & H); eauto.
Qed.
Lemma into_spoils i s : spoilt (into_uses i) s <-> s = "u32" \/ ((2 <= length (i_variants i))%nat /\ (s = "bool" \/ is_int s)).
Proof.
  rewrite is_int_names. unfold into_uses.
  destruct (i_variants i) as [|v [|v' vs]]; [| |assert (L : (2 <= length (v :: v' :: vs))%nat) by (cbn; lia); revert L; generalize (v :: v' :: vs); intros l L].
  - spoil. cbn [length]. spoil_done; lia.
  - spoil. cbn [length]. spoil_done; lia.
  - rewrite !spoilt_app, !spoilt_concat. split.
    + intros [H|[(x & Hx & H)|[(x & _ & H)|(x & Hx & H)]]]; apply spoilt_here in H; cbn [In] in H; rewrite ?uo_inj in H; spoil_done.
    + intros [->|(_ & [->|H])].
      * left. spoil. auto.
      * right. left. exists "u8". split; [now left|]. spoil. auto.
      * right. left. exists s. split; [assumption|]. spoil. auto.
Qed.
Definition ser_int (r : serde_repr) : Prop := match r with SList | SMap | SArray => False | _ => True end.
Lemma ser_spoils r s : In (UOutside s) (ser_name r) <-> ser_int r /\ s = DeriveClaims.sr_name r.
Proof. destruct r; cbn [ser_name In ser_int DeriveClaims.sr_name]; rewrite ?uo_inj; spoil_done. Qed.
Lemma ser_no_enum r : In UEnum (ser_name r) <-> False.
Proof. destruct r; cbn; intuition discriminate. Qed.
Lemma visitor_spoils us s : spoilt (visitor_uses us) s <-> s = "D" \/ s = "Visitor" \/ (s = "A" /\ In UEnum us) \/ In (UOutside s) us.
Proof. unfold visitor_uses. spoil. spoil_done. Qed.
Lemma serde_spoils i s : spoilt (serde_uses i) s <->
  s = "S" \/ s = "D" \/
  match serde_repr_of i with
  | SList => s = "A" \/ s = "Visitor"
  | SMap => s = "A" \/ s = "Visitor" \/ s = "bool"
  | SArray => s = "A" \/ s = "Visitor" \/ s = "u64"
  | r => s = DeriveClaims.sr_name r \/ In (UOutside s) (repr_uses (internal_repr_of i))
  end.
Proof.
  assert (HI : forall r, serde_repr_of i = r -> ser_int r -> spoilt (serde_int_uses i) s <->
     s = "S" \/ s = "D" \/ s = DeriveClaims.sr_name r \/ In (UOutside s) (repr_uses (internal_repr_of i))).
  { intros r Hr Hs. unfold serde_int_uses. rewrite Hr. destruct (i_deny_unknown i); spoil;
      rewrite ?ser_spoils, ?repr_no_enum, ?ser_no_enum; spoil_done. }
  unfold serde_uses. destruct (serde_repr_of i) eqn:E; try (now apply HI).
  - unfold serialize_items_uses. rewrite spoilt_app, visitor_spoils. spoil. spoil_done.
  - unfold serialize_items_uses. rewrite spoilt_app, visitor_spoils. spoil. spoil_done.
  - rewrite spoilt_app, visitor_spoils. destruct (i_deny_unknown i); spoil; spoil_done.
Qed.

(** ** Every name of its own is bound, and it hides no name it uses from outside. *)
Definition helper := "__EnumSetConstHelper".
Definition sound_at (sc : list string) (p : place) : Prop := sound (At (pl_scope p ++ sc) (pl_use p)).
Lemma sound_here sc us : (forall x, In (UOutside x) us -> ~ In x sc) -> (forall x, In (UOwn x) us -> In x sc) -> Forall (sound_at sc) (here us).
Proof.
  intros Ho Hn. unfold here. rewrite Forall_map. apply Forall_forall. intros [|x|x] H; cbn; auto.
Qed.
Lemma sound_binding sc b ps : Forall (sound_at (b :: sc)) ps -> Forall (sound_at sc) (binding b ps).
Proof.
  intros H. unfold binding. rewrite Forall_map. eapply Forall_impl; [|exact H]. intros [l u]. unfold sound_at. cbn [pl_scope pl_use].
  now rewrite <- app_assoc.
Qed.
Lemma repr_sound x r : In (UOutside x) (repr_uses r) -> In x int_names.
Proof. destruct r; cbn [repr_uses In int_names]; rewrite ?uo_inj; tauto. Qed.
Lemma repr_no_own x r : In (UOwn x) (repr_uses r) -> False.
Proof. destruct r; cbn; intuition discriminate. Qed.
Lemma ser_sound x r : In (UOutside x) (ser_name r) -> In x int_names.
Proof. destruct r; cbn [ser_name In int_names]; rewrite ?uo_inj; tauto. Qed.
Lemma ser_no_own x r : In (UOwn x) (ser_name r) -> False.
Proof. destruct r; cbn; intuition discriminate. Qed.
Ltac sound1 :=
  let x := fresh in let H := fresh in
  apply sound_here; intros x H; rewrite ?in_app_iff in H;
  repeat (destruct H as [H|H]);
  try (apply repr_sound in H); try (apply ser_sound in H); try (apply repr_no_own in H); try (apply ser_no_own in H);
  unfold int_names in *; cbn [In] in *; intuition (subst; try discriminate; try congruence).
Ltac sounds := repeat match goal with
  | |- Forall _ (binding _ _) => apply sound_binding
  | |- Forall _ (_ ++ _) => apply Forall_app; split
  end; try apply Forall_nil; try solve [sound1].
Lemma all_sound serde o i : Forall sound (generated_uses serde o i).
Proof.
  enough (Forall (sound_at []) (generated_uses serde o i)).
  { eapply Forall_impl; [|eassumption]. intros [l u]. unfold sound_at. cbn [pl_scope pl_use]. now rewrite app_nil_r. }
  unfold generated_uses. apply sound_binding. sounds.
  - unfold into_uses. destruct (i_variants i) as [|v [|v' vs]]; [sounds..|]. sounds.
    + unfold int_names. cbn [map concat]. sounds.
    + generalize (v :: v' :: vs). intros l. induction l as [|y l IH]; cbn [map concat]; sounds. exact IH.
    + unfold int_names. cbn [map concat]. sounds.
  - destruct serde; [|constructor]. unfold serde_uses, serde_int_uses, serialize_items_uses, visitor_uses.
    destruct (serde_repr_of i); destruct (i_deny_unknown i); sounds.
  - unfold with_repr_uses. destruct (i_explicit_internal i); sounds.
  - unfold super_uses. destruct (sw_no_super_impls o); sounds. destruct (i_variants i); sounds.
  - unfold ops_uses, binary_op. destruct (sw_no_ops o); sounds.
  - unfold inherent_uses, helper_fns, helper_fn. destruct (internal_repr_of i); cbn [repeat]; try destruct (i_variants i); sounds.
Qed.

Lemma all_spoilt serde o i s : spoilt (generated_uses serde o i) s <->
  s = "__EnumSetConstHelper" \/ s = "u32" \/
  (In (UOutside s) (repr_uses (internal_repr_of i))) \/
  ((2 <= length (i_variants i))%nat /\ (s = "bool" \/ is_int s)) \/
  (serde = true /\ spoilt (serde_uses i) s) \/
  (sw_no_super_impls o = false /\ s = "bool") \/
  (sw_no_ops o = false /\ (s = "O" \/ s = "Into" \/ s = "bool")) \/
  (s = "usize" /\ match internal_repr_of i with IArray _ => True | _ => False end).
Proof.
  unfold generated_uses. rewrite spoilt_binding, !spoilt_app, !spoilt_here, into_spoils, super_spoils, ops_spoils, inherent_spoils.
  rewrite !names_enum_app, !names_enum_here, !in_app_iff. cbn [In]. rewrite !uo_inj.
  pose proof (with_repr_spoils i s) as Hw.
  assert (Hs : spoilt (if serde then serde_uses i else []) s <-> serde = true /\ spoilt (serde_uses i) s)
    by (destruct serde; rewrite ?spoilt_nil; intuition discriminate).
  rewrite Hs. clear Hs.
  generalize dependent (spoilt (with_repr_uses i) s). generalize dependent (spoilt (serde_uses i) s).
  generalize (names_enum (into_uses i)) (names_enum (if serde then serde_uses i else []))
    (names_enum (with_repr_uses i) \/ names_enum (super_uses o i) \/ names_enum (ops_uses o) \/ names_enum (inherent_uses i)).
  intros N1 N2 N3 S1 S2 Hw.
  destruct (internal_repr_of i); spoil_done.
Qed.

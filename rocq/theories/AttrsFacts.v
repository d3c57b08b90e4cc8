(** * Lemmas about the decoding of attributes *)
From Coq Require Import Arith Permutation Sorted.
From Verif Require Import Base Syntax Derive Impls CrateName Attrs AttrsSpec.
Open Scope string_scope.

(** ** The loops as one loop over a list of events *)
Inductive event : Type := EvBad (e : attribute_error) | EvItem (it : item).
Definition step (st : slots * errors) (x : place * event) : slots * errors :=
  match snd x with
  | EvBad e => (fst st, snd st ++ [(fst x, e)])%list
  | EvItem it => on_item (fst x) it st
  end.
Fixpoint item_events (a i : nat) (l : list item) : list (place * event) :=
  match l with [] => [] | it :: l => ((a, Some i), EvItem it) :: item_events a (S i) l end.
Definition attribute_events (a : nat) (x : attribute) : list (place * event) :=
  if a_path x =? "enumset" then
    match a_form x with
    | AWord => []
    | ANameValue => [((a, None), EvBad ANoNameValue)]
    | AList None _ => [((a, None), EvBad AParse)]
    | AList (Some l) _ => item_events a 0 l
    end
  else [].
Fixpoint events (a : nat) (l : list attribute) : list (place * event) :=
  match l with [] => [] | x :: l => attribute_events a x ++ events (S a) l end.

Lemma on_items_events a l : forall i st, on_items a i l st = fold_left step (item_events a i l) st.
Proof. induction l as [|it l IH]; intros i st; cbn [on_items item_events fold_left]; [reflexivity|apply IH]. Qed.
Lemma on_attribute_events a x st : on_attribute a x st = fold_left step (attribute_events a x) st.
Proof.
  unfold on_attribute, attribute_events. destruct (a_path x =? "enumset"); [|reflexivity].
  destruct (a_form x) as [|[l|] id|]; try reflexivity. apply on_items_events.
Qed.
Lemma on_attributes_events l : forall a st, on_attributes a l st = fold_left step (events a l) st.
Proof.
  induction l as [|x l IH]; intros a st; cbn [on_attributes events]; [reflexivity|].
  rewrite fold_left_app, <- on_attribute_events. apply IH.
Qed.

(** ** The state after some events *)
Definition is_named (n : string) (x : place * event) : option meta :=
  match snd x with EvItem (IMeta n' m) => if n' =? n then Some m else None | _ => None end.
Fixpoint first_named (n : string) (l : list (place * event)) : option meta :=
  match l with
  | [] => None
  | x :: l => match is_named n x with Some m => Some m | None => first_named n l end
  end.
Definition slot_of {V} (from : meta -> option V) (n : string) (l : list (place * event)) : slot V :=
  match first_named n l with None => (false, None) | Some m => (true, from m) end.
Definition slots_of (l : list (place * event)) : slots :=
  MkSlots (slot_of bool_from_meta "no_ops" l) (slot_of bool_from_meta "no_super_impls" l)
          (slot_of string_from_meta "repr" l) (slot_of string_from_meta "serialize_repr" l)
          (slot_of bool_from_meta "serialize_deny_unknown" l) (slot_of string_from_meta "crate_name" l)
          (slot_of bool_from_meta "serialize_as_list" l) (slot_of bool_from_meta "serialize_as_map" l).

Definition memb (n : string) (l : list string) : bool := existsb (String.eqb n) l.
Definition good (n : string) (m : meta) : bool :=
  if memb n flag_names then match bool_from_meta m with Some _ => true | None => false end
  else match string_from_meta m with Some _ => true | None => false end.
(** The error of an event [x] after [l] *)
Definition error_of (l : list (place * event)) (x : place * event) : errors :=
  match snd x with
  | EvBad e => [(fst x, e)]
  | EvItem ILit => [(fst x, ALiteral)]
  | EvItem (IMeta n m) =>
      if memb n flag_names || memb n text_names then
        match first_named n l with
        | Some _ => [(fst x, ADuplicate n)]
        | None => if good n m then [] else [(fst x, AValue n)]
        end
      else [(fst x, AUnknown n)]
  end.

Lemma first_named_snoc n l x : first_named n (l ++ [x]) =
  match first_named n l with Some m => Some m | None => is_named n x end.
Proof.
  induction l as [|y l IH]; cbn; [destruct (is_named n x); reflexivity|].
  destruct (is_named n y); [reflexivity|exact IH].
Qed.
Lemma slot_snoc_other {V} (from : meta -> option V) n l p n' m : (n' =? n) = false ->
  slot_of from n (l ++ [(p, EvItem (IMeta n' m))]) = slot_of from n l.
Proof. intros H. unfold slot_of. rewrite first_named_snoc. unfold is_named. cbn. rewrite H. destruct (first_named n l); reflexivity. Qed.
Lemma slot_snoc_bad {V} (from : meta -> option V) n l p e : slot_of from n (l ++ [(p, EvBad e)]) = slot_of from n l.
Proof. unfold slot_of. rewrite first_named_snoc. cbn. destruct (first_named n l); reflexivity. Qed.
Lemma slot_snoc_lit {V} (from : meta -> option V) n l p : slot_of from n (l ++ [(p, EvItem ILit)]) = slot_of from n l.
Proof. unfold slot_of. rewrite first_named_snoc. cbn. destruct (first_named n l); reflexivity. Qed.

Lemma take_snoc {V} (from : meta -> option V) n p m l es :
  take from n p m (slot_of from n l) es =
  (slot_of from n (l ++ [(p, EvItem (IMeta n m))]),
   es ++ match first_named n l with
         | Some _ => [(p, ADuplicate n)]
         | None => match from m with Some _ => [] | None => [(p, AValue n)] end
         end)%list.
Proof.
  unfold take, slot_of. rewrite first_named_snoc. unfold is_named. cbn. rewrite String.eqb_refl.
  destruct (first_named n l); cbn; [reflexivity|]. destruct (from m); [rewrite app_nil_r|]; reflexivity.
Qed.

Lemma step_snoc l es x : step (slots_of l, es) x = (slots_of (l ++ [x]), es ++ error_of l x)%list.
Proof.
  destruct x as [p [e|[|n m]]].
  - unfold step, slots_of, error_of. cbn [fst snd]. rewrite !slot_snoc_bad. reflexivity.
  - unfold step, slots_of, error_of. cbn [fst snd on_item]. rewrite !slot_snoc_lit. reflexivity.
  - unfold step. cbn [fst snd]. unfold on_item, error_of. cbn [fst snd]. unfold slots_of at 1.
    repeat match goal with |- context[if ?n =? ?s then _ else _] =>
      let E := fresh "E" in destruct (n =? s) eqn:E;
      [apply String.eqb_eq in E; subst n; rewrite take_snoc; unfold slots_of;
       repeat match goal with |- context[slot_of ?f ?k (l ++ [(p, EvItem (IMeta ?n0 m))])] =>
         lazymatch k with n0 => fail | _ => rewrite (slot_snoc_other f k l p n0 m) by reflexivity end end;
       unfold good; cbn [memb existsb flag_names text_names]; repeat f_equal;
       try (destruct (bool_from_meta m); reflexivity); try (destruct (string_from_meta m); reflexivity)|] end.
    assert (U : (memb n flag_names || memb n text_names)%bool = false).
    { unfold memb, flag_names, text_names. cbn [existsb]. repeat match goal with H : (_ =? _) = false |- _ => rewrite H; clear H end. reflexivity. }
    rewrite U. unfold slots_of. rewrite !slot_snoc_other by assumption. reflexivity.
Qed.

Fixpoint errors_of (seen l : list (place * event)) : errors :=
  match l with [] => [] | x :: l => error_of seen x ++ errors_of (seen ++ [x]) l end%list.
Lemma run_events l : forall seen es,
  fold_left step l (slots_of seen, es) = (slots_of (seen ++ l), es ++ errors_of seen l)%list.
Proof.
  induction l as [|x l IH]; intros seen es; cbn [fold_left errors_of]; [rewrite !app_nil_r; reflexivity|].
  rewrite step_snoc, IH, <- !app_assoc. reflexivity.
Qed.
Lemma decode_run l :
  on_attributes 0 l (no_slots, []) = (slots_of (events 0 l), errors_of [] (events 0 l)).
Proof. rewrite on_attributes_events. change no_slots with (slots_of []). apply (run_events _ [] []). Qed.

(** ** Reflection *)
Lemma memb_in n l : memb n l = true <-> In n l.
Proof.
  unfold memb. rewrite existsb_exists. split.
  - intros (x & H & E). apply String.eqb_eq in E. subst. exact H.
  - intros H. exists n. split; [exact H|apply String.eqb_refl].
Qed.
Lemma memb_not_in n l : memb n l = false <-> ~ In n l.
Proof. rewrite <- memb_in. destruct (memb n l); intuition congruence. Qed.
Lemma flags_not_texts n : In n flag_names -> ~ In n text_names.
Proof. unfold flag_names, text_names. cbn. intuition (subst; discriminate). Qed.
Lemma says_bool m b : bool_from_meta m = Some b <-> says m b.
Proof.
  split.
  - destruct m as [| |[s|c|]]; cbn; try discriminate.
    + intros [= <-]. constructor.
    + destruct (s =? "true") eqn:E; [apply String.eqb_eq in E; subst; intros [= <-]; constructor|].
      destruct (s =? "false") eqn:F; [apply String.eqb_eq in F; subst; intros [= <-]; constructor|discriminate].
    + intros [= <-]. constructor.
  - intros []; reflexivity.
Qed.
Lemma string_text m s : string_from_meta m = Some s <-> m = MValue (EStr s).
Proof. destruct m as [| |[x|c|]]; cbn; split; congruence. Qed.
Lemma good_fits n m : In n flag_names \/ In n text_names -> (good n m = true <-> fits n m).
Proof.
  unfold good, fits. intros [H|H].
  - rewrite (proj2 (memb_in _ _) H). split.
    + destruct (bool_from_meta m) as [b|] eqn:E; [|discriminate]. intros _. left. split; [exact H|exists b; apply says_bool; exact E].
    + intros [[_ [b S]]|[C _]]; [apply says_bool in S; rewrite S; reflexivity|destruct (flags_not_texts _ H C)].
  - assert (F : memb n flag_names = false) by (apply memb_not_in; intro C; exact (flags_not_texts _ C H)).
    rewrite F. split.
    + destruct (string_from_meta m) as [s|] eqn:E; [|discriminate]. intros _. right. split; [exact H|exists s; apply string_text; exact E].
    + intros [[C _]|[_ [s S]]]; [destruct (flags_not_texts _ C H)|subst; reflexivity].
Qed.
Lemma known_names n : (memb n flag_names || memb n text_names)%bool = true <-> In n flag_names \/ In n text_names.
Proof. rewrite orb_true_iff, !memb_in. reflexivity. Qed.

(** ** Events and items *)
Lemma in_item_events a its : forall k p ev, In (p, ev) (item_events a k its) <->
  exists i it, p = (a, Some (k + i)%nat) /\ ev = EvItem it /\ nth_error its i = Some it.
Proof.
  induction its as [|it its IH]; intros k p ev; cbn [item_events].
  - split; [intros []|intros (i & it & _ & _ & H)]. destruct i; discriminate.
  - cbn [In]. rewrite IH. split.
    + intros [H|(i & it' & -> & -> & H)].
      * inversion H; subst. exists O, it. rewrite Nat.add_0_r. auto.
      * exists (S i), it'. rewrite Nat.add_succ_r. auto.
    + intros ([|i] & it' & -> & -> & H).
      * left. cbn in H. inversion H; subst. rewrite Nat.add_0_r. reflexivity.
      * right. exists i, it'. rewrite Nat.add_succ_r. auto.
Qed.
Lemma in_attribute_events a x p ev : In (p, ev) (attribute_events a x) <->
  (exists its id i it, x = MkAttribute "enumset" (AList (Some its) id) /\ p = (a, Some i) /\ ev = EvItem it /\ nth_error its i = Some it) \/
  (x = MkAttribute "enumset" ANameValue /\ p = (a, None) /\ ev = EvBad ANoNameValue) \/
  (exists id, x = MkAttribute "enumset" (AList None id) /\ p = (a, None) /\ ev = EvBad AParse).
Proof.
  destruct x as [path f]. unfold attribute_events. cbn [a_path a_form].
  destruct (path =? "enumset") eqn:E.
  - apply String.eqb_eq in E. subst path. destruct f as [|[its|] id|].
    + split; [intros []|]. intros [(? & ? & ? & ? & H & _)|[(H & _)|(? & H & _)]]; discriminate.
    + rewrite in_item_events. split.
      * intros (i & it & -> & -> & H). left. exists its, id, i, it. auto.
      * intros [(its' & id' & i & it & H & -> & -> & N)|[(H & _)|(? & H & _)]]; try discriminate.
        inversion H; subst. exists i, it. auto.
    + cbn. split.
      * intros [[= <- <-]|[]]. right. right. exists id. auto.
      * intros [(? & ? & ? & ? & H & _)|[(H & _)|(? & H & -> & ->)]]; try discriminate. auto.
    + cbn. split.
      * intros [[= <- <-]|[]]. auto.
      * intros [(? & ? & ? & ? & H & _)|[(H & -> & ->)|(? & H & _)]]; try discriminate. auto.
  - apply String.eqb_neq in E. split; [intros []|].
    intros [(? & ? & ? & ? & H & _)|[(H & _)|(? & H & _)]]; inversion H; congruence.
Qed.
Lemma in_events l : forall k p ev, In (p, ev) (events k l) <->
  exists a x, nth_error l a = Some x /\ In (p, ev) (attribute_events (k + a) x).
Proof.
  induction l as [|y l IH]; intros k p ev; cbn [events].
  - split; [intros []|intros (a & x & H & _)]. destruct a; discriminate.
  - rewrite in_app_iff, IH. split.
    + intros [H|(a & x & N & H)]; [exists O, y; rewrite Nat.add_0_r; auto|exists (S a), x; rewrite Nat.add_succ_r; auto].
    + intros ([|a] & x & N & H); [left; cbn in N; inversion N; subst; rewrite Nat.add_0_r in H; exact H
        |right; exists a, x; rewrite Nat.add_succ_r in H; auto].
Qed.
Lemma item_at_event l p it : item_at l p it <-> In (p, EvItem it) (events 0 l).
Proof.
  rewrite in_events. unfold item_at. split.
  - intros (a & i & its & id & -> & N & H). exists a, (MkAttribute "enumset" (AList (Some its) id)). split; [exact N|].
    apply in_attribute_events. left. exists its, id, i, it. auto.
  - intros (a & x & N & H). apply in_attribute_events in H.
    destruct H as [(its & id & i & it' & -> & -> & [= ->] & H)|[(_ & _ & ?)|(? & _ & _ & ?)]]; try discriminate.
    exists a, i, its, id. auto.
Qed.
Lemma bad_event l p e : In (p, EvBad e) (events 0 l) <->
  (exists a, p = (a, None) /\ e = ANoNameValue /\ nth_error l a = Some (MkAttribute "enumset" ANameValue)) \/
  (exists a id, p = (a, None) /\ e = AParse /\ nth_error l a = Some (MkAttribute "enumset" (AList None id))).
Proof.
  rewrite in_events. split.
  - intros (a & x & N & H). apply in_attribute_events in H.
    destruct H as [(its & id & i & it' & _ & _ & ? & _)|[(-> & -> & [= ->])|(id & -> & -> & [= ->])]]; [discriminate| |].
    + left. exists a. auto.
    + right. exists a, id. auto.
  - intros [(a & -> & -> & N)|(a & id & -> & -> & N)]; (eexists; eexists; split; [exact N|]); apply in_attribute_events.
    + auto.
    + right. right. exists id. auto.
Qed.

(** ** Sortedness *)
Definition before (x y : place * event) : Prop := earlier (fst x) (fst y).
Lemma earlier_irrefl p : ~ earlier p p.
Proof. intros [H|(_ & i & j & E & F & H)]; [lia|rewrite E in F; inversion F; lia]. Qed.
Lemma earlier_trans p q r : earlier p q -> earlier q r -> earlier p r.
Proof.
  unfold earlier. intros [H|(E & i & j & A & B & H)] [K|(F & i' & j' & C & D & K)]; try (left; lia).
  right. split; [congruence|]. exists i, j'. rewrite B in C. inversion C. repeat split; auto; lia.
Qed.
Lemma sorted_app {A} (R : A -> A -> Prop) (a b : list A) : StronglySorted R a -> StronglySorted R b ->
  (forall x y, In x a -> In y b -> R x y) -> StronglySorted R (a ++ b).
Proof.
  intros Ha Hb H. induction Ha as [|x a Ha IH F]; [exact Hb|]. cbn. constructor.
  - apply IH. intros; apply H; [right|]; assumption.
  - apply Forall_app. split; [exact F|]. apply Forall_forall. intros y Hy. apply H; [left; reflexivity|exact Hy].
Qed.
Lemma item_events_sorted a its : forall k, StronglySorted before (item_events a k its).
Proof.
  induction its as [|it its IH]; intros k; cbn; constructor; [apply IH|].
  apply Forall_forall. intros [p ev] H. apply in_item_events in H. destruct H as (i & it' & -> & _ & _).
  right. cbn. split; [reflexivity|]. exists k, (S k + i)%nat. repeat split; lia.
Qed.
Lemma attribute_events_sorted a x : StronglySorted before (attribute_events a x).
Proof.
  unfold attribute_events. destruct (a_path x =? "enumset"); [|constructor].
  destruct (a_form x) as [|[l|] id|]; try apply item_events_sorted; repeat constructor.
Qed.
Lemma attribute_events_at a x p ev : In (p, ev) (attribute_events a x) -> fst p = a.
Proof.
  intros H. apply in_attribute_events in H.
  destruct H as [(its & id & i & it' & _ & -> & _)|[(_ & -> & _)|(id & _ & -> & _)]]; reflexivity.
Qed.
Lemma events_sorted l : forall k, StronglySorted before (events k l).
Proof.
  induction l as [|x l IH]; intros k; cbn; [constructor|]. apply sorted_app; [apply attribute_events_sorted|apply IH|].
  intros [p ev] [q ev'] H H'. apply attribute_events_at in H. apply in_events in H'. destruct H' as (a & y & _ & H').
  apply attribute_events_at in H'. left. cbn. lia.
Qed.

(** ** The errors *)
(** The error of an event, in terms of all events *)
Definition event_error (l : list (place * event)) (p : place) (e : attribute_error) : Prop :=
  In (p, EvBad e) l \/
  (e = ALiteral /\ In (p, EvItem ILit) l) \/
  (exists n m, In (p, EvItem (IMeta n m)) l /\
     ((e = AUnknown n /\ ~ In n flag_names /\ ~ In n text_names) \/
      (e = ADuplicate n /\ (In n flag_names \/ In n text_names) /\
        exists p' m', In (p', EvItem (IMeta n m')) l /\ earlier p' p) \/
      (e = AValue n /\ (In n flag_names \/ In n text_names) /\
        (forall p' m', In (p', EvItem (IMeta n m')) l -> ~ earlier p' p) /\ ~ fits n m))).

Lemma first_named_none n l : first_named n l = None <-> forall p m, ~ In (p, EvItem (IMeta n m)) l.
Proof.
  induction l as [|[p ev] l IH]; cbn; [intuition|]. unfold is_named. cbn. destruct ev as [e|[|n' m]].
  - rewrite IH. split; intros H q m; [intros [C|C]; [discriminate|exact (H _ _ C)]|intros C; exact (H q m (or_intror C))].
  - rewrite IH. split; intros H q m; [intros [C|C]; [discriminate|exact (H _ _ C)]|intros C; exact (H q m (or_intror C))].
  - destruct (n' =? n) eqn:E.
    + apply String.eqb_eq in E. subst. split; [discriminate|]. intros H. destruct (H p m (or_introl eq_refl)).
    + apply String.eqb_neq in E. rewrite IH.
      split; intros H q m'; [intros [C|C]; [inversion C; congruence|exact (H _ _ C)]|intros C; exact (H q m' (or_intror C))].
Qed.
Lemma first_named_in n l m : first_named n l = Some m -> exists p, In (p, EvItem (IMeta n m)) l.
Proof.
  induction l as [|[p ev] l IH]; cbn; [discriminate|]. unfold is_named. cbn. destruct ev as [e|[|n' m']].
  - intros H. destruct (IH H) as [q C]. eauto.
  - intros H. destruct (IH H) as [q C]. eauto.
  - destruct (n' =? n) eqn:E.
    + apply String.eqb_eq in E. subst. intros [= <-]. eauto.
    + intros H. destruct (IH H) as [q C]. eauto.
Qed.

Lemma errors_of_spec l : forall seen p e, StronglySorted before (seen ++ l) ->
  (In (p, e) (errors_of seen l) <-> event_error (seen ++ l) p e /\ exists ev, In (p, ev) l).
Proof.
  induction l as [|x l IH]; intros seen p e S; cbn [errors_of].
  - split; [intros []|intros (_ & ev & [])].
  - rewrite in_app_iff, IH by (rewrite <- app_assoc; exact S). rewrite <- app_assoc. cbn [app].
    (* where the events of the whole list are *)
    assert (Uniq : forall q ev ev', In (q, ev) (seen ++ x :: l) -> In (q, ev') (seen ++ x :: l) -> ev = ev').
    { clear - S. intros q ev ev'. revert S. generalize (seen ++ x :: l)%list. intros w S. induction S as [|y w S IHS F]; [intros []|].
      rewrite Forall_forall in F. intros [->|H] [H'|H'].
      - congruence.
      - specialize (F _ H'). unfold before in F. cbn in F. destruct (earlier_irrefl _ F).
      - subst y. specialize (F _ H). unfold before in F. cbn in F. destruct (earlier_irrefl _ F).
      - auto. }
    assert (Seen : forall q ev, In (q, ev) (seen ++ x :: l) -> (earlier q (fst x) <-> In (q, ev) seen)).
    { clear - S. intros q ev H. split.
      - intros E. apply in_app_iff in H. destruct H as [H|[->|H]]; [exact H|destruct (earlier_irrefl _ E)|].
        exfalso. clear - S H E. induction seen as [|y seen IH]; cbn in S; inversion S as [|? ? S' F]; subst; [|auto].
        rewrite Forall_forall in F. specialize (F _ H). unfold before in F. cbn in F. exact (earlier_irrefl _ (earlier_trans _ _ _ E F)).
      - intros H'. clear H. induction seen as [|y seen IH]; [destruct H'|]. cbn in S. inversion S as [|? ? S' F]; subst.
        destruct H' as [->|H']; [|auto]. rewrite Forall_forall in F. specialize (F x). unfold before in F. cbn in F.
        apply F. apply in_app_iff. right. left. reflexivity. }
    assert (Here : In x (seen ++ x :: l)) by (apply in_app_iff; right; left; reflexivity).
    assert (X : In (p, e) (error_of seen x) <-> p = fst x /\ event_error (seen ++ x :: l) p e).
    { destruct x as [px ev]. cbn [fst] in *. unfold error_of. cbn [fst snd]. destruct ev as [e'|[|n m]].
      - split.
        + intros [[= <- <-]|[]]. split; [reflexivity|]. left. exact Here.
        + intros [-> [H|[(_ & H)|(n & m & H & _)]]]; pose proof (Uniq _ _ _ Here H) as U; try discriminate.
          inversion U; subst. left. reflexivity.
      - split.
        + intros [[= <- <-]|[]]. split; [reflexivity|]. right. left. auto.
        + intros [-> [H|[(-> & H)|(n & m & H & _)]]]; pose proof (Uniq _ _ _ Here H) as U; try discriminate. left. reflexivity.
      - destruct (memb n flag_names || memb n text_names)%bool eqn:K.
        + apply known_names in K. destruct (first_named n seen) as [m'|] eqn:F.
          * apply first_named_in in F. destruct F as [p' F].
            assert (F' : In (p', EvItem (IMeta n m')) (seen ++ (px, EvItem (IMeta n m)) :: l)) by (apply in_app_iff; auto).
            split.
            -- intros [[= <- <-]|[]]. split; [reflexivity|]. right. right. exists n, m. split; [exact Here|]. right. left.
               repeat split; [exact K|]. exists p', m'. split; [exact F'|]. apply (Seen _ _ F'). exact F.
            -- intros [-> [H|[(-> & H)|(n0 & m0 & H & D)]]]; pose proof (Uniq _ _ _ Here H) as U; try discriminate.
               inversion U; subst n0 m0.
               destruct D as [(_ & N1 & N2)|[(-> & _)|(_ & _ & N & _)]]; [destruct K; contradiction|left; reflexivity|].
               destruct (N _ _ F'). apply (Seen _ _ F'). exact F.
          * pose proof (proj1 (first_named_none n seen) F) as F'.
            assert (First : forall p' m', In (p', EvItem (IMeta n m')) (seen ++ (px, EvItem (IMeta n m)) :: l) -> ~ earlier p' px).
            { intros p' m' H E. apply (Seen _ _ H) in E. exact (F' _ _ E). }
            pose proof (good_fits n m K) as G. destruct (good n m).
            -- split; [intros []|]. intros [-> [H|[(-> & H)|(n0 & m0 & H & D)]]]; pose proof (Uniq _ _ _ Here H) as U; try discriminate.
               inversion U; subst n0 m0.
               destruct D as [(_ & N1 & N2)|[(-> & _ & p' & m' & C & E)|(_ & _ & _ & N)]]; [destruct K; contradiction|exact (First _ _ C E)|].
               apply N. apply G. reflexivity.
            -- split.
               ++ intros [[= <- <-]|[]]. split; [reflexivity|]. right. right. exists n, m. split; [exact Here|]. right. right.
                  split; [reflexivity|]. split; [exact K|]. split; [exact First|]. intros C. apply G in C. discriminate.
               ++ intros [-> [H|[(-> & H)|(n0 & m0 & H & D)]]]; pose proof (Uniq _ _ _ Here H) as U; try discriminate.
                  inversion U; subst n0 m0.
                  destruct D as [(_ & N1 & N2)|[(-> & _ & p' & m' & C & E)|(-> & _)]]; [destruct K; contradiction|destruct (First _ _ C E)|].
                  left. reflexivity.
        + assert (N : ~ In n flag_names /\ ~ In n text_names).
          { apply orb_false_iff in K. destruct K as [K1 K2]. rewrite memb_not_in in K1, K2. auto. }
          split.
          * intros [[= <- <-]|[]]. split; [reflexivity|]. right. right. exists n, m. split; [exact Here|]. left. tauto.
          * intros [-> [H|[(-> & H)|(n0 & m0 & H & D)]]]; pose proof (Uniq _ _ _ Here H) as U; try discriminate.
            inversion U; subst n0 m0. destruct D as [(-> & _)|[(_ & K' & _)|(_ & K' & _)]]; [left; reflexivity|tauto|tauto]. }
    rewrite X. split.
    + intros [[-> H]|[H [ev' H']]].
      * split; [exact H|]. exists (snd x). left. destruct x; reflexivity.
      * split; [exact H|]. exists ev'. right. exact H'.
    + intros [H [ev' [->|H']]]; [left; split; [reflexivity|exact H]|right; split; [exact H|]; eauto].
Qed.

Lemma event_error_in l p e : event_error l p e -> exists ev, In (p, ev) l.
Proof. intros [H|[(_ & H)|(n & m & H & _)]]; eauto. Qed.
Lemma event_error_fault l p e : event_error (events 0 l) p e <-> Fault l p e.
Proof.
  split.
  - intros [H|[(-> & H)|(n & m & H & D)]].
    + apply bad_event in H. destruct H as [(a & -> & -> & N)|(a & id & -> & -> & N)]; [apply Fault_name_value; exact N|apply (Fault_parse _ _ _ N)].
    + apply Fault_literal. apply item_at_event. exact H.
    + apply item_at_event in H. destruct D as [(-> & N1 & N2)|[(-> & K & p' & m' & C & E)|(-> & K & N & F)]].
      * apply (Fault_unknown _ _ _ _ H N1 N2).
      * apply item_at_event in C. apply (Fault_duplicate _ _ _ _ _ _ H K C E).
      * apply (Fault_value _ _ _ _ H K); [|exact F]. intros p' m' C. apply item_at_event in C. exact (N _ _ C).
  - intros H. destruct H as [a N|a id N|p H|p n m H N1 N2|p n m p' m' H K C E|p n m H K N F].
    + left. apply bad_event. left. exists a. auto.
    + left. apply bad_event. right. exists a, id. auto.
    + right. left. split; [reflexivity|]. apply item_at_event. exact H.
    + right. right. apply item_at_event in H. exists n, m. auto.
    + right. right. apply item_at_event in H, C. exists n, m. split; [exact H|]. right. left. repeat split; [exact K|]. eauto.
    + right. right. apply item_at_event in H. exists n, m. split; [exact H|]. right. right. repeat split; [exact K| |exact F].
      intros p' m' C. apply (N p' m'). apply item_at_event. exact C.
Qed.
Lemma errors_fault l p e : In (p, e) (errors_of [] (events 0 l)) <-> Fault l p e.
Proof.
  rewrite errors_of_spec by apply events_sorted. cbn [app]. rewrite event_error_fault. split; [tauto|].
  intros H. split; [exact H|]. apply event_error_fault in H. exact (event_error_in _ _ _ H).
Qed.

Lemma error_of_place l x pe : In pe (error_of l x) -> fst pe = fst x.
Proof.
  unfold error_of. destruct (snd x) as [e|[|n m]]; [intros [<-|[]]; reflexivity|intros [<-|[]]; reflexivity|].
  destruct (memb n flag_names || memb n text_names)%bool; [|intros [<-|[]]; reflexivity].
  destruct (first_named n l); [intros [<-|[]]; reflexivity|]. destruct (good n m); [intros []|intros [<-|[]]; reflexivity].
Qed.
Lemma error_of_short l x : (length (error_of l x) <= 1)%nat.
Proof.
  unfold error_of. destruct (snd x) as [e|[|n m]]; cbn [length]; try lia.
  destruct (memb n flag_names || memb n text_names)%bool; [|cbn [length]; lia].
  destruct (first_named n l); [cbn [length]; lia|]. destruct (good n m); cbn [length]; lia.
Qed.
Lemma errors_of_place l : forall seen pe, In pe (errors_of seen l) -> exists ev, In (fst pe, ev) l.
Proof.
  induction l as [|x l IH]; intros seen pe; cbn; [intros []|]. rewrite in_app_iff. intros [H|H].
  - apply error_of_place in H. exists (snd x). left. rewrite H. destruct x; reflexivity.
  - destruct (IH _ _ H) as [ev C]. eauto.
Qed.
Lemma errors_of_sorted l : forall seen, StronglySorted before l -> StronglySorted earlier (map fst (errors_of seen l)).
Proof.
  induction l as [|x l IH]; intros seen S; cbn; [constructor|]. inversion S as [|? ? S' F]; subst. rewrite map_app.
  apply sorted_app; [|apply IH; exact S'|].
  - pose proof (error_of_short seen x) as H. destruct (error_of seen x) as [|pe [|]]; cbn in *; [constructor|repeat constructor|lia].
  - intros p q Hp Hq. rewrite in_map_iff in Hp, Hq. destruct Hp as (pe & <- & Hp). destruct Hq as (qe & <- & Hq).
    apply error_of_place in Hp. apply errors_of_place in Hq. destruct Hq as [ev Hq]. rewrite Forall_forall in F.
    specialize (F _ Hq). unfold before in F. cbn in F. rewrite Hp. exact F.
Qed.

(** ** No errors *)
Definition event_item (x : place * event) : list item := match snd x with EvItem it => [it] | EvBad _ => [] end.
Lemma item_events_items a its : forall k, flat_map event_item (item_events a k its) = its.
Proof. induction its as [|it its IH]; intros k; cbn; [reflexivity|]. f_equal. apply IH. Qed.
Lemma items_of_other path f : path <> "enumset" -> items_of (MkAttribute path f) = [].
Proof.
  intros H. unfold items_of.
  repeat match goal with |- match ?x with _ => _ end = _ => destruct x; try reflexivity end. congruence.
Qed.
Lemma events_items l : forall k, flat_map event_item (events k l) = all_items l.
Proof.
  induction l as [|[path f] l IH]; intros k; cbn [events all_items flat_map]; [reflexivity|].
  rewrite flat_map_app, IH. fold (all_items l). f_equal. unfold attribute_events. cbn [a_path a_form].
  destruct (path =? "enumset") eqn:E.
  - apply String.eqb_eq in E. subst path. destruct f as [|[its|] id|]; try reflexivity. apply item_events_items.
  - apply String.eqb_neq in E. rewrite items_of_other by exact E. reflexivity.
Qed.
Lemma in_items_event l it : In it (all_items l) <-> exists p, In (p, EvItem it) (events 0 l).
Proof.
  rewrite <- (events_items l 0), in_flat_map. split.
  - intros ([p ev] & H & C). unfold event_item in C. cbn in C. destruct ev; [destruct C|]. destruct C as [->|[]]. eauto.
  - intros [p H]. exists (p, EvItem it). split; [exact H|left; reflexivity].
Qed.

Definition item_ok (it : item) : Prop := match it with ILit => False | IMeta n m => fits n m end.
Lemma fits_known n m : fits n m -> In n flag_names \/ In n text_names.
Proof. intros [[H _]|[H _]]; auto. Qed.
Lemma no_errors l : forall seen, NoDup (map item_name (flat_map event_item seen)) -> (forall x, In x seen -> exists n m, snd x = EvItem (IMeta n m)) ->
  (errors_of seen l = [] <->
   (forall x, In x l -> exists it, snd x = EvItem it) /\ (forall it, In it (flat_map event_item l) -> item_ok it) /\
   NoDup (map item_name (flat_map event_item (seen ++ l)))).
Proof.
  induction l as [|x l IH]; intros seen ND Hs; cbn [errors_of].
  - rewrite app_nil_r. cbn. intuition.
  - split.
    + intros H. apply app_eq_nil in H. destruct H as [H1 H2]. destruct x as [p ev]. unfold error_of in H1. cbn [fst snd] in H1.
      destruct ev as [e|[|n m]]; try discriminate.
      destruct (memb n flag_names || memb n text_names)%bool eqn:K; [|discriminate]. apply known_names in K.
      destruct (first_named n seen) eqn:F; [discriminate|]. destruct (good n m) eqn:G; [|discriminate]. apply (good_fits n m K) in G.
      apply IH in H2.
      * destruct H2 as (A & B & C). rewrite <- app_assoc in C. repeat split; [| |exact C].
        -- intros x [<-|H]; [exists (IMeta n m); reflexivity|auto].
        -- cbn. intros it [<-|H]; [exact G|auto].
      * rewrite flat_map_app, map_app. cbn. apply Permutation_NoDup with (n :: map item_name (flat_map event_item seen)); [apply Permutation_cons_append|].
        constructor; [|exact ND]. intros C. apply in_map_iff in C. destruct C as (it & C & C'). apply in_flat_map in C'.
        destruct C' as ([q ev] & C' & C''). destruct (Hs _ C') as (n' & m' & E). cbn in E. subst ev. cbn in C''. destruct C'' as [<-|[]].
        cbn in C. subst n'. exact (proj1 (first_named_none n seen) F _ _ C').
      * intros y Hy. apply in_app_iff in Hy. destruct Hy as [Hy|[<-|[]]]; [auto|cbn; eauto].
    + intros (A & B & C). destruct (A x (or_introl eq_refl)) as [it E]. destruct x as [p ev]. cbn in E. subst ev.
      assert (O : item_ok it) by (apply B; left; reflexivity). destruct it as [|n m]; [destruct O|]. cbn in O.
      assert (F : first_named n seen = None).
      { destruct (first_named n seen) eqn:F; [|reflexivity]. apply first_named_in in F. destruct F as [q F]. exfalso.
        rewrite flat_map_app, map_app in C. cbn in C. apply NoDup_remove_2 in C. apply C. apply in_app_iff. left.
        apply in_map_iff. eexists. split; [|apply in_flat_map; exists (q, EvItem (IMeta n m0)); split; [exact F|left; reflexivity]]. reflexivity. }
      unfold error_of. cbn [fst snd]. rewrite (proj2 (known_names n) (fits_known _ _ O)), F.
      rewrite (proj2 (good_fits n m (fits_known _ _ O)) O). cbn [app]. apply IH.
      * rewrite flat_map_app, map_app. cbn. change (seen ++ (p, EvItem (IMeta n m)) :: l)%list with (seen ++ ([(p, EvItem (IMeta n m))] ++ l))%list in C.
        rewrite app_assoc, flat_map_app, map_app in C. rewrite flat_map_app, map_app in C.
        revert C. generalize (map item_name (flat_map event_item l)). intros w. cbn.
        intros C. clear - C. induction w as [|y w IHw]; [rewrite app_nil_r in C; exact C|]. apply IHw. apply NoDup_remove_1 in C. exact C.
      * intros y Hy. apply in_app_iff in Hy. destruct Hy as [Hy|[<-|[]]]; [auto|cbn; eauto].
      * rewrite <- app_assoc. repeat split; [|intros; apply B; right; assumption|exact C]. intros; apply A; right; assumption.
Qed.

(** The value of an option whose items are distinct *)
Lemma first_named_items l n m : NoDup (map item_name (flat_map event_item l)) ->
  (first_named n l = Some m <-> In (IMeta n m) (flat_map event_item l)).
Proof.
  intros ND. split.
  - intros H. apply first_named_in in H. destruct H as [p H]. apply in_flat_map. eexists. split; [exact H|left; reflexivity].
  - induction l as [|[p ev] l IH]; [intros []|]. destruct ev as [e|it].
    + cbn. exact (IH ND).
    + cbn in ND. inversion ND as [|? ? N ND']; subst. intros [->|H].
      * cbn. unfold is_named. cbn. rewrite String.eqb_refl. reflexivity.
      * cbn [first_named]. unfold is_named. cbn [snd]. destruct it as [|n' m']; [apply IH; assumption|].
        destruct (n' =? n) eqn:E; [|apply IH; assumption]. apply String.eqb_eq in E. subst. exfalso. apply N. cbn.
        apply in_map_iff. exists (IMeta n m). auto.
Qed.

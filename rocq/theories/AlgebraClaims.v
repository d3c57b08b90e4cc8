(** * Claims about operators and the Boolean algebra of sets *)
From Verif Require Import Base BaseFacts LimbFacts Repr ReprLaws.
From Verif Require Import Syntax Spec Derive EnumSet ApiSpec TyFacts SetFacts MacroFacts ReachFacts SetClaims.

Lemma op_denotes pw inp T val irel (HT : TyLaws pw (discrs inp) T val irel)
  (HV : forall s, Reachable pw inp T s -> @Valid inp T val s) o B :
  OpDenotes inp T (Reachable pw inp T) o B ->
  ovalid (inp := inp) (val := val) o /\ forall v, variant inp v -> omem (inp := inp) (val := val) o v = B v.
Proof.
  destruct o as [s|u]; cbn [OpDenotes ovalid omem].
  - intros [Hr Hd]. apply HV in Hr. split; [assumption|]. now apply (denotes_iff HT).
  - intros [Hu H]. split; [assumption|]. intros v Hv. symmetry. now apply H.
Qed.
Ltac operand o := match goal with
  | HT : TyLaws _ _ _ _ _, HV : forall s, Reachable _ _ _ s -> _, HO : OpDenotes _ _ _ o _ |- _ =>
      let Ho := fresh "Ho" in let Hom := fresh "Hom" in
      destruct (op_denotes _ _ _ _ _ HT HV o _ HO) as [Ho Hom] end.

(** ** C12 *)
Lemma assign_members pw inp T a A b B o O : Supported pw inp T ->
  Reachable pw inp T a -> Denotes inp T a A -> Reachable pw inp T b -> Denotes inp T b B ->
  OpDenotes inp T (Reachable pw inp T) o O ->
  Returns inp T (es_insert_all T a b) (fun v => A v || B v) /\
  Returns inp T (es_remove_all T a b) (fun v => A v && negb (B v)) /\
  Returns inp T (es_bitor_assign T a o) (fun v => A v || O v) /\
  Returns inp T (es_sub_assign T a o) (fun v => A v && negb (O v)) /\
  Returns inp T (es_bitand_assign T a o) (fun v => A v && O v) /\
  Returns inp T (es_bitxor_assign T a o) (fun v => xorb (A v) (O v)).
Proof.
  intros HS Ra Da Rb Db HO. start. members a. members b. operand o. repeat split; ret_members.
  - eapply (good_ext (val := val)); [|now apply (union_spec HT)]. intros v Hv. cbv beta. now rewrite Hm, Hm0.
  - eapply (good_ext (val := val)); [|now apply (difference_spec HT)]. intros v Hv. cbv beta. now rewrite Hm, Hm0.
  - eapply (good_ext (val := val)); [|now apply (bitor_spec HT)]. intros v Hv. cbv beta. now rewrite Hm, Hom.
  - eapply (good_ext (val := val)); [|now apply (sub_spec HT)]. intros v Hv. cbv beta. now rewrite Hm, Hom.
  - eapply (good_ext (val := val)); [|now apply (bitand_spec HT)]. intros v Hv. cbv beta. now rewrite Hm, Hom.
  - eapply (good_ext (val := val)); [|now apply (bitxor_spec HT)]. intros v Hv. cbv beta. now rewrite Hm, Hom.
Qed.
Lemma operator_members pw inp T a A o O : Supported pw inp T ->
  Reachable pw inp T a -> Denotes inp T a A -> OpDenotes inp T (Reachable pw inp T) o O ->
  Returns inp T (es_bitor T a o) (fun v => A v || O v) /\
  Returns inp T (es_sub T a o) (fun v => A v && negb (O v)) /\
  Returns inp T (es_bitand T a o) (fun v => A v && O v) /\
  Returns inp T (es_bitxor T a o) (fun v => xorb (A v) (O v)) /\
  Returns inp T (es_not T a) (fun v => negb (A v)).
Proof.
  intros HS Ra Da HO. start. members a. operand o. repeat split; ret_members.
  - eapply (good_ext (val := val)); [|now apply (bitor_spec HT)]. intros v Hv. cbv beta. now rewrite Hm, Hom.
  - eapply (good_ext (val := val)); [|now apply (sub_spec HT)]. intros v Hv. cbv beta. now rewrite Hm, Hom.
  - eapply (good_ext (val := val)); [|now apply (bitand_spec HT)]. intros v Hv. cbv beta. now rewrite Hm, Hom.
  - eapply (good_ext (val := val)); [|now apply (bitxor_spec HT)]. intros v Hv. cbv beta. now rewrite Hm, Hom.
  - eapply (good_ext (val := val)); [|now apply (complement_spec HT)]. intros v Hv. cbv beta. now rewrite Hm.
Qed.

(** ** C13 *)
Lemma variant_operators pw inp T t o O : Supported pw inp T -> variant inp t ->
  OpDenotes inp T (Reachable pw inp T) o O ->
  Returns inp T (var_bitor T t o) (fun v => (v =? t)%nat || O v) /\
  Returns inp T (var_bitand T t o) (fun v => (v =? t)%nat && O v) /\
  Returns inp T (var_bitxor T t o) (fun v => xorb (v =? t)%nat (O v)) /\
  Returns inp T (var_sub T t o) (fun v => (v =? t)%nat && negb (O v)) /\
  Returns inp T (var_not T t) (fun v => negb (v =? t)%nat).
Proof.
  intros HS Ht HO. start. operand o. repeat split; ret_members.
  - eapply (good_ext (val := val)); [|now apply (var_bitor_spec HT)]. intros v Hv. cbv beta. now rewrite Hom.
  - eapply (good_ext (val := val)); [|now apply (var_bitand_spec HT)]. intros v Hv. cbv beta. now rewrite Hom.
  - eapply (good_ext (val := val)); [|now apply (var_bitxor_spec HT)]. intros v Hv. cbv beta. now rewrite Hom.
  - eapply (good_ext (val := val)); [|now apply (var_sub_spec HT)]. intros v Hv. cbv beta. now rewrite Hom.
  - now apply (var_not_spec HT).
Qed.
Lemma variant_eq pw inp T u v : Supported pw inp T -> variant inp u -> variant inp v ->
  exists b, enum_eq T u v = Ret b /\ (b = true <-> u = v).
Proof.
  intros HS Hu Hv. start. exists (u =? v)%nat. split; [now apply (enum_eq_spec HT)|apply Nat.eqb_eq].
Qed.

(** ** C14 *)
Lemma eval_good pw inp T val irel (HT : TyLaws pw (discrs inp) T val irel) env e :
  (forall i, @Valid inp T val (env i)) ->
  @Good inp T val (es_eval T env e) (fun v => bool_eval (fun i => SetFacts.mem (inp := inp) (val := val) (env i) v) e).
Proof.
  intros He. induction e as [i| | |e1 IH1 e2 IH2|e1 IH1 e2 IH2|e1 IH1 e2 IH2|e1 IH1 e2 IH2|e IH]; cbn [es_eval bool_eval].
  - apply (good_ret _ (He i)).
  - exact (empty_spec HT).
  - eapply good_ext; [|apply (good_ret _ (all_valid HT))]. apply (all_mem HT).
  - eapply good_bind; [exact IH1|]. intros x Hx Hxm. eapply good_bind; [exact IH2|]. intros y Hy Hym.
    eapply good_ext; [|apply (bitor_spec HT x (OSet y)); assumption]. intros v Hv. cbn [omem]. now rewrite Hxm, Hym.
  - eapply good_bind; [exact IH1|]. intros x Hx Hxm. eapply good_bind; [exact IH2|]. intros y Hy Hym.
    eapply good_ext; [|apply (bitand_spec HT x (OSet y)); assumption]. intros v Hv. cbn [omem]. now rewrite Hxm, Hym.
  - eapply good_bind; [exact IH1|]. intros x Hx Hxm. eapply good_bind; [exact IH2|]. intros y Hy Hym.
    eapply good_ext; [|apply (bitxor_spec HT x (OSet y)); assumption]. intros v Hv. cbn [omem]. now rewrite Hxm, Hym.
  - eapply good_bind; [exact IH1|]. intros x Hx Hxm. eapply good_bind; [exact IH2|]. intros y Hy Hym.
    eapply good_ext; [|apply (sub_spec HT x (OSet y)); assumption]. intros v Hv. cbn [omem]. now rewrite Hxm, Hym.
  - eapply good_bind; [exact IH|]. intros x Hx Hxm.
    eapply good_ext; [|apply (complement_spec HT x); assumption]. intros v Hv. cbv beta. now rewrite Hxm.
Qed.
Lemma boolean_identities pw inp T env e e' : Supported pw inp T ->
  (forall i, Reachable pw inp T (env i)) ->
  (forall b, bool_eval b e = bool_eval b e') ->
  Agree T (es_eval T env e) (es_eval T env e').
Proof.
  intros HS He Hb. start. assert (HeV : forall i, @Valid inp T val (env i)) by (intros i; apply HV, He).
  pose proof (eval_good _ _ _ _ _ HT env e HeV) as G.
  assert (G' : @Good inp T val (es_eval T env e') (fun v => bool_eval (fun i => SetFacts.mem (inp := inp) (val := val) (env i) v) e)).
  { eapply good_ext; [|apply (eval_good _ _ _ _ _ HT env e' HeV)]. intros v _. symmetry. apply Hb. }
  destruct (good_same HT _ _ _ G G') as (s & E1 & E2 & _). exists s. auto.
Qed.
Lemma boolean_laws pw inp T a b c : Supported pw inp T ->
  Reachable pw inp T a -> Reachable pw inp T b -> Reachable pw inp T c ->
  (* commutativity *)
  Agree T (es_bitor T a (OSet b)) (es_bitor T b (OSet a)) /\
  Agree T (es_bitand T a (OSet b)) (es_bitand T b (OSet a)) /\
  (* associativity *)
  Agree T (x <- es_bitor T a (OSet b) ;; es_bitor T x (OSet c)) (y <- es_bitor T b (OSet c) ;; es_bitor T a (OSet y)) /\
  Agree T (x <- es_bitand T a (OSet b) ;; es_bitand T x (OSet c)) (y <- es_bitand T b (OSet c) ;; es_bitand T a (OSet y)) /\
  (* distributivity *)
  Agree T (x <- es_bitor T b (OSet c) ;; es_bitand T a (OSet x))
          (x <- es_bitand T a (OSet b) ;; y <- es_bitand T a (OSet c) ;; es_bitor T x (OSet y)) /\
  Agree T (x <- es_bitand T b (OSet c) ;; es_bitor T a (OSet x))
          (x <- es_bitor T a (OSet b) ;; y <- es_bitor T a (OSet c) ;; es_bitand T x (OSet y)) /\
  (* absorption *)
  Agree T (x <- es_bitand T a (OSet b) ;; es_bitor T a (OSet x)) (Ret a) /\
  Agree T (x <- es_bitor T a (OSet b) ;; es_bitand T a (OSet x)) (Ret a) /\
  (* identity *)
  Agree T (es_bitor T a (OSet (es_empty T))) (Ret a) /\
  Agree T (es_bitand T a (OSet (es_all T))) (Ret a) /\
  (* complement *)
  Agree T (x <- es_not T a ;; es_bitor T a (OSet x)) (Ret (es_all T)) /\
  Agree T (x <- es_not T a ;; es_bitand T a (OSet x)) (Ret (es_empty T)) /\
  Agree T (x <- es_not T a ;; es_not T x) (Ret a) /\
  (* De Morgan *)
  Agree T (x <- es_bitor T a (OSet b) ;; es_not T x) (x <- es_not T a ;; y <- es_not T b ;; es_bitand T x (OSet y)) /\
  Agree T (x <- es_bitand T a (OSet b) ;; es_not T x) (x <- es_not T a ;; y <- es_not T b ;; es_bitor T x (OSet y)) /\
  (* difference and symmetric difference *)
  Agree T (es_sub T a (OSet b)) (x <- es_not T b ;; es_bitand T a (OSet x)) /\
  Agree T (es_bitxor T a (OSet b)) (x <- es_sub T a (OSet b) ;; y <- es_sub T b (OSet a) ;; es_bitor T x (OSet y)).
Proof.
  intros HS Ra Rb Rc.
  set (env := fun i => match i with 0%nat => a | 1%nat => b | _ => c end).
  assert (He : forall i, Reachable pw inp T (env i)) by (intros [|[|i]]; assumption).
  pose proof (fun e e' => boolean_identities pw inp T env e e' HS He) as H.
  set (va := SVar 0). set (vb := SVar 1). set (vc := SVar 2).
  repeat split.
  - apply (H (SOr va vb) (SOr vb va)). intros f. cbn. now destruct (f 0%nat), (f 1%nat).
  - apply (H (SAnd va vb) (SAnd vb va)). intros f. cbn. now destruct (f 0%nat), (f 1%nat).
  - apply (H (SOr (SOr va vb) vc) (SOr va (SOr vb vc))). intros f. cbn. now destruct (f 0%nat), (f 1%nat).
  - apply (H (SAnd (SAnd va vb) vc) (SAnd va (SAnd vb vc))). intros f. cbn. now destruct (f 0%nat), (f 1%nat).
  - apply (H (SAnd va (SOr vb vc)) (SOr (SAnd va vb) (SAnd va vc))). intros f. cbn. now destruct (f 0%nat), (f 1%nat).
  - apply (H (SOr va (SAnd vb vc)) (SAnd (SOr va vb) (SOr va vc))). intros f. cbn. now destruct (f 0%nat), (f 1%nat).
  - apply (H (SOr va (SAnd va vb)) va). intros f. cbn. now destruct (f 0%nat), (f 1%nat).
  - apply (H (SAnd va (SOr va vb)) va). intros f. cbn. now destruct (f 0%nat), (f 1%nat).
  - apply (H (SOr va SEmpty) va). intros f. cbn. now destruct (f 0%nat).
  - apply (H (SAnd va SAll) va). intros f. cbn. now destruct (f 0%nat).
  - apply (H (SOr va (SNot va)) SAll). intros f. cbn. now destruct (f 0%nat).
  - apply (H (SAnd va (SNot va)) SEmpty). intros f. cbn. now destruct (f 0%nat).
  - apply (H (SNot (SNot va)) va). intros f. cbn. now destruct (f 0%nat).
  - apply (H (SNot (SOr va vb)) (SAnd (SNot va) (SNot vb))). intros f. cbn. now destruct (f 0%nat), (f 1%nat).
  - apply (H (SNot (SAnd va vb)) (SOr (SNot va) (SNot vb))). intros f. cbn. now destruct (f 0%nat), (f 1%nat).
  - apply (H (SSub va vb) (SAnd va (SNot vb))). intros f. cbn. now destruct (f 0%nat), (f 1%nat).
  - apply (H (SXor va vb) (SOr (SSub va vb) (SSub vb va))). intros f. cbn. now destruct (f 0%nat), (f 1%nat).
Qed.

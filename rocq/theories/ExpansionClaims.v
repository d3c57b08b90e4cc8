(** * Claims about the typing and the values of the macros' blocks, C78 *)
From Coq Require Import Eqdep_dec Arith.
From Verif Require Import Base Repr Syntax Spec Derive EnumSet Macros ApiSpec MacroRules MacroRulesSpec Expansion ExpansionSpec.
From Verif Require RulesClaims MiscClaims SetClaims.

Section Types.
Context (imported : bool) (tag : nat -> nat).
Notation ty := (typed imported tag).
Ltac inv := repeat match goal with
  | H : typed _ _ _ (XOnly _) _ |- _ => inversion H; clear H; subst
  | H : typed _ _ _ (XHelper _) _ |- _ => inversion H; clear H; subst
  | H : typed _ _ _ (XLet _ _ _) _ |- _ => inversion H; clear H; subst
  | H : typed _ _ _ (XOp _ _ _ _) _ |- _ => inversion H; clear H; subst
  | H : typed _ _ _ (XComplement _ _) _ |- _ => inversion H; clear H; subst
  | H : typed _ _ _ (XLocal _) _ |- _ => inversion H; clear H; subst
  end; cbn [bind_local] in *.

Lemma steps_typed m e : forall l G t, G Helper = Some (THelper e) -> G Value = Some (TSet e) ->
  (ty G (steps_block m l) t <-> t = TSet e /\ forall q, In q l -> tag q = e).
Proof.
  induction l as [|q l IH]; intros G t HH HV; cbn [steps_block].
  - split.
    + intros H. inversion H; subst. rewrite HV in *. split; [congruence|intros q []].
    + intros [-> _]. now constructor.
  - assert (S : forall t', ty (bind_local New (TSet (tag q)) G) (step_block m) t' <-> t' = TSet e /\ tag q = e).
    { intros t'. assert (A1 : forall t, ty (bind_local New (TSet (tag q)) G) (XLocal Helper) t <-> t = THelper e).
      { intros t0. split; [intros H; inversion H; subst; cbn in *; congruence|intros ->; now constructor]. }
      assert (A2 : forall t, ty (bind_local New (TSet (tag q)) G) (XLocal Value) t <-> t = TSet e).
      { intros t0. split; [intros H; inversion H; subst; cbn in *; congruence|intros ->; now constructor]. }
      assert (A3 : forall t, ty (bind_local New (TSet (tag q)) G) (XLocal New) t <-> t = TSet (tag q)).
      { intros t0. split; [intros H; inversion H; subst; cbn in *; congruence|intros ->; now constructor]. }
      assert (O : forall f, ty (bind_local New (TSet (tag q)) G) (XOp f (XLocal Helper) (XLocal Value) (XLocal New)) t' <-> t' = TSet e /\ tag q = e).
      { intros f. split.
        - intros H. inv. split; congruence.
        - intros [-> E]. apply Ty_op; [now apply A1|now apply A2|apply A3; congruence]. }
      destruct m; cbn [step_block]; try apply O.
      split.
      - intros H. inv. split; congruence.
      - intros [-> E]. apply Ty_op; [now apply A1|now apply A2|]. apply Ty_complement; [now apply A1|apply A3; congruence]. }
    split.
    + intros H. inv. match goal with X : typed _ _ _ (step_block _) _ |- _ => apply S in X; destruct X as [-> E] end.
      match goal with X : typed _ _ _ (steps_block _ _) _ |- _ => apply IH in X; [|exact HH|reflexivity]; destruct X as [-> HL] end.
      split; [reflexivity|]. intros x [<-|Hx]; auto.
    + intros [-> HL]. apply Ty_let with (t := TSet e).
      * apply Ty_let with (t := TSet (tag q)); [constructor|]. apply S. split; [reflexivity|apply HL; now left].
      * apply IH; [exact HH|reflexivity|]. split; [reflexivity|]. intros x Hx. apply HL. now right.
Qed.

Lemma fold_typed m p l t : ty (fun _ => None) (block (CFold m p l)) t <-> t = TSet (tag p) /\ forall q, In q l -> tag q = tag p.
Proof.
  cbn [block]. split.
  - intros H. inv. match goal with X : typed _ _ _ (steps_block _ _) _ |- _ => now apply (steps_typed m (tag p)) in X end.
  - intros H. apply Ty_let with (t := THelper (tag p)); [constructor|]. apply Ty_let with (t := TSet (tag p)); [constructor|].
    now apply (steps_typed m (tag p)).
Qed.
Lemma only_typed p t : ty (fun _ => None) (block (COnly p)) t <-> t = TSet (tag p).
Proof.
  cbn [block]. split.
  - intros H. inv. congruence.
  - intros ->. apply Ty_let with (t := TSet (tag p)); now constructor.
Qed.
Lemma complement_typed p t : ty (fun _ => None) (block (CComplement p)) t <-> t = TSet (tag p).
Proof.
  cbn [block]. split.
  - intros H. inv. congruence.
  - intros ->. apply Ty_let with (t := THelper (tag p)); [constructor|]. apply Ty_let with (t := TSet (tag p)); [constructor|].
    apply Ty_complement; now constructor.
Qed.
End Types.

Lemma literal_typed imported tag toks t :
  accepted imported tag MEnumSet toks t <->
  exists ps k e, toks = paths_by TBar ps ++ repeat TBar k /\ t = TSet e /\
    (forall p, In p ps -> tag p = e) /\ (ps = [] -> imported = true).
Proof.
  unfold accepted. split.
  - intros (c & E & H). apply RulesClaims.expand_enum_set in E as [(k & -> & ->)|[(p & k & -> & ->)|(p & q & ps & k & -> & ->)]].
    + inversion H; subst. exists [], k, e. split; [reflexivity|]. split; [reflexivity|]. split; [intros p []|auto].
    + apply only_typed in H. exists [p], k, (tag p). split; [reflexivity|]. split; [exact H|]. split; [|discriminate]. intros x [<-|[]]. reflexivity.
    + apply fold_typed in H. destruct H as [-> H]. exists (p :: q :: ps), k, (tag p).
      split; [now rewrite RulesClaims.paths_by_tail|]. split; [reflexivity|]. split; [|discriminate]. intros x [<-|Hx]; auto.
  - intros (ps & k & e & -> & -> & HP & HI). destruct ps as [|p [|q ps]].
    + exists CEmpty. split; [apply RulesClaims.expand_enum_set; left; exists k; split; reflexivity|]. apply Ty_empty. auto.
    + exists (COnly p). split; [apply RulesClaims.expand_enum_set; right; left; exists p, k; split; reflexivity|]. apply only_typed. f_equal. symmetry. apply HP. now left.
    + exists (CFold MUnion p (q :: ps)). rewrite RulesClaims.paths_by_tail.
      split; [apply RulesClaims.expand_enum_set; right; right; now exists p, q, ps, k|]. apply fold_typed.
      pose proof (HP p (or_introl eq_refl)) as Ep. subst e. split; [reflexivity|]. intros x Hx. apply HP. now right.
Qed.

Lemma fold_accepted imported tag m g toks t : fold_op m = Some g ->
  (accepted imported tag m toks t <->
   exists p ps k, toks = paths_by TComma (p :: ps) ++ repeat TComma k /\ (k <= 1 \/ ps = [] /\ k = 2)%nat /\
     t = TSet (tag p) /\ forall q, In q ps -> tag q = tag p).
Proof.
  intros Hg. assert (Hm : RulesClaims.folding m) by (split; intros ->; discriminate Hg).
  unfold accepted. split.
  - intros (c & E & H). apply (RulesClaims.expand_fold m toks c Hm) in E as [(p & k & Hk & -> & ->)|[(p & -> & ->)|(p & q & ps & k & Hk & -> & ->)]].
    + apply only_typed in H. exists p, [], k. split; [reflexivity|]. split; [auto|]. split; [exact H|intros q []].
    + apply fold_typed in H. exists p, [], 2%nat. split; [reflexivity|]. split; [auto|exact H].
    + apply fold_typed in H. exists p, (q :: ps), k. split; [now rewrite RulesClaims.paths_by_tail|]. split; [auto|exact H].
  - intros (p & ps & k & -> & Hk & -> & HP). destruct ps as [|q ps].
    + destruct Hk as [Hk|[_ ->]].
      * exists (COnly p). split; [apply (RulesClaims.expand_fold m _ _ Hm); left; now exists p, k|]. now apply only_typed.
      * exists (CFold m p []). split; [apply (RulesClaims.expand_fold m _ _ Hm); right; left; now exists p|]. now apply fold_typed.
    + destruct Hk as [Hk|[Hk _]]; [|discriminate]. exists (CFold m p (q :: ps)). rewrite RulesClaims.paths_by_tail.
      split; [apply (RulesClaims.expand_fold m _ _ Hm); right; right; now exists p, q, ps, k|]. now apply fold_typed.
Qed.

Lemma complement_accepted imported tag toks t :
  accepted imported tag MComplement toks t <->
  exists p k, toks = TPath p :: repeat TComma k /\ (k <= 1)%nat /\ t = TSet (tag p).
Proof.
  unfold accepted. split.
  - intros (c & E & H). apply RulesClaims.expand_complement in E as (p & k & Hk & -> & ->). apply complement_typed in H. now exists p, k.
  - intros (p & k & -> & Hk & ->). exists (CComplement p). split; [apply RulesClaims.expand_complement; now exists p, k|]. now apply complement_typed.
Qed.

(** ** Values *)
Section Values.
Context (T : nat -> EnumTy) (env : nat -> {e : nat & operand (T e)}).

Lemma as_set_same e (s : eset (T e)) : as_set T e (VSet T e s) = Some s.
Proof.
  unfold as_set. destruct (Nat.eq_dec e e) as [E|N]; [|contradiction]. now rewrite (UIP_dec Nat.eq_dec E eq_refl).
Qed.
Section One.
Context (e want : nat) (env0 : nat -> operand (T e)).
Notation agree p := (env p = existT (fun e => operand (T e)) e (env0 p)).
Definition set_only (r : M (eset (T e))) : M (cval T) := s <- r ;; Ret (VSet T e s).

Definition folded (m : macro_name) : eset (T e) -> eset (T e) -> M (eset (T e)) :=
  match m with
  | MIntersection => et_const_intersection (T e)
  | MDifference => fun value new => c <- et_const_complement (T e) new ;; et_const_intersection (T e) value c
  | MSymmetricDifference => et_const_symmetric_difference (T e)
  | _ => et_const_union (T e)
  end.
Lemma eval_only rho p : agree p -> eval T env want rho (XOnly p) = set_only (mc_const_only (T e) (env0 p)).
Proof. intros H. cbn [eval]. now rewrite H. Qed.
Lemma eval_step m rho s s' : rho Helper = Some (VHelper T e) -> rho Value = Some (VSet T e s) -> rho New = Some (VSet T e s') ->
  eval T env want rho (step_block m) = set_only (folded m s s').
Proof.
  intros H1 H2 H3. destruct m; cbn [step_block eval folded helper_fun]; rewrite H1, H2, H3; cbn [bind]; rewrite !as_set_same; try reflexivity.
  unfold set_only. destruct (et_const_complement (T e) s') as [c|p| |]; cbn [bind]; try reflexivity. now rewrite as_set_same.
Qed.
Lemma eval_steps m : forall l rho s, rho Helper = Some (VHelper T e) -> rho Value = Some (VSet T e s) ->
  (forall q, In q l -> agree q) ->
  eval T env want rho (steps_block m l) =
  set_only (for_each (map env0 l) s (fun o value => new <- mc_const_only (T e) o ;; folded m value new)).
Proof.
  induction l as [|q l IH]; intros rho s H1 H2 HA; cbn [steps_block map for_each].
  - cbn [eval]. now rewrite H2.
  - change (eval T env want rho (XLet Value (XLet New (XOnly q) (step_block m)) (steps_block m l)))
      with (v <- (v <- eval T env want rho (XOnly q) ;; eval T env want (bind_local New v rho) (step_block m)) ;;
            eval T env want (bind_local Value v rho) (steps_block m l)).
    rewrite eval_only by (apply HA; now left). unfold set_only at 1.
    destruct (mc_const_only (T e) (env0 q)) as [n|p| |]; cbn [bind]; try reflexivity.
    rewrite (eval_step m _ s n) by (cbn; auto). unfold set_only at 1.
    destruct (folded m s n) as [r|p| |]; cbn [bind]; try reflexivity.
    apply IH; [exact H1|reflexivity|]. intros x Hx. apply HA. now right.
Qed.
Lemma eval_fold m p l : (forall q, In q (p :: l) -> agree q) ->
  eval T env want (fun _ => None) (block (CFold m p l)) = set_only (run_code (T e) env0 (CFold m p l)).
Proof.
  intros HA. assert (R : run_code (T e) env0 (CFold m p l) = mc_fold (T e) (folded m) (env0 p) (map env0 l)) by (destruct m; reflexivity).
  rewrite R. unfold mc_fold. cbn [block].
  change (eval T env want (fun _ => None) (XLet Helper (XHelper p) (XLet Value (XOnly p) (steps_block m l))))
    with (v <- eval T env want (fun _ => None) (XHelper p) ;;
          v' <- eval T env want (bind_local Helper v (fun _ => None)) (XOnly p) ;;
          eval T env want (bind_local Value v' (bind_local Helper v (fun _ => None))) (steps_block m l)).
  pose proof (HA p (or_introl eq_refl)) as Hp.
  replace (eval T env want (fun _ => None) (XHelper p)) with (Ret (VHelper T e)) by (cbn [eval]; now rewrite Hp).
  cbn [bind]. rewrite eval_only by exact Hp. unfold set_only at 1.
  destruct (mc_const_only (T e) (env0 p)) as [s|x| |]; cbn [bind]; try reflexivity.
  apply eval_steps; [reflexivity|reflexivity|]. intros q Hq. apply HA. now right.
Qed.
Lemma eval_one p : agree p -> eval T env want (fun _ => None) (block (COnly p)) = set_only (run_code (T e) env0 (COnly p)).
Proof.
  intros Hp. cbn [block run_code].
  change (eval T env want (fun _ => None) (XLet Value (XOnly p) (XLocal Value)))
    with (v <- eval T env want (fun _ => None) (XOnly p) ;; Ret v).
  rewrite eval_only by exact Hp. unfold set_only. now destruct (mc_const_only (T e) (env0 p)).
Qed.
Lemma eval_complement p : agree p ->
  eval T env want (fun _ => None) (block (CComplement p)) = set_only (run_code (T e) env0 (CComplement p)).
Proof.
  intros Hp. cbn [block run_code eval]. rewrite Hp. cbn [bind bind_local]. unfold mc_complement, set_only.
  destruct (mc_const_only (T e) (env0 p)) as [s|x| |]; cbn [bind bind_local]; try reflexivity. now rewrite as_set_same.
Qed.
End One.

(** The operands seen as operands of the enum [e] *)
Definition seen_as (e p : nat) : operand (T e) :=
  match env p with
  | existT _ k o => match Nat.eq_dec k e with
                    | left E => match E in _ = e return operand (T e) with eq_refl => o end
                    | right _ => OSet (es_empty (T e))
                    end
  end.
Lemma seen_agrees e p : projT1 (env p) = e -> env p = existT (fun e => operand (T e)) e (seen_as e p).
Proof.
  unfold seen_as. destruct (env p) as [k o]. cbn [projT1]. intros ->.
  destruct (Nat.eq_dec e e) as [E|N]; [|contradiction]. now rewrite (UIP_dec Nat.eq_dec E eq_refl).
Qed.

Lemma eval_block imported e c : typed imported (fun p => projT1 (env p)) (fun _ => None) (block c) (TSet e) ->
  eval T env e (fun _ => None) (block c) = (s <- run_code (T e) (seen_as e) c ;; Ret (VSet T e s)).
Proof.
  intros H. destruct c as [|p|m p l|p].
  - reflexivity.
  - apply only_typed in H. inversion H. apply (eval_one _ _ _). now apply seen_agrees.
  - apply fold_typed in H as [H1 H2]. inversion H1 as [E]. rewrite <- E in H2. rewrite <- E. apply (eval_fold _ _ _). intros x Hx. apply seen_agrees.
    destruct Hx as [<-|Hx]; [congruence|]. now apply H2.
  - apply complement_typed in H. inversion H. apply (eval_complement _ _ _). now apply seen_agrees.
Qed.

Lemma path_in t ps k p : t <> TPath p -> In (TPath p) (paths_by t ps ++ repeat t k) -> In p ps.
Proof.
  intros N Hin. apply in_app_or in Hin as [Hin|Hin]; [|apply repeat_spec in Hin; congruence].
  revert Hin. induction ps as [|q [|q' ps] IH]; [intros []| |].
  - intros [X|[]]. left. congruence.
  - change (paths_by t (q :: q' :: ps)) with (TPath q :: t :: paths_by t (q' :: ps)).
    intros [X|[X|X]]; [left; congruence|congruence|right; exact (IH X)].
Qed.
Lemma paths_tagged imported tag m toks e : accepted imported tag m toks (TSet e) -> forall p, In (TPath p) toks -> tag p = e.
Proof.
  intros HA p Hp. assert (F : forall g, fold_op m = Some g -> tag p = e).
  { intros g Hg. apply (fold_accepted imported tag m g toks _ Hg) in HA as (q & ps & k & -> & _ & E & HP). inversion E; subst e.
    apply path_in in Hp; [|discriminate]. destruct Hp as [<-|Hp]; auto. }
  destruct m; try (eapply F; reflexivity).
  - apply literal_typed in HA as (ps & k & e' & -> & E & HP & _). inversion E; subst e'. apply path_in in Hp; [|discriminate]. auto.
  - apply complement_accepted in HA as (q & k & -> & _ & E). inversion E; subst e.
    destruct Hp as [Hp|Hp]; [congruence|]. apply repeat_spec in Hp. discriminate.
Qed.

End Values.

(** Only sets come out. *)
Lemma macro_type imported tag m toks t : accepted imported tag m toks t -> exists e, t = TSet e.
Proof.
  intros HA. assert (F : forall g, fold_op m = Some g -> exists e, t = TSet e).
  { intros g Hg. apply (fold_accepted imported tag m g toks _ Hg) in HA as (q & ps & k & _ & _ & E & _). eauto. }
  destruct m; try (eapply F; reflexivity).
  - apply literal_typed in HA as (ps & k & e' & _ & E & _). eauto.
  - apply complement_accepted in HA as (q & k & _ & _ & E). eauto.
Qed.

Lemma macro_value (T : nat -> EnumTy) (env : nat -> {e : nat & operand (T e)}) imported m toks e :
  accepted imported (fun p => projT1 (env p)) m toks (TSet e) ->
  exists c r env0, expand recursion_limit m toks = Some c /\
    (forall p, In (TPath p) toks -> env p = existT (fun e => operand (T e)) e (env0 p)) /\
    invoke (T e) env0 m toks = Some r /\
    eval T env e (fun _ => None) (block c) = (s <- r ;; Ret (VSet T e s)).
Proof.
  intros HA. pose proof HA as (c & E & H). exists c, (run_code (T e) (seen_as T env e) c), (seen_as T env e).
  split; [exact E|]. split; [intros p Hp; apply seen_agrees; exact (paths_tagged _ _ _ _ _ HA p Hp)|].
  split; [unfold invoke; now rewrite E|]. exact (eval_block T env imported e c H).
Qed.

Lemma paths_of_by t ps k : (forall p, t <> TPath p) -> paths_of (paths_by t ps ++ repeat t k) = ps.
Proof.
  intros N. assert (R : forall k, paths_of (repeat t k) = []).
  { intros n. induction n as [|n IH]; [reflexivity|]. cbn. destruct t; try exact IH. now destruct (N p). }
  unfold paths_of. rewrite flat_map_app. fold (paths_of (repeat t k)). rewrite R, app_nil_r.
  induction ps as [|q [|q' ps] IH]; [reflexivity|reflexivity|].
  change (paths_by t (q :: q' :: ps)) with (TPath q :: t :: paths_by t (q' :: ps)). cbn [flat_map app].
  rewrite IH. destruct t; try reflexivity. now destruct (N p).
Qed.
Lemma fold_meaning m g v : fold_op m = Some g -> forall (l : list vset) (A : vset),
  fold_left (fun b (O : vset) => g b (O v)) l (A v) = macro_set m (A :: l) v.
Proof.
  intros Hg l A. destruct m; try discriminate Hg; injection Hg as <-; cbn [macro_set existsb forallb].
  - generalize (A v) as b. induction l as [|O l IH]; intros b; cbn [fold_left existsb]; [now rewrite orb_false_r|]. rewrite IH. now rewrite orb_assoc.
  - generalize (A v) as b. induction l as [|O l IH]; intros b; cbn [fold_left forallb]; [now rewrite andb_true_r|]. rewrite IH. now rewrite andb_assoc.
  - generalize (A v) as b. induction l as [|O l IH]; intros b; cbn [fold_left existsb negb]; [now rewrite andb_true_r|]. rewrite IH. rewrite negb_orb. now rewrite andb_assoc.
  - assert (X : forall b, fold_left (fun b (O : vset) => xorb b (O v)) l b = xorb b (Nat.odd (length (filter (fun A : vset => A v) l)))).
    { induction l as [|O l IH]; intros b; cbn [fold_left filter]; [now rewrite xorb_false_r|]. rewrite IH.
      destruct (O v); cbn [length]; [|now rewrite xorb_false_r]. rewrite Nat.odd_succ, <- Nat.negb_odd. now destruct b, (Nat.odd _). }
    rewrite X. cbn [filter]. destruct (A v); cbn [length]; [|now destruct (Nat.odd _)]. rewrite Nat.odd_succ, <- Nat.negb_odd. now destruct (Nat.odd _).
Qed.

Lemma macro_result (T : nat -> EnumTy) (env : nat -> {e : nat & operand (T e)}) imported pw inp m toks e envs :
  accepted imported (fun p => projT1 (env p)) m toks (TSet e) -> Supported pw inp (T e) ->
  (forall p o, In (TPath p) toks -> env p = existT (fun e => operand (T e)) e o -> OpDenotes inp (T e) (Reachable pw inp (T e)) o (envs p)) ->
  exists c s, expand recursion_limit m toks = Some c /\
    eval T env e (fun _ => None) (block c) = Ret (VSet T e s) /\
    Denotes inp (T e) s (macro_set m (map envs (paths_of toks))).
Proof.
  intros HA HS HO. destruct (macro_value T env imported m toks e HA) as (c & r & env0 & E & HE & HI & HV).
  enough (K : Returns inp (T e) r (macro_set m (map envs (paths_of toks)))).
  { destruct K as (s & -> & D). exists c, s. split; [exact E|]. split; [exact HV|exact D]. }
  assert (HO' : forall p, In (TPath p) toks -> OpDenotes inp (T e) (Reachable pw inp (T e)) (env0 p) (envs p)).
  { intros p Hp. exact (HO p (env0 p) Hp (HE p Hp)). }
  clear HO HE HV HA E.
  assert (F2 : forall ps, (forall q, In q ps -> In (TPath q) toks) -> Forall2 (OpDenotes inp (T e) (Reachable pw inp (T e))) (map env0 ps) (map envs ps)).
  { induction ps as [|q ps IH]; intros H; constructor; [apply HO', H; now left|]. apply IH. intros x Hx. apply H. now right. }
  assert (IN : forall p, In p (paths_of toks) -> In (TPath p) toks).
  { intros p Hp. apply in_flat_map in Hp as (t & Ht & Hp). destruct t; try destruct Hp. subst. exact Ht. destruct H. }
  assert (FOLD : forall g, fold_op m = Some g -> Returns inp (T e) r (macro_set m (map envs (paths_of toks)))).
  { intros g Hg.
    assert (Hf : exists f, fold_macro (T e) m = Some f) by (destruct m; try discriminate Hg; eexists; reflexivity).
    destruct Hf as (f & Hf). apply (RulesClaims.fold_syntax (T e) env0 m f toks r Hf) in HI as (p & ps & k & -> & _ & ->).
    rewrite paths_of_by in * by discriminate.
    destruct (MiscClaims.macro_members pw inp (T e) (env0 p) (envs p) (map env0 ps) (map envs ps) HS) as (_ & H1 & H2 & H3 & H4 & _).
    - apply HO', IN. now left.
    - apply F2. intros q Hq. apply IN. now right.
    - assert (HR : Returns inp (T e) (f (env0 p) (map env0 ps)) (fun v => fold_left (fun b (O : vset) => g b (O v)) (map envs ps) (envs p v))).
      { destruct m; try discriminate Hg; injection Hg as <-; injection Hf as <-; assumption. }
      destruct HR as (s & Es & D). exists s. split; [exact Es|]. intros v Hv. rewrite (D v Hv). cbn [map].
      now rewrite (fold_meaning m g v Hg). }
  destruct m; try (eapply FOLD; reflexivity).
  - apply RulesClaims.enum_set_syntax in HI as (ps & k & -> & ->). rewrite paths_of_by in * by discriminate.
    destruct (RulesClaims.enum_set_literal pw inp (T e) env0 envs ps k HS) as (x & Ex & s & -> & D).
    { intros p Hp. apply HO', IN, Hp. }
    assert (Ex' : invoke (T e) env0 MEnumSet (paths_by TBar ps ++ repeat TBar k) = Some (mc_enum_set (T e) (map env0 ps))) by (apply RulesClaims.enum_set_syntax; eauto).
    rewrite Ex in Ex'. injection Ex' as Ex'. exists s. split; [now rewrite <- Ex'|]. intros v Hv. rewrite (D v Hv). cbn [macro_set]. f_equal.
    clear. induction ps as [|p ps IH]; [reflexivity|]. cbn [map existsb]. now rewrite IH.
  - apply RulesClaims.complement_syntax in HI as (p & k & -> & _ & ->).
    assert (P : paths_of (TPath p :: repeat TComma k) = [p]) by (exact (paths_of_by TComma [p] k ltac:(discriminate))). rewrite P in *.
    destruct (MiscClaims.macro_members pw inp (T e) (env0 p) (envs p) [] [] HS) as (_ & _ & _ & _ & _ & H); [apply HO', IN; now left|constructor|].
    exact H.
Qed.

Lemma strongly_typed imported tag m toks t : accepted imported tag m toks t ->
  exists e, t = TSet e /\ forall p, In (TPath p) toks -> tag p = e.
Proof.
  intros H. destruct (macro_type _ _ _ _ _ H) as (e & ->). exists e. split; [reflexivity|]. exact (paths_tagged _ _ _ _ _ H).
Qed.

(** * Claims about the syntax the macros accept *)
From Coq Require Import Lia Compare_dec.
From Verif Require Import Base Repr Syntax Spec Derive EnumSet Macros ApiSpec MacroRules MacroRulesSpec MacroRulesFacts MiscClaims.

Lemma paths_by_tail t p ps : paths_by t (p :: ps) = TPath p :: tail t ps.
Proof.
  revert p. induction ps as [|q ps IH]; intros p; [reflexivity|].
  change (paths_by t (p :: q :: ps)) with (TPath p :: t :: paths_by t (q :: ps)).
  now rewrite IH.
Qed.

Lemma expand_enum_set toks c : expand recursion_limit MEnumSet toks = Some c <->
  (exists k, toks = repeat TBar k /\ c = CEmpty) \/
  (exists p k, toks = TPath p :: repeat TBar k /\ c = COnly p) \/
  (exists p q ps k, toks = TPath p :: tail TBar (q :: ps) ++ repeat TBar k /\ c = CFold MUnion p (q :: ps)).
Proof.
  assert (E1 : forall l m' toks', expand (S l) m' toks' =
     match try_arms (arms_of m') toks' with None => None | Some (Code c) => Some c | Some (Invoke m t) => expand l m t end)
    by reflexivity.
  assert (Ec : forall ps, tail TComma ps ++ [TComma] = TComma :: each_comma ps).
  { induction ps as [|q ps IH]; [reflexivity|].
    unfold each_comma in *. cbn [tail flat_map app] in *. unfold tail in IH. now rewrite IH. }
  assert (HU : forall l p q ps, expand (S l) MUnion (TPath p :: TComma :: each_comma (q :: ps)) = Some (CFold MUnion p (q :: ps))).
  { intros l p q ps. rewrite E1.
    assert (Et : TPath p :: TComma :: each_comma (q :: ps) = TPath p :: tail TComma (q :: ps) ++ repeat TComma 1).
    { f_equal. symmetry. apply (Ec (q :: ps)). }
    rewrite Et. cbn [arms_of fold_arms try_arms].
    assert (EF : parse_tt arm_path_comma (TPath p :: tail TComma (q :: ps) ++ repeat TComma 1) [(0%nat, [])] = Failure) by reflexivity.
    rewrite EF, (paths_comma_accept p q ps 1) by lia. reflexivity. }
  change recursion_limit with (S (S 126)). rewrite E1. cbn [arms_of enum_set_arms try_arms].
  destruct (bars_match toks) as [F1|(k & -> & F1)]; rewrite F1.
  - destruct (path_bars_match toks) as [F2|(p & k & -> & F2)]; rewrite F2.
    + destruct (paths_bars_match toks F2) as [F3|(p & q & ps & k & -> & F3)]; rewrite F3.
      * split; [discriminate|]. intros [(k & -> & _)|[(p & k & -> & _)|(p & q & ps & k & -> & _)]].
        -- now rewrite bars_accept in F1.
        -- now rewrite path_bars_accept in F2.
        -- now rewrite paths_bars_accept in F3.
      * unfold value_of, rest_of. cbn [hd tl]. rewrite HU. split.
        -- intros [= <-]. right. right. eauto 8.
        -- intros [(k' & H & _)|[(p' & k' & H & _)|(p' & q' & ps' & k' & H & ->)]].
           ++ rewrite H, bars_accept in F1. discriminate.
           ++ rewrite H, path_bars_accept in F2. discriminate.
           ++ rewrite H, paths_bars_accept in F3. now injection F3 as -> -> ->.
    + unfold value_of. cbn [hd]. split.
      * intros [= <-]. right. left. eauto.
      * intros [(k' & H & _)|[(p' & k' & H & ->)|(p' & q' & ps' & k' & H & ->)]].
        -- rewrite H, bars_accept in F1. discriminate.
        -- now injection H as ->.
        -- destruct k as [|k]; [discriminate H|]. destruct k as [|k]; discriminate H.
  - split.
    + intros [= <-]. left. eauto.
    + intros [(k' & H & ->)|[(p' & k' & H & ->)|(p' & q' & ps' & k' & H & ->)]]; [reflexivity| |]; destruct k; discriminate H.
Qed.

Definition folding (m : macro_name) : Prop := m <> MEnumSet /\ m <> MComplement.
Lemma expand_fold m toks c : folding m -> (expand recursion_limit m toks = Some c <->
  (exists p k, (k <= 1)%nat /\ toks = TPath p :: repeat TComma k /\ c = COnly p) \/
  (exists p, toks = TPath p :: repeat TComma 2 /\ c = CFold m p []) \/
  (exists p q ps k, (k <= 1)%nat /\ toks = TPath p :: tail TComma (q :: ps) ++ repeat TComma k /\ c = CFold m p (q :: ps))).
Proof.
  intros [Hm1 Hm2].
  assert (E1 : forall l m' toks', expand (S l) m' toks' =
     match try_arms (arms_of m') toks' with None => None | Some (Code c) => Some c | Some (Invoke m t) => expand l m t end)
    by reflexivity.
  assert (HE : forall l p, expand (S l) MEnumSet [TPath p] = Some (COnly p)) by reflexivity.
  change recursion_limit with (S (S 126)). rewrite E1.
  assert (EA : arms_of m = fold_arms m) by (destruct m; first [reflexivity|congruence]). rewrite EA.
  unfold fold_arms. cbn [try_arms].
  destruct (path_comma_match toks) as [F1|(p & k & Hk & -> & F1)]; rewrite F1.
  - destruct (paths_comma_match toks F1) as [F2|[(p & q & ps & k & Hk & -> & F2)|(p & -> & F2)]]; rewrite F2.
    + split; [discriminate|]. intros [(p & k & Hk & -> & _)|[(p & -> & _)|(p & q & ps & k & Hk & -> & _)]].
      * now rewrite path_comma_accept in F1.
      * discriminate F2.
      * now rewrite paths_comma_accept in F2.
    + unfold value_of, rest_of. cbn [hd tl]. split.
      * intros [= <-]. right. right. exists p, q, ps, k. auto.
      * intros [(p' & k' & Hk' & H & _)|[(p' & H & _)|(p' & q' & ps' & k' & Hk' & H & ->)]].
        -- rewrite H, path_comma_accept in F1 by assumption. discriminate.
        -- rewrite H in F2. discriminate F2.
        -- rewrite H, paths_comma_accept in F2 by assumption. now injection F2 as -> -> ->.
    + unfold value_of, rest_of. cbn [hd tl]. split.
      * intros [= <-]. right. left. exists p. auto.
      * intros [(p' & k' & Hk' & H & _)|[(p' & H & ->)|(p' & q' & ps' & k' & Hk' & H & ->)]].
        -- rewrite H, path_comma_accept in F1 by assumption. discriminate.
        -- now injection H as ->.
        -- discriminate H.
  - unfold value_of. cbn [hd]. rewrite HE. split.
    + intros [= <-]. left. exists p, k. auto.
    + intros [(p' & k' & Hk' & H & ->)|[(p' & H & ->)|(p' & q' & ps' & k' & Hk' & H & ->)]].
      * now injection H as ->.
      * destruct k as [|[|k]]; [discriminate H|discriminate H|lia].
      * destruct k as [|[|k]]; [discriminate H|discriminate H|lia].
Qed.
Lemma expand_complement toks c : expand recursion_limit MComplement toks = Some c <->
  exists p k, (k <= 1)%nat /\ toks = TPath p :: repeat TComma k /\ c = CComplement p.
Proof.
  change (expand recursion_limit MComplement toks) with
    (match try_arms complement_arms toks with None => None | Some (Code c) => Some c | Some (Invoke m t) => expand 127 m t end).
  cbn [complement_arms try_arms].
  destruct (path_comma_match toks) as [F1|(p & k & Hk & -> & F1)]; rewrite F1.
  - split; [discriminate|]. intros (p & k & Hk & -> & _). now rewrite path_comma_accept in F1.
  - unfold value_of. cbn [hd]. split.
    + intros [= <-]. exists p, k. auto.
    + intros (p' & k' & Hk' & H & ->). now injection H as ->.
Qed.

(** ** C46 *)
Lemma enum_set_syntax T env toks r :
  invoke T env MEnumSet toks = Some r <->
  exists ps k, toks = paths_by TBar ps ++ repeat TBar k /\ r = mc_enum_set T (map env ps).
Proof.
  unfold invoke. split.
  - destruct (expand recursion_limit MEnumSet toks) as [c|] eqn:E; [|discriminate]. intros [= <-].
    apply expand_enum_set in E as [(k & -> & ->)|[(p & k & -> & ->)|(p & q & ps & k & -> & ->)]].
    + exists [], k. split; reflexivity.
    + exists [p], k. split; reflexivity.
    + exists (p :: q :: ps), k. split; [|reflexivity]. now rewrite paths_by_tail.
  - intros (ps & k & -> & ->).
    enough (E : exists c, expand recursion_limit MEnumSet (paths_by TBar ps ++ repeat TBar k) = Some c /\
                          run_code T env c = mc_enum_set T (map env ps)).
    { destruct E as (c & -> & <-). reflexivity. }
    destruct ps as [|p [|q ps]].
    + exists CEmpty. split; [|reflexivity]. apply expand_enum_set. left. exists k. auto.
    + exists (COnly p). split; [|reflexivity]. apply expand_enum_set. right. left. exists p, k. auto.
    + exists (CFold MUnion p (q :: ps)). split; [|reflexivity]. apply expand_enum_set. right. right.
      exists p, q, ps, k. rewrite paths_by_tail. auto.
Qed.

Lemma bind_ret_r {A} (m : M A) : bind m (fun v => Ret v) = m.
Proof. now destruct m. Qed.
Lemma fold_syntax T env m f toks r : fold_macro T m = Some f ->
  (invoke T env m toks = Some r <->
   exists p ps k, toks = paths_by TComma (p :: ps) ++ repeat TComma k /\
     (k <= 1 \/ ps = [] /\ k = 2)%nat /\ r = f (env p) (map env ps)).
Proof.
  intros Hf.
  assert (HF : folding m) by (split; intros ->; discriminate Hf).
  assert (R1 : forall p, run_code T env (COnly p) = f (env p) []).
  { intros p. destruct m; try discriminate Hf; injection Hf as <-; symmetry; apply bind_ret_r. }
  assert (R2 : forall p ps, run_code T env (CFold m p ps) = f (env p) (map env ps)).
  { intros p ps. destruct m; try discriminate Hf; injection Hf as <-; reflexivity. }
  unfold invoke. split.
  - destruct (expand recursion_limit m toks) as [c|] eqn:E; [|discriminate]. intros [= <-].
    apply (expand_fold m toks c HF) in E as [(p & k & Hk & -> & ->)|[(p & -> & ->)|(p & q & ps & k & Hk & -> & ->)]].
    + exists p, [], k. rewrite R1. auto.
    + exists p, [], 2%nat. rewrite R2. auto.
    + exists p, (q :: ps), k. rewrite R2, paths_by_tail. auto.
  - intros (p & ps & k & -> & Hk & ->).
    enough (E : exists c, expand recursion_limit m (paths_by TComma (p :: ps) ++ repeat TComma k) = Some c /\
                          run_code T env c = f (env p) (map env ps)).
    { destruct E as (c & -> & <-). reflexivity. }
    rewrite paths_by_tail. destruct ps as [|q ps].
    + destruct (le_lt_dec k 1) as [Hk1|Hk1].
      * exists (COnly p). split; [|apply R1]. apply (expand_fold _ _ _ HF). left. exists p, k. auto.
      * destruct Hk as [Hk|[_ ->]]; [lia|].
        exists (CFold m p []). split; [|apply R2]. apply (expand_fold _ _ _ HF). right. left. exists p. auto.
    + destruct Hk as [Hk|[Hk _]]; [|discriminate Hk].
      exists (CFold m p (q :: ps)). split; [|apply R2]. apply (expand_fold _ _ _ HF). right. right. exists p, q, ps, k. auto.
Qed.

Lemma complement_syntax T env toks r :
  invoke T env MComplement toks = Some r <->
  exists p k, toks = TPath p :: repeat TComma k /\ (k <= 1)%nat /\ r = mc_complement T (env p).
Proof.
  unfold invoke. split.
  - destruct (expand recursion_limit MComplement toks) as [c|] eqn:E; [|discriminate]. intros [= <-].
    apply expand_complement in E as (p & k & Hk & -> & ->). exists p, k. auto.
  - intros (p & k & -> & Hk & ->).
    assert (E : expand recursion_limit MComplement (TPath p :: repeat TComma k) = Some (CComplement p)).
    { apply expand_complement. exists p, k. auto. }
    now rewrite E.
Qed.

Lemma enum_set_literal pw inp T env envs ps k : Supported pw inp T ->
  (forall p, In p ps -> OpDenotes inp T (Reachable pw inp T) (env p) (envs p)) ->
  exists m, invoke T env MEnumSet (paths_by TBar ps ++ repeat TBar k) = Some m /\
            Returns inp T m (fun v => existsb (fun p => envs p v) ps).
Proof.
  intros HS He. exists (mc_enum_set T (map env ps)). split; [apply enum_set_syntax; eauto|].
  destruct ps as [|p ps].
  - exists (es_empty T). split; [reflexivity|]. now apply (SetClaims.empty_members pw inp T).
  - destruct (macro_members pw inp T (env p) (envs p) (map env ps) (map envs ps) HS) as (H & _).
    + apply He. now left.
    + assert (Hr : forall q, In q ps -> OpDenotes inp T (Reachable pw inp T) (env q) (envs q)) by (intros q Hq; apply He; now right).
      clear He. induction ps as [|q ps IH]; constructor; [apply Hr; now left|apply IH; intros; apply Hr; now right].
    + destruct H as (s & E & H). exists s. split; [exact E|]. intros v Hv. rewrite (H v Hv). cbn [existsb].
      clear. f_equal. generalize (envs p v) as b. induction ps as [|q ps IH]; intros b; cbn [map fold_left existsb].
      * now rewrite orb_false_r.
      * rewrite IH. now rewrite orb_assoc.
Qed.

Lemma fold_literal pw inp T env envs m g p ps k : Supported pw inp T -> fold_op m = Some g -> (k <= 1)%nat ->
  (forall q, In q (p :: ps) -> OpDenotes inp T (Reachable pw inp T) (env q) (envs q)) ->
  exists r, invoke T env m (paths_by TComma (p :: ps) ++ repeat TComma k) = Some r /\
            Returns inp T r (fun v => fold_left (fun b q => g b (envs q v)) ps (envs p v)).
Proof.
  intros HS Hg Hk He.
  assert (Hf : exists f, fold_macro T m = Some f) by (destruct m; try discriminate Hg; eexists; reflexivity).
  destruct Hf as (f & Hf). exists (f (env p) (map env ps)). split.
  { apply (fold_syntax T env m f _ _ Hf). exists p, ps, k. auto. }
  destruct (macro_members pw inp T (env p) (envs p) (map env ps) (map envs ps) HS) as (_ & H1 & H2 & H3 & H4 & _).
  - apply He. now left.
  - assert (Hr : forall q, In q ps -> OpDenotes inp T (Reachable pw inp T) (env q) (envs q)) by (intros q Hq; apply He; now right).
    clear - Hr. induction ps as [|q ps IH]; constructor; [apply Hr; now left|apply IH; intros; apply Hr; now right].
  - assert (HF : forall v b, fold_left (fun b (O : vset) => g b (O v)) (map envs ps) b = fold_left (fun b q => g b (envs q v)) ps b).
    { intros v. clear. induction ps as [|q ps IH]; intros b; [reflexivity|]. apply IH. }
    assert (HR : Returns inp T (f (env p) (map env ps)) (fun v => fold_left (fun b (O : vset) => g b (O v)) (map envs ps) (envs p v))).
    { destruct m; try discriminate Hg; injection Hg as <-; injection Hf as <-; assumption. }
    destruct HR as (s & E & H). exists s. split; [exact E|]. intros v Hv. rewrite (H v Hv). f_equal. apply HF.
Qed.

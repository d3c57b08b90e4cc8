(** * Facts about the macro matcher: which invocations each arm accepts *)
From Coq Require Import Lia.
From Verif Require Import Base Repr Syntax Derive EnumSet Macros MacroRules.

(** The state sets the matcher goes through, one equation per set. *)
Definition tail (t : token) (ps : list nat) : list token := flat_map (fun p => [t; TPath p]) ps.

Lemma bars_state c toks : parse_tt arm_bars toks [(2%nat, c)] = Failure \/
  exists k, toks = repeat TBar k /\ parse_tt arm_bars toks [(2%nat, c)] = Success c.
Proof.
  induction toks as [|[p| | |] toks IH]; try (left; reflexivity).
  - right. exists 0%nat. split; reflexivity.
  - destruct IH as [IH|(k & -> & IH)].
    + left. exact IH.
    + right. exists (S k). split; [reflexivity|exact IH].
Qed.
Lemma bars_match toks : parse_tt arm_bars toks [(0%nat, [])] = Failure \/
  exists k, toks = repeat TBar k /\ parse_tt arm_bars toks [(0%nat, [])] = Success [].
Proof.
  destruct toks as [|[p| | |] toks]; try (left; reflexivity).
  - right. exists 0%nat. split; reflexivity.
  - destruct (bars_state [] toks) as [IH|(k & -> & IH)].
    + left. exact IH.
    + right. exists (S k). split; [reflexivity|exact IH].
Qed.
Lemma bars_accept k : parse_tt arm_bars (repeat TBar k) [(0%nat, [])] = Success [].
Proof.
  assert (H : forall j, parse_tt arm_bars (repeat TBar j) [(2%nat, [])] = Success []).
  { induction j as [|j IH]; [reflexivity|exact IH]. }
  destruct k as [|k]; [reflexivity|exact (H k)].
Qed.

Lemma path_bars_state c toks : parse_tt arm_path_bars toks [(3%nat, c)] = Failure \/
  exists k, toks = repeat TBar k /\ parse_tt arm_path_bars toks [(3%nat, c)] = Success c.
Proof.
  induction toks as [|[p| | |] toks IH]; try (left; reflexivity).
  - right. exists 0%nat. split; reflexivity.
  - destruct IH as [IH|(k & -> & IH)].
    + left. exact IH.
    + right. exists (S k). split; [reflexivity|exact IH].
Qed.
Lemma path_bars_match toks : parse_tt arm_path_bars toks [(0%nat, [])] = Failure \/
  exists p k, toks = TPath p :: repeat TBar k /\ parse_tt arm_path_bars toks [(0%nat, [])] = Success [p].
Proof.
  destruct toks as [|[p| | |] toks]; try (left; reflexivity).
  destruct toks as [|[q| | |] toks]; try (left; reflexivity).
  - right. exists p, 0%nat. split; reflexivity.
  - destruct (path_bars_state [p] toks) as [IH|(k & -> & IH)].
    + left. exact IH.
    + right. exists p, (S k). split; [reflexivity|exact IH].
Qed.
Lemma path_bars_accept p k : parse_tt arm_path_bars (TPath p :: repeat TBar k) [(0%nat, [])] = Success [p].
Proof.
  assert (H : forall j, parse_tt arm_path_bars (repeat TBar j) [(3%nat, [p])] = Success [p]).
  { induction j as [|j IH]; [reflexivity|exact IH]. }
  destruct k as [|k]; [reflexivity|exact (H k)].
Qed.

Lemma paths_bars_end c toks : parse_tt arm_paths_bars toks [(8%nat, c)] = Failure \/
  exists k, toks = repeat TBar k /\ parse_tt arm_paths_bars toks [(8%nat, c)] = Success c.
Proof.
  induction toks as [|[p| | |] toks IH]; try (left; reflexivity).
  - right. exists 0%nat. split; reflexivity.
  - destruct IH as [IH|(k & -> & IH)].
    + left. exact IH.
    + right. exists (S k). split; [reflexivity|exact IH].
Qed.
Lemma paths_bars_sep c toks : parse_tt arm_paths_bars (TBar :: toks) [(4%nat, c)] =
  match toks with
  | TPath p :: rest => parse_tt arm_paths_bars rest [(4%nat, c ++ [p])]
  | _ => parse_tt arm_paths_bars toks [(8%nat, c)]
  end.
Proof. destruct toks as [|[p| | |] toks]; reflexivity. Qed.
Lemma paths_bars_state n : forall c toks, (length toks <= n)%nat ->
  parse_tt arm_paths_bars toks [(4%nat, c)] = Failure \/
  exists ps k, toks = tail TBar ps ++ repeat TBar k /\
               parse_tt arm_paths_bars toks [(4%nat, c)] = Success (c ++ ps).
Proof.
  induction n as [|n IH]; intros c toks Hn.
  - destruct toks as [|t toks]; [|cbn in Hn; lia].
    right. exists [], 0%nat. rewrite (app_nil_r c). split; reflexivity.
  - destruct toks as [|[p| | |] toks]; try (left; reflexivity).
    + right. exists [], 0%nat. rewrite (app_nil_r c). split; reflexivity.
    + rewrite paths_bars_sep.
      destruct toks as [|[p| | |] toks].
      2:{ destruct (IH (c ++ [p]) toks) as [H|(ps & k & -> & H)].
          - cbn [length] in Hn. lia.
          - left. exact H.
          - right. exists (p :: ps), k. split; [reflexivity|]. rewrite H, <- app_assoc. reflexivity. }
      all: match goal with |- context [parse_tt arm_paths_bars ?l [(8%nat, ?d)]] =>
             destruct (paths_bars_end d l) as [H|(k & E & H)];
             [left; exact H|right; exists [], (S k); rewrite (app_nil_r d), E;
              split; [reflexivity|rewrite E in H; exact H]] end.
Qed.
Lemma paths_bars_accept_state ps k : forall c,
  parse_tt arm_paths_bars (tail TBar ps ++ repeat TBar k) [(4%nat, c)] = Success (c ++ ps).
Proof.
  induction ps as [|p ps IH]; intros c.
  - rewrite (app_nil_r c). cbn [tail flat_map app].
    assert (H : forall j, parse_tt arm_paths_bars (repeat TBar j) [(8%nat, c)] = Success c).
    { induction j as [|j IH]; [reflexivity|exact IH]. }
    destruct k as [|[|k]]; [reflexivity|reflexivity|exact (H (S k))].
  - change (tail TBar (p :: ps)) with (TBar :: TPath p :: tail TBar ps).
    cbn [app]. rewrite paths_bars_sep, IH, <- app_assoc. reflexivity.
Qed.
(** Given that the first two arms have failed. *)
Lemma paths_bars_match toks :
  parse_tt arm_path_bars toks [(0%nat, [])] = Failure ->
  parse_tt arm_paths_bars toks [(0%nat, [])] = Failure \/
  exists p q ps k, toks = TPath p :: tail TBar (q :: ps) ++ repeat TBar k /\
               parse_tt arm_paths_bars toks [(0%nat, [])] = Success (p :: q :: ps).
Proof.
  intros HF.
  destruct toks as [|[p| | |] toks]; try (left; reflexivity).
  destruct toks as [|[q| | |] toks]; try (left; reflexivity).
  destruct toks as [|[q| | |] toks]; try (left; reflexivity).
  - discriminate HF.
  - change (parse_tt arm_paths_bars (TPath p :: TBar :: TPath q :: toks) [(0%nat, [])])
      with (parse_tt arm_paths_bars toks [(4%nat, [p; q])]).
    destruct (paths_bars_state (length toks) [p; q] toks (le_n _)) as [H|(ps & k & -> & H)].
    + left. exact H.
    + right. exists p, q, ps, k. split; [reflexivity|exact H].
  - change (parse_tt arm_path_bars (TPath p :: TBar :: TBar :: toks) [(0%nat, [])])
      with (parse_tt arm_path_bars toks [(3%nat, [p])]) in HF.
    change (parse_tt arm_paths_bars (TPath p :: TBar :: TBar :: toks) [(0%nat, [])])
      with (parse_tt arm_paths_bars toks [(8%nat, [p])]).
    destruct (paths_bars_end [p] toks) as [H|(k & -> & H)]; [left; exact H|].
    exfalso.
    pose proof (path_bars_accept p (S (S k))) as H'.
    change (parse_tt arm_path_bars (TPath p :: repeat TBar (S (S k))) [(0%nat, [])])
      with (parse_tt arm_path_bars (repeat TBar k) [(3%nat, [p])]) in H'.
    congruence.
Qed.
Lemma paths_bars_accept p q ps k :
  parse_tt arm_paths_bars (TPath p :: tail TBar (q :: ps) ++ repeat TBar k) [(0%nat, [])] = Success (p :: q :: ps).
Proof. exact (paths_bars_accept_state ps k [p; q]). Qed.

Lemma path_comma_match toks : parse_tt arm_path_comma toks [(0%nat, [])] = Failure \/
  exists p k, (k <= 1)%nat /\ toks = TPath p :: repeat TComma k /\
              parse_tt arm_path_comma toks [(0%nat, [])] = Success [p].
Proof.
  destruct toks as [|[p| | |] toks]; try (left; reflexivity).
  destruct toks as [|[q| | |] toks]; try (left; reflexivity).
  - right. exists p, 0%nat. repeat split; lia.
  - destruct toks as [|[q| | |] toks]; try (left; reflexivity).
    right. exists p, 1%nat. repeat split; lia.
Qed.
Lemma path_comma_accept p k : (k <= 1)%nat ->
  parse_tt arm_path_comma (TPath p :: repeat TComma k) [(0%nat, [])] = Success [p].
Proof. intros Hk. destruct k as [|[|k]]; [reflexivity|reflexivity|lia]. Qed.

Lemma paths_comma_sep c toks : parse_tt arm_paths_comma (TComma :: toks) [(4%nat, c)] =
  match toks with
  | TPath p :: rest => parse_tt arm_paths_comma rest [(4%nat, c ++ [p])]
  | [] => Success c
  | _ => Failure
  end.
Proof. destruct toks as [|[p| | |] toks]; reflexivity. Qed.
Lemma paths_comma_state n : forall c toks, (length toks <= n)%nat ->
  parse_tt arm_paths_comma toks [(4%nat, c)] = Failure \/
  exists ps k, (k <= 1)%nat /\ toks = tail TComma ps ++ repeat TComma k /\
               parse_tt arm_paths_comma toks [(4%nat, c)] = Success (c ++ ps).
Proof.
  induction n as [|n IH]; intros c toks Hn.
  - destruct toks as [|t toks]; [|cbn in Hn; lia].
    right. exists [], 0%nat. rewrite (app_nil_r c). repeat split; lia.
  - destruct toks as [|[p| | |] toks]; try (left; reflexivity).
    + right. exists [], 0%nat. rewrite (app_nil_r c). repeat split; lia.
    + rewrite paths_comma_sep.
      destruct toks as [|[p| | |] toks]; try (left; reflexivity).
      * right. exists [], 1%nat. rewrite (app_nil_r c). repeat split; lia.
      * destruct (IH (c ++ [p]) toks) as [H|(ps & k & Hk & -> & H)].
        -- cbn [length] in Hn. lia.
        -- left. exact H.
        -- right. exists (p :: ps), k. repeat split; [exact Hk|]. rewrite H, <- app_assoc. reflexivity.
Qed.
Lemma paths_comma_accept_state ps k : (k <= 1)%nat -> forall c,
  parse_tt arm_paths_comma (tail TComma ps ++ repeat TComma k) [(4%nat, c)] = Success (c ++ ps).
Proof.
  intros Hk. induction ps as [|p ps IH]; intros c.
  - rewrite (app_nil_r c). destruct k as [|[|k]]; [reflexivity|reflexivity|lia].
  - change (tail TComma (p :: ps)) with (TComma :: TPath p :: tail TComma ps).
    cbn [app]. rewrite paths_comma_sep, IH, <- app_assoc. reflexivity.
Qed.
(** Given that the first arm has failed. *)
Lemma paths_comma_match toks :
  parse_tt arm_path_comma toks [(0%nat, [])] = Failure ->
  parse_tt arm_paths_comma toks [(0%nat, [])] = Failure \/
  (exists p q ps k, (k <= 1)%nat /\ toks = TPath p :: tail TComma (q :: ps) ++ repeat TComma k /\
               parse_tt arm_paths_comma toks [(0%nat, [])] = Success (p :: q :: ps)) \/
  (exists p, toks = [TPath p; TComma; TComma] /\
               parse_tt arm_paths_comma toks [(0%nat, [])] = Success [p]).
Proof.
  intros HF.
  destruct toks as [|[p| | |] toks]; try (left; reflexivity).
  destruct toks as [|[q| | |] toks]; try (left; reflexivity).
  destruct toks as [|[q| | |] toks]; try (left; reflexivity).
  - discriminate HF.
  - change (parse_tt arm_paths_comma (TPath p :: TComma :: TPath q :: toks) [(0%nat, [])])
      with (parse_tt arm_paths_comma toks [(4%nat, [p; q])]).
    destruct (paths_comma_state (length toks) [p; q] toks (le_n _)) as [H|(ps & k & Hk & -> & H)].
    + left. exact H.
    + right. left. exists p, q, ps, k. repeat split; [exact Hk|exact H].
  - destruct toks as [|[q| | |] toks]; try (left; reflexivity).
    right. right. exists p. split; reflexivity.
Qed.
Lemma paths_comma_accept p q ps k : (k <= 1)%nat ->
  parse_tt arm_paths_comma (TPath p :: tail TComma (q :: ps) ++ repeat TComma k) [(0%nat, [])] = Success (p :: q :: ps).
Proof. intros Hk. exact (paths_comma_accept_state ps k Hk [p; q]). Qed.

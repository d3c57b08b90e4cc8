(** * Claims about programs over several enums *)
From Coq Require Import Arith.
From Verif Require Import Base BaseFacts LimbFacts Repr Syntax Spec Derive EnumSet IterMethods ApiSpec TyFacts SetFacts IterFacts ReachFacts.
From Verif Require Import HistorySpec MultiSpec History Multi HistoryFacts HistoryClaims.

Lemma m_put_same T st e s : m_put T st e s e = s.
Proof.
  unfold m_put. destruct (Nat.eq_dec e e) as [E|E]; [|congruence].
  now rewrite (Eqdep_dec.UIP_refl_nat e E).
Qed.
Lemma m_put_other T st e s e' : e <> e' -> m_put T st e s e' = st e'.
Proof. intros H. unfold m_put. destruct (Nat.eq_dec e e'); [congruence|reflexivity]. Qed.
Lemma update_same {X} (f : nat -> X) i x : update f i x i = x.
Proof. unfold update. now rewrite Nat.eqb_refl. Qed.
Lemma update_other {X} (f : nat -> X) i x j : i <> j -> update f i x j = f j.
Proof. intros H. unfold update. destruct (Nat.eqb_spec j i); [congruence|reflexivity]. Qed.

Lemma map_until_rest f l us ok r : map_until f l = (us, ok, r) -> (length r <= length l)%nat /\ forall v, In v r -> In v l.
Proof.
  revert us ok r. induction l as [|x l IH]; intros us ok r; cbn [map_until].
  - intros [= <- <- <-]. now split.
  - destruct (f x) as [u|].
    + destruct (map_until f l) as [[us' ok'] r']. intros [= <- <- <-]. destruct (IH _ _ _ eq_refl) as [H1 H2].
      cbn [length In]. split; [lia|auto].
    + intros [= <- <- <-]. cbn [length In]. split; [lia|auto].
Qed.

Lemma extend_map_spec {pw inp T val irel pw' inp' T' val' irel'} (HT : TyLaws pw (discrs inp) T val irel)
  (HT' : TyLaws pw' (discrs inp') T' val' irel') f : (forall v u, variant inp v -> f v = Some u -> variant inp' u) ->
  forall l us ok r fuel s it, map_until f l = (us, ok, r) ->
  @it_rel inp T irel it l -> @Valid inp' T' val' s -> (length l < fuel)%nat ->
  exists s' it', es_extend_map_loop T T' fuel f s it = Ret (ok, s', it') /\ @Valid inp' T' val' s' /\
    (forall v, variant inp' v -> @mem inp' T' val' s' v = @mem inp' T' val' s v || existsb (Nat.eqb v) us) /\
    @it_rel inp T irel it' r.
Proof.
  intros Hf. induction l as [|x l IH]; intros us ok r [|fuel] s it Hu Hi Hs Hl; cbn [length] in Hl; try lia;
    cbn [es_extend_map_loop map_until] in *; destruct (next_spec HT _ _ Hi) as (it1 & -> & H1); cbn [hd_error tl] in *; rewrite bind_ret.
  - injection Hu as <- <- <-. exists s, it1. split; [reflexivity|]. split; [assumption|]. split; [|assumption].
    intros v Hv. cbn. now rewrite orb_false_r.
  - assert (Hx : variant inp x) by (apply Hi; now left). destruct (f x) as [u|] eqn:Eu.
    + destruct (map_until f l) as [[us' ok'] r'] eqn:Er. injection Hu as <- <- <-.
      destruct (insert_spec HT' s u Hs (Hf x u Hx Eu)) as (s1 & -> & Hs1 & Hm1). rewrite bind_ret.
      destruct (IH us' ok' r' fuel s1 it1 eq_refl H1 Hs1) as (s2 & it2 & E & Hs2 & Hm2 & H2); [lia|].
      exists s2, it2. split; [exact E|]. split; [assumption|]. split; [|assumption].
      intros v Hv. rewrite Hm2, Hm1 by assumption. cbn [existsb]. rewrite (orb_comm (v =? u)%nat), orb_assoc. reflexivity.
    + injection Hu as <- <- <-. exists s, it1. split; [reflexivity|]. split; [assumption|]. split; [|assumption].
      intros v Hv. cbn. now rewrite orb_false_r.
Qed.

Section Sim.
Context (pw : N) (inp : nat -> derive_input) (T : nat -> EnumTy) (HS : forall e, Supported pw (inp e) (T e)).

(** The laws of one enum, for some reading of its storage. *)
Record Laws (e : nat) (val : eset (T e) -> N) (irel : r_iter_t (et_repr (T e)) -> list N -> Prop) : Prop := {
  lw_ty : TyLaws pw (discrs (inp e)) (T e) val irel;
  lw_cmp : forall a b, @Valid (inp e) (T e) val a -> @Valid (inp e) (T e) val b ->
       es_cmp (T e) a b = match storage_of (inp e) with
                      | SInt _ => val a ?= val b
                      | SWords n => lex_compare (limbs (N.to_nat n) (val a)) (limbs (N.to_nat n) (val b))
                      end;
  lw_hash : forall a, @Valid (inp e) (T e) val a ->
       es_hash (T e) a = match storage_of (inp e) with
                     | SInt b => [HInt b (val a)]
                     | SWords n => [HLen (N.to_nat n); HWords (limbs (N.to_nat n) (val a))]
                     end;
  lw_int : forall b, storage_of (inp e) = SInt b -> r_width (et_repr (T e)) = b /\ exists number value, r_int (et_repr (T e)) = Some (number, value) /\
       (forall s, number s = val s) /\ (forall x, x < 2 ^ b -> r_ok (et_repr (T e)) (value x) /\ val (value x) = x) }.
Definition ERel (e : nat) (s : state (T e)) (a : astate) : Prop :=
  exists val irel, Laws e val irel /\ @Rel (inp e) (T e) val irel s a.
Definition MRel (st : mstate T) (ast : nat -> astate) : Prop := forall e, ERel e (st e) (ast e).

Lemma mrel_init : MRel (m_init T) (fun _ => a_init).
Proof.
  intros e. destruct (laws_with_storage pw (inp e) (T e) (HS e)) as (val & irel & HT & Hcmp & Hhash & Hint).
  exists val, irel. split; [now constructor|exact (rel_init HT)].
Qed.
Lemma mrel_put st ast e s a : MRel st ast -> ERel e s a -> MRel (m_put T st e s) (update ast e a).
Proof.
  intros H Hs k. destruct (Nat.eq_dec e k) as [->|Hne].
  - now rewrite m_put_same, update_same.
  - rewrite m_put_other, update_other by assumption. apply H.
Qed.

Lemma m_step_sim x st ast : MRel st ast -> mcmd_ok pw inp x ->
  exists o st' ast', m_step T x st = Ret (o, st') /\ am_step pw inp x ast = Ret (o, ast') /\ MRel st' ast'.
Proof.
  intros HRel Hx. destruct x as [e c|e i e' d f]; cbn [mcmd_ok m_step am_step] in *.
  - destruct (HRel e) as (val & irel & [HT Hcmp Hhash Hint] & Hr).
    pose proof (step_sim HT (HS e) Hcmp Hhash Hint c _ _ Hr Hx) as H. unfold Sim in H.
    destruct (a_step pw (inp e) c (ast e)) as [[o a]|p| |]; try contradiction.
    + destruct H as (s & -> & Hr'). do 3 eexists. split; [reflexivity|]. split; [reflexivity|].
      apply mrel_put; [assumption|]. exists val, irel. now split.
    + rewrite H. do 3 eexists. split; [reflexivity|]. split; [reflexivity|]. assumption.
  - destruct (HRel e) as (val & irel & L & Hr). pose proof L as [HT _ _ _].
    pose proof (proj2 Hr i) as Hi. unfold iter_rel in Hi.
    destruct (c_iters (T e) (st e) i) as [it|], (a_iters (ast e) i) as [l|]; try contradiction;
      [|do 3 eexists; split; [reflexivity|]; split; [reflexivity|assumption]].
    destruct Hi as [Hi Hl]. destruct (map_until f l) as [[us ok] r] eqn:Eu.
    destruct (map_until_rest _ _ _ _ _ Eu) as [Hrest _].
    assert (Hput : forall it', @it_rel (inp e) (T e) irel it' r ->
      @Rel (inp e) (T e) val irel (c_set_iter (T e) (st e) i it') (a_set_iter (ast e) i r)).
    { intros it' Hi'. apply rel_set_iter; auto. lia. }
    assert (H2 : exists val' irel', Laws e' val' irel' /\ @Rel (inp e') (T e') val' irel' (st e') (ast e') /\
      forall it', @it_rel (inp e) (T e) irel it' r ->
        @Rel (inp e') (T e') val' irel' (m_put T st e (c_set_iter (T e) (st e) i it') e')
          (update ast e (a_set_iter (ast e) i r) e')).
    { destruct (Nat.eq_dec e e') as [<-|Hne].
      - exists val, irel. split; [assumption|]. split; [assumption|]. intros it' Hi'.
        rewrite m_put_same, update_same. now apply Hput.
      - destruct (HRel e') as (val' & irel' & L' & Hr'). exists val', irel'. split; [assumption|]. split; [assumption|].
        intros it' Hi'. now rewrite m_put_other, update_other. }
    destruct H2 as (val' & irel' & L' & Hr' & Hput'). pose proof L' as [HT' _ _ _].
    destruct (extend_map_spec HT HT' f Hx l us ok r (S (length (et_variants (T e)))) (c_sets (T e') (st e') d) it Eu Hi
      (rel_valid _ _ d Hr')) as (s & it' & E & Hs & Hm & Hi'); [lia|].
    unfold es_extend_map. rewrite E, bind_ret. do 3 eexists. split; [reflexivity|]. split; [reflexivity|].
    apply mrel_put.
    + apply mrel_put; [assumption|]. exists val, irel. split; [assumption|]. now apply Hput.
    + exists val', irel'. split; [assumption|]. apply rel_set; [now apply Hput'|]. split; [assumption|].
      intros v Hv. rewrite Hm by assumption. f_equal. exact (rel_mem _ _ d v Hr' Hv).
Qed.

Lemma m_play_sim n prog : forall seen st ast, MRel st ast -> am_calls pw inp n prog seen ast ->
  m_play T n prog seen st = am_play pw inp n prog seen ast.
Proof.
  induction n as [|n IH]; intros seen st ast HRel Hok; cbn [m_play am_play am_calls] in *; [reflexivity|].
  destruct (prog seen) as [x|]; [|reflexivity]. destruct Hok as [Hx Hok].
  destruct (m_step_sim x st ast HRel Hx) as (o & st' & ast' & -> & E & HRel'). rewrite E in *. now apply IH.
Qed.
End Sim.

(** ** C69 *)
Lemma multi_refines pw inp T n prog : (forall e, Supported pw (inp e) (T e)) -> mcalls pw inp n prog ->
  m_play T n prog [] (m_init T) = am_play pw inp n prog [] (fun _ => a_init).
Proof. intros HS Hok. apply (m_play_sim pw inp T HS); [now apply mrel_init|exact Hok]. Qed.

Lemma am_step_total pw inp T x ast : (forall e, Supported pw (inp e) (T e)) ->
  exists o ast', am_step pw inp x ast = Ret (o, ast') /\
  match o with
  | MPanicked p => In p documented_panics /\ exists e c, x = MCall e c /\ may_panic (inp e) c
  | MClosurePanicked => exists e i e' d f v, x = MExtendMap e i e' d f /\ f v = None
  | MOut _ => True
  end.
Proof.
  intros HS. destruct x as [e c|e i e' d f]; cbn [am_step].
  - pose proof (a_step_panic pw (inp e) (T e) c (ast e) (HS e)) as H.
    destruct (a_step pw (inp e) c (ast e)) as [[o a]|p| |]; try contradiction; do 2 eexists; (split; [reflexivity|]); [exact I|].
    split; [apply H|]. exists e, c. split; [reflexivity|apply H].
  - destruct (a_iters (ast e) i) as [l|]; [|do 2 eexists; split; [reflexivity|exact I]].
    destruct (map_until f l) as [[us ok] r] eqn:Eu. do 2 eexists. split; [reflexivity|].
    destruct ok; [exact I|]. enough (exists v, f v = None) as [v Hv] by (exists e, i, e', d, f, v; now split).
    revert us r Eu. induction l as [|x l IH]; intros us r; cbn [map_until]; [discriminate|].
    destruct (f x) eqn:E; [|eauto]. destruct (map_until f l) as [[us' ok'] r']. intros [= <- -> <-]. eauto.
Qed.
Lemma multi_safe pw inp T n prog : (forall e, Supported pw (inp e) (T e)) -> mcalls pw inp n prog ->
  exists outs, m_play T n prog [] (m_init T) = (outs, Ret tt) /\
  (prog outs = None \/ length outs = n) /\
  forall k o, nth_error outs k = Some o ->
    exists x, prog (firstn k outs) = Some x /\
    match o with
    | MPanicked p => In p documented_panics /\ exists e c, x = MCall e c /\ may_panic (inp e) c
    | MClosurePanicked => exists e i e' d f v, x = MExtendMap e i e' d f /\ f v = None
    | MOut _ => True
    end.
Proof.
  intros HS Hok. rewrite (multi_refines pw inp T n prog HS Hok). clear Hok.
  set (good := fun outs => forall k o, nth_error outs k = Some o ->
    exists x, prog (firstn k outs) = Some x /\
    match o with
    | MPanicked p => In p documented_panics /\ exists e c, x = MCall e c /\ may_panic (inp e) c
    | MClosurePanicked => exists e i e' d f v, x = MExtendMap e i e' d f /\ f v = None
    | MOut _ => True
    end).
  enough (H : forall seen ast, good seen -> exists outs, am_play pw inp n prog seen ast = (outs, Ret tt) /\
    (prog outs = None \/ length outs = (length seen + n)%nat) /\ good outs).
  { apply (H [] _). intros [|k] o; discriminate. }
  induction n as [|n IH]; intros seen ast Hg; cbn [am_play].
  { exists seen. split; [reflexivity|]. split; [right; lia|assumption]. }
  destruct (prog seen) as [x|] eqn:Ex; [|exists seen; auto].
  destruct (am_step_total pw inp T x ast HS) as (o & ast' & -> & Ho).
  destruct (IH (seen ++ [o]) ast') as (outs & E & H1 & H2).
  - intros k o' Hk. destruct (Nat.lt_ge_cases k (length seen)) as [Hlt|Hge].
    + rewrite nth_error_app1 in Hk by assumption. rewrite firstn_app. replace (k - length seen)%nat with 0%nat by lia.
      cbn [firstn]. rewrite app_nil_r. now apply Hg.
    + rewrite nth_error_app2 in Hk by assumption. destruct (k - length seen)%nat as [|j] eqn:Ek; [|now destruct j].
      injection Hk as <-. exists x. split; [|exact Ho]. replace k with (length seen) by lia.
      rewrite firstn_app, firstn_all, Nat.sub_diag. cbn [firstn]. now rewrite app_nil_r.
  - exists outs. split; [assumption|]. split; [|assumption]. rewrite app_length in H1. cbn [length] in H1. destruct H1; [now left|right; lia].
Qed.

(** * Claims about how often loops go round *)
From Verif Require Import Base BaseFacts LimbFacts Prim PrimFacts ArrayRepr ArrayFacts Repr ReprLaws.
From Verif Require Import Syntax Spec Derive EnumSet ApiSpec TyFacts SetFacts IterFacts ConvFacts MacroFacts ReachFacts SetClaims.
From Verif Require Import StorageSpec StorageClaims CostSpec.

Section Loops.
Context {md : build}.

(** An upper bound of what is still to be paid for. *)
Definition potential (it : a_iter) : nat := if ai_done it then 0 else (2 + ai_r it - ai_f it)%nat.

Definition costs (run : nat -> M (option N * a_iter)) (it : a_iter) (k : nat) (o : option N) (it' : a_iter) : Prop :=
  (forall fuel, run fuel = if Nat.leb k fuel then Ret (o, it') else OutOfFuel) /\
  match o with
  | Some _ => (k + potential it' <= potential it + 1)%nat /\ (1 <= potential it')%nat
  | None => (k <= potential it)%nat /\ ai_done it' = true
  end.

Lemma next_cost n : 64 * N.of_nat n < 2 ^ 32 -> forall m it l,
  (S (ai_r it) - ai_f it <= m)%nat -> a_irel n it l -> ai_done it = false ->
  exists k o it', costs (fun fuel => a_next_loop fuel it) it k o it'.
Proof.
  intros Hn. induction m as [|m IH]; intros it l Hm Hrel Hd; destruct Hrel as (Hwf & Hr & Hfr & Hz & Hdone & ->);
    pose proof Hwf as [Lw Ow].
  - exists 1%nat, None, (MkAIter (ai_data it) true (ai_f it) (ai_r it)). split.
    + intros [|fuel]; [reflexivity|]. cbn [a_next_loop]. destruct (Nat.leb_spec (ai_f it) (ai_r it)); [lia|].
      destruct (Nat.leb_spec 1 (S fuel)); [reflexivity|lia].
    + split; [|reflexivity]. unfold potential. rewrite Hd. lia.
  - destruct (Nat.leb_spec (ai_f it) (ai_r it)) as [Hle|Hgt].
    2:{ exists 1%nat, None, (MkAIter (ai_data it) true (ai_f it) (ai_r it)). split.
        + intros [|fuel]; [reflexivity|]. cbn [a_next_loop]. destruct (Nat.leb_spec (ai_f it) (ai_r it)); [lia|].
          destruct (Nat.leb_spec 1 (S fuel)); [reflexivity|lia].
        + split; [|reflexivity]. unfold potential. rewrite Hd. lia. }
    destruct (N.eqb_spec (nth (ai_f it) (ai_data it) 0) 0) as [E0|E0].
    + pose (it1 := MkAIter (ai_data it) (ai_done it) (S (ai_f it)) (ai_r it)).
      destruct (IH it1 (bits_of (lval (ai_data it)))) as (k & o & it' & Hk & Hp); [cbn; lia| |exact Hd|].
      { unfold a_irel; cbn. repeat split; auto; try lia.
        intros i Hi. destruct (Nat.eq_dec i (ai_f it)) as [->|]; [assumption|]. apply Hz. lia. }
      exists (S k), o, it'. split.
      * intros [|fuel]; [reflexivity|]. cbn [a_next_loop]. rewrite (proj2 (Nat.leb_le _ _) Hle).
        rewrite (get_nth _ _ 0) by lia. rewrite bind_ret, p_iter_next_eq by now apply limbs_ok_nth.
        rewrite (proj2 (N.eqb_eq _ _) E0), bind_ret. rewrite set_ret by lia. rewrite bind_ret, upd_same.
        fold it1. rewrite Hk. reflexivity.
      * assert (E : potential it = S (potential it1)).
        { unfold potential, it1. cbn [ai_done ai_r ai_f]. rewrite Hd. lia. }
        rewrite E. destruct o, Hp; (split; [lia|assumption]).
    + pose proof (ctz_lt 64 _ E0 (limbs_ok_nth _ _ Ow)) as Hlt.
      eexists 1%nat, (Some _), _. split.
      * intros [|fuel]; [reflexivity|]. cbn [a_next_loop]. rewrite (proj2 (Nat.leb_le _ _) Hle).
        rewrite (get_nth _ _ 0) by lia. rewrite bind_ret, p_iter_next_eq by now apply limbs_ok_nth.
        rewrite (proj2 (N.eqb_neq _ _) E0), bind_ret. rewrite set_ret by lia. rewrite bind_ret.
        rewrite (a_item_spec n) by (assumption || lia). reflexivity.
      * unfold potential. cbn [ai_done ai_r ai_f]. rewrite Hd. lia.
Qed.

Lemma next_back_cost n : 64 * N.of_nat n < 2 ^ 32 -> forall m it l,
  (S (ai_r it) - ai_f it <= m)%nat -> a_irel n it l -> ai_done it = false ->
  exists k o it', costs (fun fuel => a_next_back_loop fuel it) it k o it'.
Proof.
  intros Hn. induction m as [|m IH]; intros it l Hm Hrel Hd; destruct Hrel as (Hwf & Hr & Hfr & Hz & Hdone & ->);
    pose proof Hwf as [Lw Ow].
  - exists 1%nat, None, (MkAIter (ai_data it) true (ai_f it) (ai_r it)). split.
    + intros [|fuel]; [reflexivity|]. cbn [a_next_back_loop]. destruct (Nat.leb_spec (ai_f it) (ai_r it)); [lia|].
      destruct (Nat.leb_spec 1 (S fuel)); [reflexivity|lia].
    + split; [|reflexivity]. unfold potential. rewrite Hd. lia.
  - destruct (Nat.leb_spec (ai_f it) (ai_r it)) as [Hle|Hgt].
    2:{ exists 1%nat, None, (MkAIter (ai_data it) true (ai_f it) (ai_r it)). split.
        + intros [|fuel]; [reflexivity|]. cbn [a_next_back_loop]. destruct (Nat.leb_spec (ai_f it) (ai_r it)); [lia|].
          destruct (Nat.leb_spec 1 (S fuel)); [reflexivity|lia].
        + split; [|reflexivity]. unfold potential. rewrite Hd. lia. }
    destruct (N.eqb_spec (nth (ai_r it) (ai_data it) 0) 0) as [E0|E0].
    + destruct (Nat.eq_dec (ai_r it) 0) as [Er|Er].
      { exists 1%nat, None, (MkAIter (ai_data it) true (ai_f it) (ai_r it)). split.
        - intros [|fuel]; [reflexivity|]. cbn [a_next_back_loop]. rewrite (proj2 (Nat.leb_le _ _) Hle).
          rewrite (get_nth _ _ 0) by lia. rewrite bind_ret, p_iter_next_back_eq by now apply limbs_ok_nth.
          rewrite (proj2 (N.eqb_eq _ _) E0), bind_ret. rewrite set_ret by lia. rewrite bind_ret, upd_same.
          rewrite (proj2 (Nat.eqb_eq _ _) Er). reflexivity.
        - split; [|reflexivity]. unfold potential. rewrite Hd. lia. }
      pose (it1 := MkAIter (ai_data it) (ai_done it) (ai_f it) (ai_r it - 1)).
      destruct (IH it1 (bits_of (lval (ai_data it)))) as (k & o & it' & Hk & Hp); [cbn [it1 ai_r ai_f]; lia| |exact Hd|].
      { unfold a_irel, it1; cbn [ai_r ai_f ai_data ai_done]. repeat split; auto; try lia.
        intros i Hi. destruct (Nat.eq_dec i (ai_r it)) as [->|]; [assumption|]. apply Hz. lia. }
      exists (S k), o, it'. split.
      * intros [|fuel]; [reflexivity|]. cbn [a_next_back_loop]. rewrite (proj2 (Nat.leb_le _ _) Hle).
        rewrite (get_nth _ _ 0) by lia. rewrite bind_ret, p_iter_next_back_eq by now apply limbs_ok_nth.
        rewrite (proj2 (N.eqb_eq _ _) E0), bind_ret. rewrite set_ret by lia. rewrite bind_ret, upd_same.
        rewrite (proj2 (Nat.eqb_neq _ _) Er). fold it1. rewrite Hk. reflexivity.
      * assert (E : potential it = S (potential it1)).
        { unfold potential, it1. cbn [ai_done ai_r ai_f]. rewrite Hd. lia. }
        rewrite E. destruct o, Hp; (split; [lia|assumption]).
    + pose proof (limbs_ok_nth _ (ai_r it) Ow) as Hlt64.
      assert (Hlt : N.log2 (nth (ai_r it) (ai_data it) 0) < 64) by (apply N.log2_lt_pow2; lia).
      eexists 1%nat, (Some _), _. split.
      * intros [|fuel]; [reflexivity|]. cbn [a_next_back_loop]. rewrite (proj2 (Nat.leb_le _ _) Hle).
        rewrite (get_nth _ _ 0) by lia. rewrite bind_ret, p_iter_next_back_eq by now apply limbs_ok_nth.
        rewrite (proj2 (N.eqb_neq _ _) E0), bind_ret. rewrite set_ret by lia. rewrite bind_ret.
        rewrite (a_item_spec n) by (assumption || lia). reflexivity.
      * unfold potential. cbn [ai_done ai_r ai_f]. rewrite Hd. lia.
Qed.

Lemma call_cost n p it l : 64 * N.of_nat n < 2 ^ 32 -> a_irel n it l ->
  exists k o it', call p it = Ret (o, it') /\ takes (fun fuel => call_fuel p fuel it) k /\
    (o, l) = (fst (pop_end p l), l) /\ a_irel n it' (snd (pop_end p l)) /\
    (ai_done it = true -> k = 0%nat /\ o = None /\ ai_done it' = true) /\
    match o with
    | Some _ => (k + potential it' <= potential it + 1)%nat /\ (1 <= potential it')%nat
    | None => (k <= potential it)%nat /\ ai_done it' = true
    end.
Proof.
  intros Hn Hrel.
  assert (Hcall : exists it', call p it = Ret (fst (pop_end p l), it') /\ a_irel n it' (snd (pop_end p l))).
  { destruct p; cbn [call pop_end fst snd].
    - now apply a_iter_next_spec.
    - destruct l as [|b l _] using rev_ind.
      + now apply a_iter_next_back_nil.
      + rewrite rev_app_distr. cbn [rev app hd_error tl]. rewrite rev_involutive. now apply a_iter_next_back_spec. }
  destruct Hcall as (it' & E & Hrel').
  destruct (ai_done it) eqn:Hd.
  - pose proof Hrel as (_ & _ & _ & _ & Hdone & El). rewrite (Hdone Hd) in El. subst l.
    assert (Hf : forall fuel, call_fuel p fuel it = Ret (None, it)).
    { intros fuel. destruct p; cbn [call_fuel]; unfold a_iter_next_fuel, a_iter_next_back_fuel; now rewrite Hd. }
    assert (it' = it) as ->.
    { destruct p; cbn [call] in E; unfold a_iter_next, a_iter_next_back, a_iter_next_fuel, a_iter_next_back_fuel in E;
        rewrite Hd in E; congruence. }
    exists 0%nat, (fst (pop_end p [])), it. split; [assumption|]. split.
    { split; [rewrite Hf; discriminate|]. intros j Hj. lia. }
    split; [reflexivity|]. split; [assumption|]. split; [destruct p; auto|]. destruct p; cbn; split; auto; lia.
  - assert (Hc : exists k o it'', costs (fun fuel => call_fuel p fuel it) it k o it'').
    { destruct p; cbn [call_fuel]; unfold a_iter_next_fuel, a_iter_next_back_fuel; rewrite Hd;
        [eapply next_cost|eapply next_back_cost]; eauto. }
    destruct Hc as (k & o & it'' & Hk & Hp).
    assert (Ec : call p it = call_fuel p (S (S (ai_r it))) it) by (destruct p; reflexivity).
    rewrite Ec, Hk in E. destruct (Nat.leb_spec k (S (S (ai_r it)))) as [Hle|]; [|discriminate].
    injection E as Eo Ei. subst it''.
    exists k, o, it'. split; [rewrite Ec, Hk, (proj2 (Nat.leb_le _ _) Hle); reflexivity|]. split.
    { split; [rewrite Hk, (proj2 (Nat.leb_le k k) (le_n _)); discriminate|].
      intros j Hj. rewrite Hk. destruct (Nat.leb_spec k j); [lia|reflexivity]. }
    split; [congruence|]. split; [assumption|]. split; [discriminate|]. assumption.
Qed.

Lemma pops_none {A} ps : fst (pops ps (@nil A)) = repeat None (length ps).
Proof.
  induction ps as [|[] ps IH]; [reflexivity|..]; cbn [pops pop_end hd_error tl rev];
    destruct (pops ps []) eqn:E; cbn in *; now rewrite IH.
Qed.

(** ** C81 *)
Lemma trace_cost n : 64 * N.of_nat n < 2 ^ 32 -> forall ps it l, a_irel n it l ->
  exists tr, trace ps it tr /\ map fst tr = fst (pops ps l) /\
    (total tr <= potential it + Nat.min (length ps) (length l))%nat /\
    (forall i j c, (i < j)%nat -> nth_error (map fst tr) i = Some None -> nth_error (map snd tr) j = Some c -> c = 0%nat) /\
    (ai_done it = true -> forall c, In c (map snd tr) -> c = 0%nat) /\
    (forall c, In c (map snd tr) -> (c <= n + 1)%nat).
Proof.
  intros Hn. induction ps as [|p ps IH]; intros it l Hrel.
  { exists []. cbn. repeat split; try constructor; try lia; try tauto. intros i [|j] c; discriminate. }
  destruct (call_cost n p it l Hn Hrel) as (k & o & it' & E & Hk & Eo & Hrel' & Hdone & Hp).
  destruct (IH it' _ Hrel') as (tr & Htr & Ea & Ht & Hnone & Hd & Hmax).
  injection Eo as ->. exists ((fst (pop_end p l), k) :: tr).
  assert (Hpot : (potential it <= n + 1)%nat).
  { destruct Hrel as (_ & Hr & _). unfold potential. destruct (ai_done it); lia. }
  split; [econstructor; eassumption|]. split.
  { cbn [map fst pops]. destruct (pop_end p l) as [o' l'] eqn:Ep. cbn [fst snd] in *.
    destruct (pops ps l') eqn:Epp. cbn [fst] in *. now rewrite Ea. }
  assert (Hlen : match fst (pop_end p l) with
                 | Some _ => length l = S (length (snd (pop_end p l)))
                 | None => length (snd (pop_end p l)) = 0%nat
                 end).
  { destruct p; cbn [pop_end fst snd].
    - destruct l; reflexivity.
    - destruct l as [|b l _] using rev_ind; [reflexivity|]. rewrite rev_app_distr. cbn [rev app hd_error tl].
      rewrite rev_length, app_length. rewrite rev_length. cbn [length]. lia. }
  assert (Hpd : ai_done it' = true -> potential it' = 0%nat) by (unfold potential; now intros ->).
  split.
  { cbn [total fold_right snd length] in *. fold (total tr). destruct (fst (pop_end p l)).
    - lia.
    - destruct Hp as [Hp Hd']. rewrite (Hpd Hd') in Ht. lia. }
  split.
  { intros [|i] [|j] c Hij Hi Hj; cbn [map nth_error fst snd] in Hi, Hj; try lia.
    - injection Hi as Hi. rewrite Hi in Hp. apply Hd; [tauto|]. eapply nth_error_In; eassumption.
    - apply (Hnone i j c); [lia|assumption|assumption]. }
  split.
  { intros Hdn c [<-|Hc]; [now apply Hdone|]. apply Hd; [|assumption]. now apply Hdone. }
  intros c [<-|Hc]; [|now apply Hmax].
  cbn [snd]. destruct (fst (pop_end p l)); lia.
Qed.
End Loops.
Lemma iteration_cost md n x ps : (0 < n)%nat -> 64 * N.of_nat n < 2 ^ 32 -> length x = n -> words_ok x ->
  exists it l tr, a_iter_new n x = Ret it /\
    StronglySorted N.lt l /\ (forall i, In i l <-> N.testbit (words_value x) i = true) /\
    @trace md ps it tr /\ map fst tr = fst (pops ps l) /\
    (total tr <= n + 1 + Nat.min (length ps) (length l))%nat /\
    (forall c, In c (map snd tr) -> (c <= n + 1)%nat) /\
    (forall i j c, (i < j)%nat -> nth_error (map fst tr) i = Some None -> nth_error (map snd tr) j = Some c -> c = 0%nat).
Proof.
  intros Hn Hn' Hl Hx. destruct (a_iter_new_spec n x Hn (conj Hl Hx)) as (it & E & Hi).
  destruct (trace_cost (md := md) n Hn' ps it _ Hi) as (tr & Ht & Ea & Htot & Hnone & _ & Hmax).
  exists it, (bits_of (lval x)), tr. split; [assumption|].
  split; [apply bits_of_sorted|]. split; [intros i; rewrite (StorageClaims.words_value_lval x); apply bits_of_In|].
  split; [assumption|]. split; [assumption|]. split; [|split; assumption].
  assert (potential it <= n + 1)%nat; [|lia].
  destruct Hi as (_ & Hr & _). unfold potential. destruct (ai_done it); lia.
Qed.

Section Drain.
Context {pw : N} {inp : derive_input} {T : EnumTy} {val : eset T -> N}
        {irel : r_iter_t (et_repr T) -> list N -> Prop}.
Context (HT : TyLaws pw (discrs inp) T val irel).
Lemma drain_short l : forall j it, it_rel (inp := inp) (irel := irel) it l -> (j <= length l)%nat -> es_drain T j it = OutOfFuel.
Proof.
  induction l as [|v l IH]; intros [|j] it H Hj; cbn [length] in Hj; try lia; [reflexivity..|].
  cbn [es_drain]. destruct (next_spec HT _ _ H) as (it' & E & H'). rewrite E, bind_ret. cbn [hd_error tl] in *.
  now rewrite (IH j it' H') by lia.
Qed.
Lemma drain_back_short l : forall j it, it_rel (inp := inp) (irel := irel) it l -> (j <= length l)%nat -> es_drain_back T j it = OutOfFuel.
Proof.
  induction l as [|v l IH] using rev_ind; intros [|j] it H Hj; rewrite ?app_length in Hj; cbn [length] in Hj; try lia; [reflexivity..|].
  cbn [es_drain_back]. destruct (next_back_spec HT _ _ _ H) as (it' & E & H'). rewrite E, bind_ret.
  now rewrite (IH j it' H') by lia.
Qed.
End Drain.
Lemma loop_cost pw inp T s A : Supported pw inp T -> Reachable pw inp T s -> Denotes inp T s A ->
  exists it l, es_iter T s = Ret it /\ lists_set inp A l /\
    takes (fun asked => es_drain T asked it) (S (length l)) /\
    takes (fun asked => es_drain_back T asked it) (S (length l)).
Proof.
  intros HS HR HA. start. members s. destruct (iter_spec HT s HR) as (it & l & E & Hl & Hi).
  exists it, l. split; [assumption|]. split; [eapply lists_set_ext; eassumption|]. split; split.
  - rewrite (drain_spec HT l) by (assumption || lia). discriminate.
  - intros j Hj. apply (drain_short HT l); [assumption|lia].
  - rewrite (drain_back_spec HT l) by (assumption || lia). discriminate.
  - intros j Hj. apply (drain_back_short HT l); [assumption|lia].
Qed.

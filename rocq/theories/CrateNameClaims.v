(** * Claims about the name of the crate *)
From Verif Require Import Base Syntax Spec Derive ApiSpec CrateName.
From Verif Require DeriveClaims.

Lemma crate_path is_ident md pw o inp :
  (forall T, derive md pw inp = Ret (Ok T) ->
     derive_named is_ident md pw o inp =
     match co_attr o, co_lookup o, co_found o with
     | Some n, _, _ | None, true, FName n =>
         if is_ident n then Ret (Ok (n, T)) else Panic (not_an_ident n)
     | _, _, _ => Ret (Ok ("enumset"%string, T))
     end) /\
  (forall e, derive md pw inp = Ret (Err e) ->
     derive_named is_ident md pw o inp =
     match co_attr o with
     | Some n => if in_generic inp || negb (in_is_enum inp) || is_ident n then Ret (Err e)
                 else Panic (not_an_ident n)
     | None => Ret (Err e)
     end).
Proof.
  unfold derive_named, info_crate_name, enumset_path, ident_new.
  destruct (in_generic inp) eqn:G.
  { unfold derive, derive_info. rewrite G. cbn. split; intros x H; inversion H; subst. destruct (co_attr o); reflexivity. }
  destruct (in_is_enum inp) eqn:Q.
  2:{ unfold derive, derive_info. rewrite G, Q. cbn. split; intros x H; inversion H; subst. destruct (co_attr o); reflexivity. }
  split; intros x H; rewrite H; cbn; destruct (co_attr o) as [n|]; cbn;
    try (destruct (is_ident n)); cbn; try reflexivity.
  destruct (co_lookup o); [|reflexivity]. destruct (co_found o) as [m| |]; cbn; try reflexivity.
  destruct (is_ident m); reflexivity.
Qed.

Lemma crate_name_accepted is_ident md pw o inp :
  (exists r, derive_named is_ident md pw o inp = Ret (Ok r)) <->
  WellFormed inp /\
  (forall n, co_attr o = Some n -> is_ident n = true) /\
  (forall n, co_attr o = None -> co_lookup o = true -> co_found o = FName n -> is_ident n = true).
Proof.
  destruct (DeriveClaims.derive_total md pw inp) as (r & Hr & Hok & _).
  destruct (crate_path is_ident md pw o inp) as [H1 H2].
  destruct r as [T|e].
  - rewrite (H1 T Hr). assert (W : WellFormed inp) by (apply Hok; eauto).
    destruct (co_attr o) as [n|].
    + split.
      * intros [r E]. destruct (is_ident n) eqn:I; [|discriminate]. split; [exact W|split]; [intros ? [= <-]; exact I|discriminate].
      * intros (_ & I & _). rewrite (I n eq_refl). eauto.
    + destruct (co_lookup o).
      2:{ split; [|eauto]. intros _. split; [exact W|split]; [discriminate|discriminate]. }
      destruct (co_found o) as [n| |].
      * split.
        -- intros [r E]. destruct (is_ident n) eqn:I; [|discriminate]. split; [exact W|split]; [discriminate|intros ? _ _ [= <-]; exact I].
        -- intros (_ & _ & I). rewrite (I n eq_refl eq_refl eq_refl). eauto.
      * split; [|eauto]. intros _. split; [exact W|split]; [discriminate|discriminate].
      * split; [|eauto]. intros _. split; [exact W|split]; [discriminate|discriminate].
  - rewrite (H2 e Hr). split.
    + intros [r E]. destruct (co_attr o) as [n|]; [destruct (in_generic inp || negb (in_is_enum inp) || is_ident n)|]; discriminate.
    + intros (W & _). apply Hok in W. destruct W as [T E]. discriminate.
Qed.

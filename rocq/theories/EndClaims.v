(** * Claims about everything together: annotated declarations and programs using their sets *)
From Verif Require Import Base Syntax Spec Derive EnumSet ApiSpec Impls CrateName HistorySpec History MultiSpec Multi.
From Verif Require Import Attrs AttrsSpec.
From Verif Require DeriveClaims MultiClaims AttrsClaims.

Lemma item_supported is_ident md pw lookup found std it g : pw = 32 \/ pw = 64 ->
  derive_item is_ident md pw lookup found std it = Ret (Ok g) ->
  exists o, Given (it_attributes it) o /\ Supported pw (declared it o) (g_type g).
Proof.
  intros Hpw H. destruct (AttrsClaims.item_generated _ _ _ _ _ _ _ _ H) as [(o & G & D) _].
  exists o. split; [exact G|]. exact (DeriveClaims.supported_32_64 md pw _ _ Hpw D).
Qed.

Lemma end_to_end is_ident md pw lookup found std its os n prog : pw = 32 \/ pw = 64 ->
  (forall e, (forall p f, ~ Fault (it_attributes (its e)) p f) /\ Given (it_attributes (its e)) (os e) /\
     reprs_fine (it_attributes (its e)) /\ WellFormed (declared (its e) (os e)) /\
     (forall s, op_crate_name (os e) = Some s -> is_ident s = true) /\
     (forall s, op_crate_name (os e) = None -> lookup = true -> found = FName s -> is_ident s = true)) ->
  mcalls pw (fun e => declared (its e) (os e)) n prog ->
  exists gs, (forall e, derive_item is_ident md pw lookup found std (its e) = Ret (Ok (gs e))) /\
    m_play (fun e => g_type (gs e)) n prog [] (m_init (fun e => g_type (gs e))) =
    am_play pw (fun e => declared (its e) (os e)) n prog [] (fun _ => a_init).
Proof.
  intros Hpw Hall Hcalls.
  assert (A : forall e, exists g, derive_item is_ident md pw lookup found std (its e) = Ret (Ok g)).
  { intros e. apply AttrsClaims.item_accepted. exists (os e). apply Hall. }
  destruct (A 0%nat) as [g0 _].
  exists (fun e => match derive_item is_ident md pw lookup found std (its e) with Ret (Ok g) => g | _ => g0 end).
  split. { intros e. destruct (A e) as [g ->]. reflexivity. }
  apply MultiClaims.multi_refines; [|exact Hcalls].
  intros e. destruct (A e) as [g Hg]. rewrite Hg.
  destruct (item_supported _ _ _ _ _ _ _ _ Hpw Hg) as (o & G & S).
  destruct (Hall e) as (_ & G' & _). rewrite (AttrsClaims.given_unique _ _ _ G' G). exact S.
Qed.

(** * Properties: annotated declarations and programs using their sets, C73 *)
From Coq Require Import Arith.
From Verif Require Import Base Repr Syntax Spec Derive EnumSet Macros Fmt Serde ApiSpec Examples Impls CrateName HistorySpec History MultiSpec Multi HistoryExamples ExtraExamples Attrs AttrsSpec AttrsExamples EndExamples.
From Verif Require EndClaims.

(** C73: what the macro generates is covered by all claims about sets *)
Theorem C73_item_supported is_ident md pw lookup found std it g : pw = 32 \/ pw = 64 ->
  derive_item is_ident md pw lookup found std it = Ret (Ok g) ->
  exists o, Given (it_attributes it) o /\ Supported pw (declared it o) (g_type g).
Proof. exact (EndClaims.item_supported is_ident md pw lookup found std it g). Qed.
Print Assumptions C73_item_supported.
Example C73_item_supported_example :
  summary (derive_item ascii_ident Release 64 true (FName "es") false (named_item "e2")) = Some ("e2", [TPrivate; TEnumSetType; TPartialEq; TEq; TClone; TCopy; TSub; TBitAnd; TBitOr; TBitXor; TNot; TPartialEqSet], [])%string.
Proof. vm_compute. reflexivity. Qed.

(** C73: acceptable declarations compile, and every program over their sets computes what it would with mathematical sets *)
Theorem C73_end_to_end is_ident md pw lookup found std its os n prog : pw = 32 \/ pw = 64 ->
  (forall e, (forall p f, ~ Fault (it_attributes (its e)) p f) /\ Given (it_attributes (its e)) (os e) /\
     reprs_fine (it_attributes (its e)) /\ WellFormed (declared (its e) (os e)) /\
     (forall s, op_crate_name (os e) = Some s -> is_ident s = true) /\
     (forall s, op_crate_name (os e) = None -> lookup = true -> found = FName s -> is_ident s = true)) ->
  mcalls pw (fun e => declared (its e) (os e)) n prog ->
  exists gs, (forall e, derive_item is_ident md pw lookup found std (its e) = Ret (Ok (gs e))) /\
    m_play (fun e => g_type (gs e)) n prog [] (m_init (fun e => g_type (gs e))) =
    am_play pw (fun e => declared (its e) (os e)) n prog [] (fun _ => a_init).
Proof. exact (EndClaims.end_to_end is_ident md pw lookup found std its os n prog). Qed.
Print Assumptions C73_end_to_end.
Example C73_end_to_end_example :
  (forall e, (forall p f, ~ Fault (it_attributes (two_items e)) p f) /\ Given (it_attributes (two_items e)) (two_options e)) /\
  (forall e, reprs_fine (it_attributes (two_items e))) /\
  (forall e, WellFormed (two_declared e)) /\
  (forall e, (forall s, op_crate_name (two_options e) = Some s -> ascii_ident s = true) /\ (forall s, op_crate_name (two_options e) = None -> true = true -> FName "es" = FName s -> ascii_ident s = true))%string /\
  mcalls 64 two_declared 20 tour /\
  am_play 64 two_declared 20 tour [] (fun _ => a_init) = ([MOut OUnit; MOut OUnit; MOut (OBool true); MClosurePanicked; MOut (OOptVariant (Some 2%nat)); MOut (OBool true); MOut (OVariants [2; 3; 0]%nat); MPanicked (PExpect "Bitset contains invalid variants."); MOut (ONum 3)], Ret tt).
Proof. split; [intros e; apply decoded_fine; apply two_given|]. split; [exact two_reprs|]. split; [exact two_well_formed|]. split; [exact two_names|]. split; [exact two_calls|vm_compute; reflexivity]. Qed.


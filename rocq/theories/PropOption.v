(** * Properties: the serialization options, C76 *)
From Coq Require Import Arith.
From Verif Require Import Base Repr Syntax Spec Derive EnumSet Macros Fmt Serde ApiSpec Examples Impls Names HistorySpec History HistoryExamples OptionSpec OptionExamples.
From Verif Require OptionClaims.

(** C76: which serialization options an accepted declaration may be given, and that they change nothing else in the generated implementation *)
Theorem C76_options_checked md pw inp T ser deny as_list as_map : derive md pw inp = Ret (Ok T) ->
  let inp' := with_serialization inp ser deny as_list as_map in
  let choice := (if as_list then Some "list" else if as_map then Some "map" else ser)%string in
  (forall s, ser = Some s -> ~ In s serialize_repr_names ->
     derive md pw inp' = Ret (Err (EInvalidSerdeRepr, SpSerializeRepr))) /\
  ((forall s, ser = Some s -> In s serialize_repr_names) -> ~ name_fits inp choice ->
     exists k, nth_error (discrs inp) k = Some (max_discr inp) /\ derive md pw inp' = Ret (Err (ESerdeSmall, SpVariant k))) /\
  ((forall s, ser = Some s -> In s serialize_repr_names) -> name_fits inp choice ->
     exists r, derive md pw inp' = Ret (Ok (reserialized T r deny))).
Proof. exact (OptionClaims.options_checked md pw inp T ser deny as_list as_map). Qed.
Print Assumptions C76_options_checked.
Example C76_options_checked_example :
  derive Debug 64 wide = Ret (Ok WideT) /\
  derive Debug 64 (with_serialization wide (Some "u24"%string) false true false) = Ret (Err (EInvalidSerdeRepr, SpSerializeRepr)) /\
  derive Debug 64 (with_serialization wide (Some "u64"%string) true false false) = Ret (Err (ESerdeSmall, SpVariant 0)) /\
  derive Debug 64 (with_serialization wide (Some "u64"%string) true false true) = Ret (Ok (reserialized WideT SMap true)) /\
  derive Debug 64 (with_serialization wide None true false false) = Ret (Ok (reserialized WideT SArray true)).
Proof. example. Qed.

(** C76: nor in what else is generated *)
Theorem C76_options_generated md inp i ser deny as_list as_map i' o : derive_info md inp = Ret (Ok i) ->
  derive_info md (with_serialization inp ser deny as_list as_map) = Ret (Ok i') ->
  generated_impls o i' = generated_impls o i /\ generated_uses false o i' = generated_uses false o i /\
  impl_blocks o i' = impl_blocks o i.
Proof. exact (OptionClaims.options_generated md inp i ser deny as_list as_map i' o). Qed.
Print Assumptions C76_options_generated.
Example C76_options_generated_example :
  succeeds (derive Debug 64 wide) = true /\
  succeeds (derive Debug 64 (with_serialization wide (Some "list"%string) false false false)) = true.
Proof. example. Qed.

(** C76: programs that do not serialize do not notice the options *)
Theorem C76_options_unseen pw inp T inp' T' n prog : Supported pw inp T -> Supported pw inp' T' ->
  discrs inp = discrs inp' -> storage_of inp = storage_of inp' ->
  calls pw inp (fun c => cmd_ok pw inp c /\ ~ uses_serde c) n prog ->
  play T n prog [] (c_init T) = play T' n prog [] (c_init T').
Proof. exact (OptionClaims.options_unseen pw inp T inp' T' n prog). Qed.
Print Assumptions C76_options_unseen.
Example C76_options_unseen_example :
  Supported 64 wide WideT /\
  Supported 64 listed ListedT /\
  discrs wide = discrs listed /\
  storage_of wide = storage_of listed /\
  serialize_name wide <> serialize_name listed /\
  calls 64 wide (fun c => cmd_ok 64 wide c /\ ~ uses_serde c) 20 digest /\
  play WideT 20 digest [] (c_init WideT) = (digest_output, Ret tt).
Proof. example. exact digest_ok. Qed.

(** C76: programs that do not deserialize do not notice [serialize_deny_unknown] *)
Theorem C76_denial_unseen pw inp T inp' T' n prog : Supported pw inp T -> Supported pw inp' T' ->
  discrs inp = discrs inp' -> storage_of inp = storage_of inp' -> serialize_name inp = serialize_name inp' ->
  serde_usable inp' ->
  calls pw inp (fun c => cmd_ok pw inp c /\ ~ deserializes c) n prog ->
  play T n prog [] (c_init T) = play T' n prog [] (c_init T').
Proof. exact (OptionClaims.denial_unseen pw inp T inp' T' n prog). Qed.
Print Assumptions C76_denial_unseen.
Example C76_denial_unseen_example :
  Supported 64 denying DenyingT /\
  Supported 64 small SmallT /\
  discrs denying = discrs small /\
  storage_of denying = storage_of small /\
  serialize_name denying = serialize_name small /\
  serde_usable small /\
  calls 64 denying (fun c => cmd_ok 64 denying c /\ ~ deserializes c) 20 save /\
  play DenyingT 20 save [] (c_init DenyingT) = ([OUnit; OBool true; ONum 65; OEvents [EvInt U8 65]], Ret tt).
Proof. example; [intros E; discriminate E|exact save_ok]. Qed.

(** C76: [serialize_deny_unknown] turns the inputs with unknown bits into errors, and nothing else *)
Theorem C76_denial_restricts pw inp T inp' T' src : Supported pw inp T -> Supported pw inp' T' ->
  discrs inp = discrs inp' -> serialize_name inp = serialize_name inp' ->
  at_deny_unknown (in_attrs inp) = true -> at_deny_unknown (in_attrs inp') = false ->
  serde_compiles T = true -> SourceOk pw inp src ->
  (exists s s' A, es_deserialize T src = Ret (Ok s) /\ es_deserialize T' src = Ret (Ok s') /\
     Denotes inp T s A /\ Denotes inp' T' s' A) \/
  (exists e, es_deserialize T src = Ret (Err e) /\ es_deserialize T' src = Ret (Err e)) \/
  (exists t x s', sr_ity (et_serde T) = Some t /\ src_int src t = Ok x /\ ~ only_variant_bits inp x /\
     es_deserialize T src = Ret (Err (DeCustom "enumset contains unknown bits")) /\
     es_deserialize T' src = Ret (Ok s') /\ Denotes inp' T' s' (bits_set inp x)).
Proof. exact (OptionClaims.denial_restricts pw inp T inp' T' src). Qed.
Print Assumptions C76_denial_restricts.
Example C76_denial_restricts_example :
  Supported 64 denying DenyingT /\
  Supported 64 small SmallT /\
  at_deny_unknown (in_attrs denying) = true /\
  at_deny_unknown (in_attrs small) = false /\
  es_deserialize DenyingT (source 0x41 [] [] []) = Ret (Ok denying_ac) /\
  es_deserialize SmallT (source 0x41 [] [] []) = Ret (Ok small_ac) /\
  es_deserialize DenyingT (source 0x43 [] [] []) = Ret (Err (DeCustom "enumset contains unknown bits")) /\
  es_deserialize SmallT (source 0x43 [] [] []) = Ret (Ok small_ac).
Proof. example. Qed.


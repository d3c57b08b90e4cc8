(** * Properties: serialization, C32-C36, C43 *)
From Coq Require Import Arith.
From Verif Require Import Base Repr Syntax Spec Derive EnumSet Macros Fmt Serde ApiSpec Examples.
From Verif Require Refutations SerdeClaims.

(** C32: integers: what is written, and reading it back *)
Theorem C32_int_format pw inp T s A t : Supported pw inp T -> Reachable pw inp T s -> Denotes inp T s A ->
  sr_ity (et_serde T) = Some t ->
  set_value inp A < 2 ^ ity_bits pw t /\
  (forall W (emit : sevent -> W -> bool * W) w, es_serialize T emit s w = Ret (emit (EvInt t (set_value inp A)) w)) /\
  (serde_compiles T = true -> forall src, src_int src t = Ok (set_value inp A) -> es_deserialize T src = Ret (Ok s)).
Proof. exact (SerdeClaims.int_format pw inp T s A t). Qed.
Print Assumptions C32_int_format.
Example C32_int_format_example :
  Supported 64 small SmallT /\
  Reachable 64 small SmallT small_ac /\
  Denotes small SmallT small_ac (among [0; 2]%nat) /\
  sr_ity (et_serde SmallT) = Some U8 /\
  serde_compiles SmallT = true /\
  es_serialize SmallT record_event small_ac [] = Ret (true, [EvInt U8 0x41]).
Proof. example. Qed.

(** C32: integers: any input *)
Theorem C32_int_input pw inp T t src : Supported pw inp T -> sr_ity (et_serde T) = Some t -> serde_compiles T = true ->
  match src_int src t with
  | Err e => es_deserialize T src = Ret (Err e)
  | Ok x => x < 2 ^ ity_bits pw t ->
      (et_deny_unknown T = true -> ~ only_variant_bits inp x ->
         es_deserialize T src = Ret (Err (DeCustom "enumset contains unknown bits"))) /\
      (et_deny_unknown T = false \/ only_variant_bits inp x ->
         exists s, es_deserialize T src = Ret (Ok s) /\ Denotes inp T s (bits_set inp x))
  end.
Proof. exact (SerdeClaims.int_input pw inp T t src). Qed.
Print Assumptions C32_int_input.
Example C32_int_input_example :
  Supported 64 denying DenyingT /\
  sr_ity (et_serde DenyingT) = Some U8 /\
  serde_compiles DenyingT = true /\
  es_deserialize DenyingT (source 0x43 [] [] []) = Ret (Err (DeCustom "enumset contains unknown bits")) /\
  es_deserialize DenyingT (source 0x41 [] [] []) = Ret (Ok denying_ac) /\
  es_deserialize SmallT (source 0x43 [] [] []) = Ret (Ok small_ac).
Proof. example. Qed.

(** C33: lists: what is written, and reading it back *)
Theorem C33_list_format pw inp T s A : Supported pw inp T -> Reachable pw inp T s -> Denotes inp T s A ->
  et_serde T = SList ->
  exists l, lists_set inp A l /\
    (forall W (emit : sevent -> W -> bool * W) w,
       es_serialize T emit s w = Ret (perform emit (EvSeq (set_size inp A) :: map EvElem l ++ [EvSeqEnd]) w)) /\
    (forall src, src_list src = Ok (map Ok l) -> es_deserialize T src = Ret (Ok s)).
Proof. exact (SerdeClaims.list_format pw inp T s A). Qed.
Print Assumptions C33_list_format.
Example C33_list_format_example :
  Supported 64 listed ListedT /\
  Reachable 64 listed ListedT listed_ac /\
  Denotes listed ListedT listed_ac (among [0; 2]%nat) /\
  et_serde ListedT = SList /\
  es_serialize ListedT record_event listed_ac [] = Ret (true, [EvSeq 2; EvElem 2; EvElem 0; EvSeqEnd]).
Proof. example. Qed.

(** C33: lists: any input *)
Theorem C33_list_input pw inp T src : Supported pw inp T -> SourceOk pw inp src -> et_serde T = SList ->
  match src_list src with
  | Err e => es_deserialize T src = Ret (Err e)
  | Ok items =>
      match all_ok items with
      | Err e => es_deserialize T src = Ret (Err e)
      | Ok vs => exists s, es_deserialize T src = Ret (Ok s) /\ Denotes inp T s (fun v => existsb (Nat.eqb v) vs)
      end
  end.
Proof. exact (SerdeClaims.list_input pw inp T src). Qed.
Print Assumptions C33_list_input.
Example C33_list_input_example :
  Supported 64 listed ListedT /\
  et_serde ListedT = SList /\
  es_deserialize ListedT (source 0 [Ok 2; Ok 0; Ok 2] [] [])%nat = Ret (Ok listed_ac) /\
  es_deserialize ListedT (source 0 [Ok 2; Err (DeInput 7)] [] [])%nat = Ret (Err (DeInput 7)).
Proof. example. Qed.

(** C34: maps: what is written, and reading it back *)
Theorem C34_map_format pw inp T s A : Supported pw inp T -> Reachable pw inp T s -> Denotes inp T s A ->
  et_serde T = SMap ->
  exists l, lists_set inp A l /\
    (forall W (emit : sevent -> W -> bool * W) w,
       es_serialize T emit s w = Ret (perform emit (EvMap (set_size inp A) :: map (fun v => EvEntry v true) l ++ [EvMapEnd]) w)) /\
    (forall src, src_map src = Ok (map (fun v => Ok (v, true)) l) -> es_deserialize T src = Ret (Ok s)).
Proof. exact (SerdeClaims.map_format pw inp T s A). Qed.
Print Assumptions C34_map_format.
Example C34_map_format_example :
  Supported 64 mapped MappedT /\
  Reachable 64 mapped MappedT mapped_ac /\
  Denotes mapped MappedT mapped_ac (among [0; 2]%nat) /\
  et_serde MappedT = SMap /\
  es_serialize MappedT record_event mapped_ac [] = Ret (true, [EvMap 2; EvEntry 2 true; EvEntry 0 true; EvMapEnd]).
Proof. example. Qed.

(** C34: maps: any input *)
Theorem C34_map_input pw inp T src : Supported pw inp T -> SourceOk pw inp src -> et_serde T = SMap ->
  match src_map src with
  | Err e => es_deserialize T src = Ret (Err e)
  | Ok items =>
      match all_ok items with
      | Err e => es_deserialize T src = Ret (Err e)
      | Ok es => exists s, es_deserialize T src = Ret (Ok s) /\
                   Denotes inp T s (fun v => existsb (fun e => Nat.eqb v (fst e) && snd e) es)
      end
  end.
Proof. exact (SerdeClaims.map_input pw inp T src). Qed.
Print Assumptions C34_map_input.
Example C34_map_input_example :
  Supported 64 mapped MappedT /\
  et_serde MappedT = SMap /\
  es_deserialize MappedT (source 0 [] [Ok (2, true); Ok (0, true); Ok (2, false); Ok (1, false)] [])%nat = Ret (Ok mapped_ac).
Proof. example. Qed.

(** C35: arrays: what is written, and reading it back *)
Theorem C35_array_format pw inp T s A : Supported pw inp T -> Reachable pw inp T s -> Denotes inp T s A ->
  et_serde T = SArray ->
  exists ws, words_hold inp ws A (64 * N.of_nat (length ws)) /\
    (forall v, variant inp v -> A v = true -> discr inp v < 64 * N.of_nat (length ws)) /\
    N.of_nat (length ws) = words_written inp A /\
    (forall W (emit : sevent -> W -> bool * W) w,
       es_serialize T emit s w = Ret (perform emit (EvSeq (N.of_nat (length ws)) :: map EvLimb ws ++ [EvSeqEnd]) w)) /\
    (forall src, src_words src = Ok (map Ok ws) -> es_deserialize T src = Ret (Ok s)).
Proof. exact (SerdeClaims.array_format pw inp T s A). Qed.
Print Assumptions C35_array_format.
Example C35_array_format_example :
  Supported 64 wide WideT /\
  Reachable 64 wide WideT wide_ac /\
  Denotes wide WideT wide_ac (among [0; 2]%nat) /\
  et_serde WideT = SArray /\
  es_serialize WideT record_event wide_bc [] = Ret (true, [EvSeq 3; EvLimb 8; EvLimb 0x40; EvLimb 0; EvSeqEnd]).
Proof. example. Qed.

(** C35: unknown bits are not ignored: the code panics *)
Theorem C35_unknown_words_ignored_refuted :
  exists pw inp T src ws, Supported pw inp T /\ serde_compiles T = true /\ SourceOk pw inp src /\
    et_serde T = SArray /\ et_deny_unknown T = false /\ src_words src = Ok (map Ok ws) /\
    ~ exists s, es_deserialize T src = Ret (Ok s) /\ Denotes inp T s (fun v => word_bit ws (discr inp v)).
Proof. exact Refutations.unknown_words_ignored_refuted. Qed.
Print Assumptions C35_unknown_words_ignored_refuted.

(** C44: arrays: any input *)
Theorem C44_array_input pw inp T src : Supported pw inp T -> SourceOk pw inp src -> et_serde T = SArray ->
  match src_words src with
  | Err e => es_deserialize T src = Ret (Err e)
  | Ok items =>
      match all_ok items with
      | Err e => es_deserialize T src = Ret (Err e)
      | Ok ws =>
          let used := firstn (N.to_nat (storage_words (storage_of inp))) ws in
          (only_variant_words inp used ->
             exists s, es_deserialize T src = Ret (Ok s) /\ Denotes inp T s (fun v => word_bit ws (discr inp v))) /\
          (~ only_variant_words inp used ->
             es_deserialize T src = Panic (PExpect "Bitset contains invalid variants."))
      end
  end.
Proof. exact (SerdeClaims.array_input pw inp T src). Qed.
Print Assumptions C44_array_input.
Example C44_array_input_example :
  Supported 64 wide WideT /\
  et_serde WideT = SArray /\
  es_deserialize WideT (source 0 [] [] [Ok 8; Ok 0x40; Ok 0; Ok 0; Ok 77]) = Ret (Ok wide_bc) /\
  es_deserialize WideT (source 0 [] [] [Ok 9]) = Panic (PExpect "Bitset contains invalid variants.").
Proof. example. Qed.

(** C36: only valid sets are deserialized *)
Theorem C36_deserialized_valid pw inp T src s : Supported pw inp T -> serde_compiles T = true -> SourceOk pw inp src ->
  es_deserialize T src = Ret (Ok s) ->
  (forall i, i < r_width (et_repr T) -> r_has_bit (et_repr T) s i = Ret true -> exists v, variant inp v /\ discr inp v = i) /\
  exists A, Denotes inp T s A /\ es_len T s = Ret (set_size inp A).
Proof. exact (SerdeClaims.deserialized_valid pw inp T src s). Qed.
Print Assumptions C36_deserialized_valid.
Example C36_deserialized_valid_example :
  Supported 64 wide WideT /\
  serde_compiles WideT = true /\
  SourceOk 64 wide wide_source /\
  es_deserialize WideT wide_source = Ret (Ok wide_bc).
Proof. example. Qed.

(** C36: they are sets that the safe API can produce *)
Theorem C36_deserialized_reachable pw inp T src s : Supported pw inp T -> serde_compiles T = true -> SourceOk pw inp src ->
  es_deserialize T src = Ret (Ok s) -> Reachable pw inp T s.
Proof. exact (SerdeClaims.deserialized_reachable pw inp T src s). Qed.
Print Assumptions C36_deserialized_reachable.
Example C36_deserialized_reachable_example :
  Supported 64 wide WideT /\
  serde_compiles WideT = true /\
  SourceOk 64 wide wide_source /\
  es_deserialize WideT wide_source = Ret (Ok wide_bc).
Proof. example. Qed.

(** C36: apart from the panic of the array format, deserialization always returns *)
Theorem C36_deserialize_returns pw inp T src : Supported pw inp T -> serde_compiles T = true -> SourceOk pw inp src ->
  (exists r, es_deserialize T src = Ret r) \/
  (et_serde T = SArray /\ es_deserialize T src = Panic (PExpect "Bitset contains invalid variants.")).
Proof. exact (SerdeClaims.deserialize_returns pw inp T src). Qed.
Print Assumptions C36_deserialize_returns.
Example C36_deserialize_returns_example :
  Supported 64 wide WideT /\
  serde_compiles WideT = true /\
  SourceOk 64 wide wide_source /\
  es_deserialize WideT wide_source = Ret (Ok wide_bc).
Proof. example. Qed.

(** C43: when the generated code does not compile *)
Theorem C43_compiles md pw inp T : derive md pw inp = Ret (Ok T) ->
  (serde_compiles T = false <->
   at_deny_unknown (in_attrs inp) = true /\
   (serialize_name inp = "array"%string \/
    ((exists b, name_bits (serialize_name inp) = Some b) /\ exists n, storage_of inp = SWords n))).
Proof. exact (SerdeClaims.compiles md pw inp T). Qed.
Print Assumptions C43_compiles.
Example C43_compiles_example :
  derive Debug 64 small = Ret (Ok SmallT) /\
  serde_compiles SmallT = true /\
  serde_compiles (derived (derive Debug 64 (enum_of (MkAttrs None None true false false) wide_variants))) = false.
Proof. example. Qed.

(** C43: the same with the traits the code needs *)
Theorem C43_accepted md pw inp T has_ser has_de : derive md pw inp = Ret (Ok T) ->
  (serde_accepted has_ser has_de T = false <->
   (at_deny_unknown (in_attrs inp) = true /\
    (serialize_name inp = "array"%string \/
     ((exists b, name_bits (serialize_name inp) = Some b) /\ exists n, storage_of inp = SWords n))) \/
   (In (serialize_name inp) ["list"; "map"]%string /\ (has_ser = false \/ has_de = false))).
Proof. exact (SerdeClaims.accepted md pw inp T has_ser has_de). Qed.
Print Assumptions C43_accepted.
Example C43_accepted_example :
  derive Debug 64 listed = Ret (Ok ListedT) /\
  serialize_name listed = "list"%string /\
  serde_accepted true true ListedT = true /\
  serde_accepted true false ListedT = false /\
  serde_accepted false false SmallT = true.
Proof. example. Qed.

(** C43: the integer literals of the generated code fit their types *)
Theorem C43_literals_fit md pw inp T : derive md pw inp = Ret (Ok T) ->
  (forall lit, et_all_lit T = Some lit ->
     (forall i, N.testbit lit i = true <-> In i (discrs inp)) /\
     lit < 2 ^ r_width (et_repr T) /\
     (forall t, sr_ity (et_serde T) = Some t -> lit < 2 ^ ity_bits pw t)) /\
  (forall name value, In (name, value) (et_variants T) -> value < 2 ^ 32) /\
  NoDup (map snd (et_variants T)) /\
  es_bit_width T < 2 ^ 32.
Proof. exact (SerdeClaims.literals_fit md pw inp T). Qed.
Print Assumptions C43_literals_fit.
Example C43_literals_fit_example :
  derive Debug 64 small = Ret (Ok SmallT) /\
  et_all_lit SmallT = Some 0x61 /\
  sr_ity (et_serde SmallT) = Some U8.
Proof. example. Qed.


(** * Properties: what serialization writes, C63-C64, C71 *)
From Coq Require Import Arith.
From Verif Require Import Base Repr Syntax Spec Derive EnumSet Macros Fmt Serde ApiSpec Examples WireSpec Bincode Json JsonSpec ExtraExamples.
From Verif Require BincodeClaims JsonClaims WireClaims.

(** C63: different sets are written differently, and the end of what is written can be recognised *)
Theorem C63_self_delimiting pw inp T s s' : Supported pw inp T -> Reachable pw inp T s -> Reachable pw inp T s' ->
  exists es es', Writes T s es /\ Writes T s' es' /\
    (s = s' -> es = es') /\
    (forall rest rest', es ++ rest = es' ++ rest' -> s = s' /\ rest = rest').
Proof. exact (WireClaims.self_delimiting pw inp T s s'). Qed.
Print Assumptions C63_self_delimiting.
Example C63_self_delimiting_example :
  Supported 64 listed ListedT /\
  Reachable 64 listed ListedT listed_ac /\
  es_serialize ListedT record_event listed_ac [] = Ret (true, [EvSeq 2; EvElem 2; EvElem 0; EvSeqEnd]) /\
  Supported 64 wide WideT /\
  Reachable 64 wide WideT wide_ac /\
  Reachable 64 wide WideT wide_bc /\
  es_serialize WideT record_event wide_ac [] = Ret (true, [EvSeq 4; EvLimb 0; EvLimb 0x40; EvLimb 0; EvLimb 0x100; EvSeqEnd]) /\
  es_serialize WideT record_event wide_bc [] = Ret (true, [EvSeq 3; EvLimb 8; EvLimb 0x40; EvLimb 0; EvSeqEnd]).
Proof. example. Qed.

(** C64: the bytes bincode writes; they are read back, and what is cut off is noticed *)
Theorem C64_bincode_format pw inp T s A : Supported pw inp T -> Reachable pw inp T s -> Denotes inp T s A ->
  exists bytes, bin_serialize T s = Ret (true, bytes) /\ bincode_layout inp (et_serde T) A bytes /\
    (serde_compiles T = true ->
       (forall rest, bin_deserialize T (bytes ++ rest) = Ret (Ok s)) /\
       (forall part rest, bytes = part ++ rest -> rest <> [] -> bin_deserialize T part = Ret (Err bin_eof))).
Proof. exact (WireClaims.bincode_format pw inp T s A). Qed.
Print Assumptions C64_bincode_format.
Example C64_bincode_format_example :
  Supported 64 listed ListedT /\
  Reachable 64 listed ListedT listed_ac /\
  Denotes listed ListedT listed_ac (among [0; 2]%nat) /\
  serde_compiles ListedT = true /\
  bin_serialize ListedT listed_ac = Ret (true, [2; 0; 0; 0; 0; 0; 0; 0; 2; 0; 0; 0; 0; 0; 0; 0]) /\
  bin_deserialize ListedT [2; 0; 0; 0; 0; 0; 0; 0; 2; 0; 0; 0; 0; 0; 0; 0; 9] = Ret (Ok listed_ac) /\
  bin_deserialize ListedT [2; 0; 0; 0; 0; 0; 0; 0; 2; 0; 0; 0; 0; 0] = Ret (Err bin_eof) /\
  bin_serialize SmallT small_ac = Ret (true, [0x41]) /\
  bin_serialize MappedT mapped_ac = Ret (true, [2; 0; 0; 0; 0; 0; 0; 0; 2; 0; 0; 0; 1; 0; 0; 0; 0; 1]) /\
  bin_serialize WideT wide_bc = Ret (true, [3; 0; 0; 0; 0; 0; 0; 0; 8; 0; 0; 0; 0; 0; 0; 0; 0x40; 0; 0; 0; 0; 0; 0; 0; 0; 0; 0; 0; 0; 0; 0; 0]).
Proof. example. Qed.

(** C64: any bytes at all *)
Theorem C64_bincode_input pw inp T input : Supported pw inp T -> serde_compiles T = true -> bytes_ok input ->
  (exists e, bin_deserialize T input = Ret (Err e)) \/
  (exists s, bin_deserialize T input = Ret (Ok s) /\ Reachable pw inp T s) \/
  (et_serde T = SArray /\ bin_deserialize T input = Panic (PExpect "Bitset contains invalid variants.")).
Proof. exact (WireClaims.bincode_input pw inp T input). Qed.
Print Assumptions C64_bincode_input.
Example C64_bincode_input_example :
  Supported 64 wide WideT /\
  serde_compiles WideT = true /\
  bin_deserialize WideT [0xFF; 0xFF; 0; 0; 0; 0; 0; 0; 8] = Ret (Err bin_eof) /\
  bin_deserialize WideT [1; 0; 0; 0; 0; 0; 0; 0; 1; 0; 0; 0; 0; 0; 0; 0] = Panic (PExpect "Bitset contains invalid variants.") /\
  bin_deserialize WideT [1; 0; 0; 0; 0; 0; 0; 0; 8; 0; 0; 0; 0; 0; 0; 0] = Ret (Ok [8; 0; 0; 0]) /\
  bin_deserialize ListedT [1; 0; 0; 0; 0; 0; 0; 0; 7; 0; 0; 0] = Ret (Err bin_bad_index) /\
  bytes_ok [1; 0; 0; 0; 0; 0; 0; 0; 8; 0; 0; 0; 0; 0; 0; 0].
Proof. example; repeat constructor. Qed.

(** C64: exactly the bytes that are read as a set *)
Theorem C64_bincode_accepted pw inp T input s : Supported pw inp T -> serde_compiles T = true -> bytes_ok input ->
  (bin_deserialize T input = Ret (Ok s) <->
   Reachable pw inp T s /\
   exists A used rest, input = used ++ rest /\ bincode_stands pw inp (et_serde T) (et_deny_unknown T) used A /\ Denotes inp T s A).
Proof. exact (BincodeClaims.bincode_accepted pw inp T input s). Qed.
Print Assumptions C64_bincode_accepted.
Example C64_bincode_accepted_example :
  Supported 64 listed ListedT /\
  serde_compiles ListedT = true /\
  et_serde ListedT = SList /\
  et_deny_unknown ListedT = false /\
  bytes_ok (cac_bytes ++ [77; 5]) /\
  Reachable 64 listed ListedT listed_ac /\
  bincode_stands 64 listed SList false cac_bytes (among [0; 2]%nat) /\
  Denotes listed ListedT listed_ac (among [0; 2]%nat) /\
  bin_deserialize ListedT (cac_bytes ++ [77; 5]) = Ret (Ok listed_ac) /\
  bin_deserialize MappedT [2; 0; 0; 0; 0; 0; 0; 0; 2; 0; 0; 0; 1; 0; 0; 0; 0; 0] = Ret (Ok [0; 0x40; 0; 0]) /\
  bin_deserialize MappedT [1; 0; 0; 0; 0; 0; 0; 0; 2; 0; 0; 0; 2] = Ret (Err bin_bad_bool).
Proof. example; repeat constructor. Qed.

(** C64: exactly the bytes on which reading panics *)
Theorem C64_bincode_panics pw inp T input m : Supported pw inp T -> serde_compiles T = true -> bytes_ok input ->
  (bin_deserialize T input = Panic m <->
   m = PExpect "Bitset contains invalid variants." /\ et_serde T = SArray /\
   exists ws count items rest, input = count ++ concat items ++ rest /\ N.of_nat (length ws) < 2 ^ pw /\
     little_endian 8 (N.of_nat (length ws)) count /\ Forall2 (little_endian 8) ws items /\
     ~ only_variant_words inp (firstn (N.to_nat (storage_words (storage_of inp))) ws)).
Proof. exact (BincodeClaims.bincode_panics pw inp T input m). Qed.
Print Assumptions C64_bincode_panics.
Example C64_bincode_panics_example :
  Supported 64 wide WideT /\
  serde_compiles WideT = true /\
  et_serde WideT = SArray /\
  bytes_ok ([1; 0; 0; 0; 0; 0; 0; 0] ++ concat [[1; 0; 0; 0; 0; 0; 0; 0]] ++ [7]) /\
  little_endian 8 1 [1; 0; 0; 0; 0; 0; 0; 0] /\
  Forall2 (little_endian 8) [1] [[1; 0; 0; 0; 0; 0; 0; 0]] /\
  ~ only_variant_words wide (firstn (N.to_nat (storage_words (storage_of wide))) [1]) /\
  bin_deserialize WideT ([1; 0; 0; 0; 0; 0; 0; 0] ++ concat [[1; 0; 0; 0; 0; 0; 0; 0]] ++ [7]) = Panic (PExpect "Bitset contains invalid variants.").
Proof. example; repeat constructor. Qed.

(** C71: the text serde_json writes; with white space added anywhere between its tokens it is read back *)
Theorem C71_json_format pw inp T names unescape s A : Supported pw inp T -> Reachable pw inp T s -> Denotes inp T s A ->
  Names inp names -> Unescapes unescape ->
  exists ts, json_serialize names T s = Ret (true, unspaced ts) /\ json_layout inp names (et_serde T) A ts /\
    (serde_compiles T = true -> forall text, spaced ts text -> json_deserialize names unescape T text = Ret (Ok s)).
Proof. exact (JsonClaims.json_format pw inp T names unescape s A). Qed.
Print Assumptions C71_json_format.
Example C71_json_format_example :
  Supported 64 listed ListedT /\
  Reachable 64 listed ListedT listed_ac /\
  Denotes listed ListedT listed_ac (among [0; 2]%nat) /\
  Names listed abcd /\
  Unescapes escapes /\
  json_serialize abcd ListedT listed_ac = Ret (true, "[""C"",""A""]"%string) /\
  json_deserialize abcd escapes ListedT " [ ""C"" , ""A""]" = Ret (Ok listed_ac) /\
  json_serialize abcd MappedT mapped_ac = Ret (true, "{""C"":true,""A"":true}"%string) /\
  json_serialize abc SmallT small_ac = Ret (true, "65"%string) /\
  json_serialize abcd WideT wide_bc = Ret (true, "[8,64,0]"%string).
Proof. example. Qed.

(** C71: reading a number *)
Theorem C71_json_int pw inp T names unescape t x text : Supported pw inp T ->
  sr_ity (et_serde T) = Some t -> serde_compiles T = true -> spaced [decimal x] text ->
  (2 ^ ity_bits pw t <= x -> exists e, json_deserialize names unescape T text = Ret (Err e)) /\
  (x < 2 ^ ity_bits pw t -> et_deny_unknown T = true -> ~ only_variant_bits inp x ->
     json_deserialize names unescape T text = Ret (Err (DeCustom "enumset contains unknown bits"))) /\
  (x < 2 ^ ity_bits pw t -> et_deny_unknown T = false \/ only_variant_bits inp x ->
     exists s, json_deserialize names unescape T text = Ret (Ok s) /\ Denotes inp T s (bits_set inp x)).
Proof. exact (JsonClaims.json_int pw inp T names unescape t x text). Qed.
Print Assumptions C71_json_int.
Example C71_json_int_example :
  Supported 64 small SmallT /\
  Names small abc /\
  sr_ity (et_serde SmallT) = Some U8 /\
  serde_compiles SmallT = true /\
  spaced [decimal 65] number_65 /\
  json_deserialize abc escapes SmallT number_65 = Ret (Ok small_ac) /\
  json_deserialize abc escapes SmallT "67" = Ret (Ok small_ac) /\
  json_deserialize abc escapes DenyingT "67" = Ret (Err (DeCustom "enumset contains unknown bits")) /\
  json_deserialize abc escapes SmallT "300" = Ret (Err json_error).
Proof. example. Qed.

(** C71: reading a list of names, in any order, with repetitions, each as a string or as an object *)
Theorem C71_json_list pw inp T names unescape vs items text : Supported pw inp T -> Names inp names ->
  et_serde T = SList -> Forall2 (fun v ts => variant inp v /\ element_text unescape names v ts) vs items ->
  spaced (array_tokens items) text ->
  exists s, json_deserialize names unescape T text = Ret (Ok s) /\ Denotes inp T s (fun v => existsb (Nat.eqb v) vs).
Proof. exact (JsonClaims.json_list pw inp T names unescape vs items text). Qed.
Print Assumptions C71_json_list.
Example C71_json_list_example :
  Supported 64 listed ListedT /\
  Names listed abcd /\
  et_serde ListedT = SList /\
  Forall2 (fun v ts => variant listed v /\ element_text escapes abcd v ts) [2; 0; 2]%nat c_a_c_items /\
  spaced (array_tokens c_a_c_items) c_a_c /\
  json_deserialize abcd escapes ListedT c_a_c = Ret (Ok listed_ac).
Proof. split; [auto with ex|]. split; [auto with ex|]. split; [reflexivity|]. split; [exact c_a_c_elements|]. split; [auto with ex|]. vm_compute; reflexivity. Qed.

(** C71: reading a map; what is mapped to [false] is left out *)
Theorem C71_json_map pw inp T names unescape es items text : Supported pw inp T -> Names inp names ->
  et_serde T = SMap -> Forall2 (fun e ts => variant inp (fst e) /\ entry_text unescape names e ts) es items ->
  spaced (object_tokens items) text ->
  exists s, json_deserialize names unescape T text = Ret (Ok s) /\
    Denotes inp T s (fun v => existsb (fun e => Nat.eqb v (fst e) && snd e) es).
Proof. exact (JsonClaims.json_map pw inp T names unescape es items text). Qed.
Print Assumptions C71_json_map.
Example C71_json_map_example :
  Supported 64 mapped MappedT /\
  Names mapped abcd /\
  et_serde MappedT = SMap /\
  Forall2 (fun e ts => variant mapped (fst e) /\ entry_text escapes abcd e ts) [(0, true); (2, false)]%nat a_not_c_items /\
  spaced (object_tokens a_not_c_items) a_not_c /\
  json_deserialize abcd escapes MappedT a_not_c = Ret (Ok [0; 0; 0; 0x100]).
Proof. example. Qed.

(** C71: reading an array of words *)
Theorem C71_json_array pw inp T names unescape ws text : Supported pw inp T -> Names inp names ->
  et_serde T = SArray -> spaced (array_tokens (map (fun w => [decimal w]) ws)) text ->
  let used := firstn (N.to_nat (storage_words (storage_of inp))) ws in
  (~ words_ok ws -> exists e, json_deserialize names unescape T text = Ret (Err e)) /\
  (words_ok ws -> only_variant_words inp used ->
     exists s, json_deserialize names unescape T text = Ret (Ok s) /\ Denotes inp T s (fun v => word_bit ws (discr inp v))) /\
  (words_ok ws -> ~ only_variant_words inp used ->
     json_deserialize names unescape T text = Panic (PExpect "Bitset contains invalid variants.")).
Proof. exact (JsonClaims.json_array pw inp T names unescape ws text). Qed.
Print Assumptions C71_json_array.
Example C71_json_array_example :
  Supported 64 wide WideT /\
  Names wide abcd /\
  et_serde WideT = SArray /\
  spaced (array_tokens (map (fun w => [decimal w]) [8; 64])) words_8_64 /\
  firstn (N.to_nat (storage_words (storage_of wide))) [8; 64] = [8; 64] /\
  only_variant_words wide [8; 64] /\
  words_ok [8; 64] /\
  json_deserialize abcd escapes WideT words_8_64 = Ret (Ok wide_bc) /\
  json_deserialize abcd escapes WideT "[1]" = Panic (PExpect "Bitset contains invalid variants.") /\
  json_deserialize abcd escapes WideT "[18446744073709551616]" = Ret (Err json_error).
Proof. example; repeat constructor. Qed.

(** C71: any text at all *)
Theorem C71_json_any pw inp T names unescape text : Supported pw inp T -> Names inp names -> serde_compiles T = true ->
  (exists e, json_deserialize names unescape T text = Ret (Err e)) \/
  (exists s, json_deserialize names unescape T text = Ret (Ok s) /\ Reachable pw inp T s) \/
  (et_serde T = SArray /\ json_deserialize names unescape T text = Panic (PExpect "Bitset contains invalid variants.")).
Proof. exact (JsonClaims.json_any pw inp T names unescape text). Qed.
Print Assumptions C71_json_any.
Example C71_json_any_example :
  Supported 64 wide WideT /\
  Names wide abcd /\
  serde_compiles WideT = true /\
  json_deserialize abcd escapes WideT "[8" = Ret (Err json_error) /\
  json_deserialize abcd escapes WideT "[8,]" = Ret (Err json_error) /\
  json_deserialize abcd escapes ListedT "[""E""]" = Ret (Err json_error) /\
  json_deserialize abcd escapes WideT "[8] x" = Ret (Err json_error).
Proof. example. Qed.

(** C71: exactly the texts that are read as a set *)
Theorem C71_json_accepted pw inp T names unescape text s : Supported pw inp T -> Names inp names -> serde_compiles T = true ->
  (json_deserialize names unescape T text = Ret (Ok s) <->
   Reachable pw inp T s /\
   exists A, json_stands pw inp names unescape (et_serde T) (et_deny_unknown T) text A /\ Denotes inp T s A).
Proof. exact (JsonClaims.json_accepted pw inp T names unescape text s). Qed.
Print Assumptions C71_json_accepted.
Example C71_json_accepted_example :
  Supported 64 listed ListedT /\
  Names listed abcd /\
  serde_compiles ListedT = true /\
  et_serde ListedT = SList /\
  et_deny_unknown ListedT = false /\
  Reachable 64 listed ListedT listed_ac /\
  json_stands 64 listed abcd escapes SList false c_a_c (among [0; 2]%nat) /\
  Denotes listed ListedT listed_ac (among [0; 2]%nat) /\
  json_deserialize abcd escapes ListedT c_a_c = Ret (Ok listed_ac) /\
  json_deserialize abcd escapes ListedT "[""C"",]" = Ret (Err json_error) /\
  json_deserialize abcd escapes ListedT "[""C"";""A""]" = Ret (Err json_error) /\
  json_deserialize abc escapes SmallT "6/" = Ret (Err json_error) /\
  json_deserialize abc escapes SmallT "065" = Ret (Err json_error) /\
  json_deserialize abc escapes SmallT "65.0" = Ret (Err json_error).
Proof. example. Qed.

(** C71: exactly the texts on which reading panics *)
Theorem C71_json_panics pw inp T names unescape text m : Supported pw inp T -> Names inp names -> serde_compiles T = true ->
  (json_deserialize names unescape T text = Panic m <->
   m = PExpect "Bitset contains invalid variants." /\ et_serde T = SArray /\
   exists ws text1 text2, text = (text1 ++ text2)%string /\ words_ok ws /\
     spaced (array_tokens (map (fun w => [decimal w]) ws)) text1 /\
     ~ only_variant_words inp (firstn (N.to_nat (storage_words (storage_of inp))) ws)).
Proof. exact (JsonClaims.json_panics pw inp T names unescape text m). Qed.
Print Assumptions C71_json_panics.
Example C71_json_panics_example :
  Supported 64 wide WideT /\
  Names wide abcd /\
  serde_compiles WideT = true /\
  et_serde WideT = SArray /\
  words_ok [1] /\
  spaced (array_tokens (map (fun w => [decimal w]) [1])) words_1 /\
  ~ only_variant_words wide (firstn (N.to_nat (storage_words (storage_of wide))) [1]) /\
  json_deserialize abcd escapes WideT (words_1 ++ " and more")%string = Panic (PExpect "Bitset contains invalid variants.").
Proof. example; repeat constructor. Qed.


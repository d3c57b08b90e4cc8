(** * Properties: macro syntax, all sets of an enum, enums that change, impls, C25, C44, C46-C54 *)
From Coq Require Import Arith.
From Verif Require Import Base Repr Syntax Spec Derive EnumSet Macros Fmt Serde ApiSpec Examples MacroRules MacroRulesSpec Impls ExtraSpec ExtraExamples.
From Verif Require EvolveClaims ExtraClaims ImplClaims MoreClaims RulesClaims.

(** C46: what [enum_set!] accepts and computes *)
Theorem C46_enum_set_syntax T env toks r :
  invoke T env MEnumSet toks = Some r <->
  exists ps k, toks = paths_by TBar ps ++ repeat TBar k /\ r = mc_enum_set T (map env ps).
Proof. exact (RulesClaims.enum_set_syntax T env toks r). Qed.
Print Assumptions C46_enum_set_syntax.
Example C46_enum_set_syntax_example :
  invoke SmallT (variant_paths SmallT) MEnumSet [TPath 2; TBar; TPath 0; TBar; TBar]%nat = Some (Ret small_ac) /\
  invoke SmallT (variant_paths SmallT) MEnumSet [TBar; TBar] = Some (Ret 0) /\
  invoke SmallT (variant_paths SmallT) MEnumSet [TPath 2; TBar; TBar; TPath 0]%nat = None /\
  invoke SmallT (variant_paths SmallT) MEnumSet [TBar; TPath 0]%nat = None.
Proof. repeat split; reflexivity. Qed.

(** C46: what the comma-separated macros accept and compute *)
Theorem C46_fold_syntax T env m f toks r : fold_macro T m = Some f ->
  (invoke T env m toks = Some r <->
   exists p ps k, toks = paths_by TComma (p :: ps) ++ repeat TComma k /\
     (k <= 1 \/ ps = [] /\ k = 2)%nat /\ r = f (env p) (map env ps)).
Proof. exact (RulesClaims.fold_syntax T env m f toks r). Qed.
Print Assumptions C46_fold_syntax.
Example C46_fold_syntax_example :
  fold_macro SmallT MDifference = Some (mc_difference SmallT) /\
  invoke SmallT (variant_paths SmallT) MDifference [TPath 2; TComma; TPath 0; TComma]%nat = Some (Ret 0x40) /\
  invoke SmallT (variant_paths SmallT) MUnion [TPath 2; TComma; TComma]%nat = Some (Ret 0x40) /\
  invoke SmallT (variant_paths SmallT) MUnion [TPath 2; TComma; TPath 0; TComma; TComma]%nat = None /\
  invoke SmallT (variant_paths SmallT) MUnion [] = None.
Proof. repeat split; reflexivity. Qed.

(** C46: what [enum_set_complement!] accepts and computes *)
Theorem C46_complement_syntax T env toks r :
  invoke T env MComplement toks = Some r <->
  exists p k, toks = TPath p :: repeat TComma k /\ (k <= 1)%nat /\ r = mc_complement T (env p).
Proof. exact (RulesClaims.complement_syntax T env toks r). Qed.
Print Assumptions C46_complement_syntax.
Example C46_complement_syntax_example :
  invoke SmallT (variant_paths SmallT) MComplement [TPath 1; TComma]%nat = Some (Ret small_ac) /\
  invoke SmallT (variant_paths SmallT) MComplement [TPath 1; TComma; TPath 0]%nat = None.
Proof. repeat split; reflexivity. Qed.

(** C46: the members of an [enum_set!] literal *)
Theorem C46_enum_set_literal pw inp T env envs ps k : Supported pw inp T ->
  (forall p, In p ps -> OpDenotes inp T (Reachable pw inp T) (env p) (envs p)) ->
  exists m, invoke T env MEnumSet (paths_by TBar ps ++ repeat TBar k) = Some m /\
            Returns inp T m (fun v => existsb (fun p => envs p v) ps).
Proof. exact (RulesClaims.enum_set_literal pw inp T env envs ps k). Qed.
Print Assumptions C46_enum_set_literal.
Example C46_enum_set_literal_example :
  Supported 64 small SmallT /\
  (forall p, In p [2; 0]%nat -> OpDenotes small SmallT (Reachable 64 small SmallT) (variant_paths SmallT p) (among [p])) /\
  invoke SmallT (variant_paths SmallT) MEnumSet (paths_by TBar [2; 0]%nat ++ repeat TBar 1) = Some (Ret small_ac).
Proof. split; [auto with ex|]. split; [|reflexivity]. intros p [<-|[<-|[]]]; (split; [vm_compute; lia|all_variants]). Qed.

(** C46: the members of the results of the comma-separated macros *)
Theorem C46_fold_literal pw inp T env envs m g p ps k : Supported pw inp T -> fold_op m = Some g -> (k <= 1)%nat ->
  (forall q, In q (p :: ps) -> OpDenotes inp T (Reachable pw inp T) (env q) (envs q)) ->
  exists r, invoke T env m (paths_by TComma (p :: ps) ++ repeat TComma k) = Some r /\
            Returns inp T r (fun v => fold_left (fun b q => g b (envs q v)) ps (envs p v)).
Proof. exact (RulesClaims.fold_literal pw inp T env envs m g p ps k). Qed.
Print Assumptions C46_fold_literal.
Example C46_fold_literal_example :
  Supported 64 small SmallT /\
  fold_op MSymmetricDifference = Some xorb /\
  (forall p, In p [2; 0; 2]%nat -> OpDenotes small SmallT (Reachable 64 small SmallT) (variant_paths SmallT p) (among [p])) /\
  invoke SmallT (variant_paths SmallT) MSymmetricDifference (paths_by TComma [2; 0; 2]%nat ++ repeat TComma 1) = Some (Ret 1).
Proof. split; [auto with ex|]. split; [reflexivity|]. split; [|reflexivity]. intros p [<-|[<-|[<-|[]]]]; (split; [vm_compute; lia|all_variants]). Qed.

(** C47: sets of variants and values of the set type correspond one to one *)
Theorem C47_sets_of_enum pw inp T : Supported pw inp T ->
  (forall A, exists s, Reachable pw inp T s /\ Denotes inp T s A) /\
  (forall s s' A, Reachable pw inp T s -> Reachable pw inp T s' -> Denotes inp T s A -> Denotes inp T s' A -> s = s') /\
  (exists l, NoDup l /\ N.of_nat (length l) = 2 ^ N.of_nat (length (in_variants inp)) /\
     forall s, In s l <-> Reachable pw inp T s).
Proof. exact (ExtraClaims.sets_of_enum pw inp T). Qed.
Print Assumptions C47_sets_of_enum.
Example C47_sets_of_enum_example :
  Supported 64 small SmallT /\
  Supported 64 wide WideT /\
  N.of_nat (length (in_variants wide)) = 4.
Proof. example. Qed.

(** C48: sizes of the results of the operations *)
Theorem C48_sizes pw inp T a b : Supported pw inp T -> Reachable pw inp T a -> Reachable pw inp T b ->
  exists u i d x c na nb nu ni nd nx nc,
    es_union T a b = Ret u /\ es_intersection T a b = Ret i /\ es_difference T a b = Ret d /\
    es_symmetrical_difference T a b = Ret x /\ es_complement T a = Ret c /\
    es_len T a = Ret na /\ es_len T b = Ret nb /\ es_len T u = Ret nu /\ es_len T i = Ret ni /\
    es_len T d = Ret nd /\ es_len T x = Ret nx /\ es_len T c = Ret nc /\
    nu + ni = na + nb /\ nd + ni = na /\ nx + 2 * ni = na + nb /\ nc + na = es_variant_count T /\
    (es_is_subset T a b = Ret true -> na <= nb /\ (na = nb -> a = b)).
Proof. exact (ExtraClaims.sizes pw inp T a b). Qed.
Print Assumptions C48_sizes.
Example C48_sizes_example :
  Supported 64 wide WideT /\
  Reachable 64 wide WideT wide_ac /\
  Reachable 64 wide WideT wide_bc /\
  es_len WideT wide_ac = Ret 2 /\
  es_union WideT wide_ac wide_bc = Ret [8; 0x40; 0; 0x100] /\
  es_len WideT [8; 0x40; 0; 0x100] = Ret 3.
Proof. example. Qed.

(** C49: integers: the enum gains variants or is reordered *)
Theorem C49_int_evolution pw inp T pw' inp' T' f t : Supported pw inp T -> Supported pw' inp' T' -> embeds inp inp' f ->
  sr_ity (et_serde T) = Some t -> sr_ity (et_serde T') = Some t ->
  serde_compiles T = true -> serde_compiles T' = true ->
  (* written by the old program, read by the new one *)
  (forall s A, Reachable pw inp T s -> Denotes inp T s A -> exists x,
     (forall W (emit : sevent -> W -> bool * W) w, es_serialize T emit s w = Ret (emit (EvInt t x) w)) /\
     forall src, src_int src t = Ok x -> exists s', es_deserialize T' src = Ret (Ok s') /\
       (forall v, variant inp v -> es_contains T' s' (f v) = Ret (A v)) /\
       (forall u, newcomer inp inp' f u -> es_contains T' s' u = Ret false)) /\
  (* written by the new program, read by the old one *)
  (forall s' A', Reachable pw' inp' T' s' -> Denotes inp' T' s' A' -> exists x,
     (forall W (emit : sevent -> W -> bool * W) w, es_serialize T' emit s' w = Ret (emit (EvInt t x) w)) /\
     forall src, src_int src t = Ok x ->
       (et_deny_unknown T = true -> (exists u, newcomer inp inp' f u /\ A' u = true) ->
          es_deserialize T src = Ret (Err (DeCustom "enumset contains unknown bits"))) /\
       (et_deny_unknown T = false \/ (forall u, newcomer inp inp' f u -> A' u = false) ->
          exists s, es_deserialize T src = Ret (Ok s) /\ Denotes inp T s (fun v => A' (f v)))).
Proof. exact (EvolveClaims.int_evolution pw inp T pw' inp' T' f t). Qed.
Print Assumptions C49_int_evolution.
Example C49_int_evolution_example :
  Supported 64 small SmallT /\
  Supported 64 grown GrownT /\
  embeds small grown S /\
  sr_ity (et_serde SmallT) = Some U8 /\
  sr_ity (et_serde GrownT) = Some U8 /\
  serde_compiles SmallT = true /\
  serde_compiles GrownT = true /\
  Reachable 64 small SmallT small_ac /\
  Reachable 64 grown GrownT grown_d /\
  newcomer small grown S 0 /\
  es_serialize GrownT record_event grown_d [] = Ret (true, [EvInt U8 0x44]) /\
  es_deserialize SmallT (source 0x44 [] [] []) = Ret (Ok 0x40).
Proof. example. Qed.

(** C49: arrays: the old program panics on a variant it does not know *)
Theorem C49_array_evolution pw inp T pw' inp' T' f : Supported pw inp T -> Supported pw' inp' T' -> embeds inp inp' f ->
  et_serde T = SArray -> et_serde T' = SArray ->
  (* written by the old program, read by the new one *)
  (forall s A, Reachable pw inp T s -> Denotes inp T s A -> exists ws,
     (forall W (emit : sevent -> W -> bool * W) w,
        es_serialize T emit s w = Ret (perform emit (EvSeq (N.of_nat (length ws)) :: map EvLimb ws ++ [EvSeqEnd]) w)) /\
     forall src, SourceOk pw' inp' src -> src_words src = Ok (map Ok ws) -> exists s', es_deserialize T' src = Ret (Ok s') /\
       (forall v, variant inp v -> es_contains T' s' (f v) = Ret (A v)) /\
       (forall u, newcomer inp inp' f u -> es_contains T' s' u = Ret false)) /\
  (* written by the new program, read by the old one *)
  (forall s' A', Reachable pw' inp' T' s' -> Denotes inp' T' s' A' -> exists ws,
     (forall W (emit : sevent -> W -> bool * W) w,
        es_serialize T' emit s' w = Ret (perform emit (EvSeq (N.of_nat (length ws)) :: map EvLimb ws ++ [EvSeqEnd]) w)) /\
     forall src, SourceOk pw inp src -> src_words src = Ok (map Ok ws) ->
       ((exists u, newcomer inp inp' f u /\ A' u = true /\ discr inp' u < 64 * storage_words (storage_of inp)) ->
          es_deserialize T src = Panic (PExpect "Bitset contains invalid variants.")) /\
       ((forall u, newcomer inp inp' f u -> A' u = true -> 64 * storage_words (storage_of inp) <= discr inp' u) ->
          exists s, es_deserialize T src = Ret (Ok s) /\ Denotes inp T s (fun v => A' (f v)))).
Proof. exact (EvolveClaims.array_evolution pw inp T pw' inp' T' f). Qed.
Print Assumptions C49_array_evolution.
Example C49_array_evolution_example :
  Supported 64 wide WideT /\
  Supported 32 wider WiderT /\
  embeds wide wider S /\
  et_serde WideT = SArray /\
  et_serde WiderT = SArray /\
  newcomer wide wider S 0 /\
  discr wider 0 < 64 * storage_words (storage_of wide) /\
  es_deserialize WideT (source 0 [] [] [Ok 0; Ok 0; Ok 0x400000; Ok 0]) = Panic (PExpect "Bitset contains invalid variants.").
Proof. example. Qed.

(** C49: lists and maps: the new program reads what the old one wrote *)
Theorem C49_list_evolution pw inp T pw' inp' T' f : Supported pw inp T -> Supported pw' inp' T' -> embeds inp inp' f ->
  forall s A, Reachable pw inp T s -> Denotes inp T s A ->
  (et_serde T = SList -> et_serde T' = SList -> exists l,
     (forall W (emit : sevent -> W -> bool * W) w,
        es_serialize T emit s w = Ret (perform emit (EvSeq (N.of_nat (length l)) :: map EvElem l ++ [EvSeqEnd]) w)) /\
     forall src, SourceOk pw' inp' src -> src_list src = Ok (map (fun v => Ok (f v)) l) ->
       exists s', es_deserialize T' src = Ret (Ok s') /\
         (forall v, variant inp v -> es_contains T' s' (f v) = Ret (A v)) /\
         (forall u, newcomer inp inp' f u -> es_contains T' s' u = Ret false)) /\
  (et_serde T = SMap -> et_serde T' = SMap -> exists l,
     (forall W (emit : sevent -> W -> bool * W) w,
        es_serialize T emit s w = Ret (perform emit (EvMap (N.of_nat (length l)) :: map (fun v => EvEntry v true) l ++ [EvMapEnd]) w)) /\
     forall src, SourceOk pw' inp' src -> src_map src = Ok (map (fun v => Ok (f v, true)) l) ->
       exists s', es_deserialize T' src = Ret (Ok s') /\
         (forall v, variant inp v -> es_contains T' s' (f v) = Ret (A v)) /\
         (forall u, newcomer inp inp' f u -> es_contains T' s' u = Ret false)).
Proof. exact (EvolveClaims.list_evolution pw inp T pw' inp' T' f). Qed.
Print Assumptions C49_list_evolution.
Example C49_list_evolution_example :
  Supported 64 listed ListedT /\
  Supported 64 listed_grown ListedGrownT /\
  embeds listed listed_grown S /\
  et_serde ListedT = SList /\
  et_serde ListedGrownT = SList /\
  Reachable 64 listed ListedT listed_ac /\
  Denotes listed ListedT listed_ac (among [0; 2]%nat) /\
  es_deserialize ListedGrownT (source 0 [Ok 3; Ok 1] [] [])%nat = Ret (Ok [0; 0x40; 0; 0x100]).
Proof. example. Qed.

(** C49: lists and maps: the old program reads what the new one wrote *)
Theorem C49_list_rollback pw inp T pw' inp' T' f : Supported pw inp T -> Supported pw' inp' T' -> embeds inp inp' f ->
  forall s' A', Reachable pw' inp' T' s' -> Denotes inp' T' s' A' ->
  (et_serde T = SList -> et_serde T' = SList -> exists l,
     (forall W (emit : sevent -> W -> bool * W) w,
        es_serialize T' emit s' w = Ret (perform emit (EvSeq (N.of_nat (length l)) :: map EvElem l ++ [EvSeqEnd]) w)) /\
     forall src items, SourceOk pw inp src -> src_list src = Ok items ->
       Forall2 (seen_as inp inp' f (fun v => v)) l items ->
       ((forall u, newcomer inp inp' f u -> A' u = false) ->
          exists s, es_deserialize T src = Ret (Ok s) /\ Denotes inp T s (fun v => A' (f v))) /\
       ((exists u, newcomer inp inp' f u /\ A' u = true) ->
          exists n u e, nth_error l n = Some u /\ newcomer inp inp' f u /\ nth_error items n = Some (Err e) /\
            (forall m w, (m < n)%nat -> nth_error l m = Some w -> ~ newcomer inp inp' f w) /\
            es_deserialize T src = Ret (Err e))) /\
  (et_serde T = SMap -> et_serde T' = SMap -> exists l,
     (forall W (emit : sevent -> W -> bool * W) w,
        es_serialize T' emit s' w = Ret (perform emit (EvMap (N.of_nat (length l)) :: map (fun v => EvEntry v true) l ++ [EvMapEnd]) w)) /\
     forall src items, SourceOk pw inp src -> src_map src = Ok items ->
       Forall2 (seen_as inp inp' f (fun v => (v, true))) l items ->
       ((forall u, newcomer inp inp' f u -> A' u = false) ->
          exists s, es_deserialize T src = Ret (Ok s) /\ Denotes inp T s (fun v => A' (f v))) /\
       ((exists u, newcomer inp inp' f u /\ A' u = true) ->
          exists n u e, nth_error l n = Some u /\ newcomer inp inp' f u /\ nth_error items n = Some (Err e) /\
            (forall m w, (m < n)%nat -> nth_error l m = Some w -> ~ newcomer inp inp' f w) /\
            es_deserialize T src = Ret (Err e))).
Proof. exact (EvolveClaims.list_rollback pw inp T pw' inp' T' f). Qed.
Print Assumptions C49_list_rollback.
Example C49_list_rollback_example :
  Supported 64 listed ListedT /\
  Supported 64 listed_grown ListedGrownT /\
  embeds listed listed_grown S /\
  et_serde ListedT = SList /\
  et_serde ListedGrownT = SList /\
  Reachable 64 listed_grown ListedGrownT listed_grown_ce /\
  Denotes listed_grown ListedGrownT listed_grown_ce (among [0; 3]%nat) /\
  newcomer listed listed_grown S 0 /\
  es_serialize ListedGrownT record_event listed_grown_ce [] = Ret (true, [EvSeq 2; EvElem 3; EvElem 0; EvSeqEnd]) /\
  Forall2 (seen_as listed listed_grown S (fun v => v)) [3; 0]%nat [Ok 2%nat; Err (DeInput 1)] /\
  es_deserialize ListedT (source 0 [Ok 2%nat; Err (DeInput 1)] [] []) = Ret (Err (DeInput 1)).
Proof. example. Qed.

(** C50: breaking the condition of the unsafe constructors is noticed by iteration *)
Theorem C50_unchecked_condition pw inp T x i : Supported pw inp T -> r_ok (et_repr T) x ->
  i < r_width (et_repr T) -> r_has_bit (et_repr T) x i = Ret true -> (forall v, variant inp v -> discr inp v <> i) ->
  let s := es_from_repr_unchecked T x in
  match length (in_variants inp) with
  | O => es_collect T s = Panic (PExplicit "is uninhabited.")
  | S O => exists it n it', es_iter T s = Ret it /\ (0 < n)%nat /\
             (es_contains T s 0 = Ret true -> (1 < n)%nat) /\
             es_pops T (repeat Front (S n)) it = Ret (repeat (Some 0%nat) n ++ [None], it')
  | _ => es_collect T s = UB
  end.
Proof. exact (ExtraClaims.unchecked_condition pw inp T x i). Qed.
Print Assumptions C50_unchecked_condition.
Example C50_unchecked_condition_example :
  Supported 64 small SmallT /\
  r_ok (et_repr SmallT) 0x02 /\
  r_has_bit (et_repr SmallT) 0x02 1 = Ret true /\
  es_collect SmallT (es_from_repr_unchecked SmallT 0x03) = UB /\
  es_collect SingleT (es_from_repr_unchecked SingleT 0x04) = Ret [0%nat] /\
  es_collect NeverT (es_from_repr_unchecked NeverT 0x04) = Panic (PExplicit "is uninhabited.").
Proof. example. reflexivity. Qed.

(** C50: the arms of [enum_from_u32] that reinterpret an integer never yield a variant, whatever size the compiler gave the enum *)
Theorem C50_reinterpretation pw inp T size i : Supported pw inp T -> 1 <= size ->
  (forall v, variant inp v -> discr inp v < 2 ^ (8 * size)) -> i < r_width (et_repr T) ->
  enum_from_u32_sized T size i = enum_from_u32 T i.
Proof. exact (ExtraClaims.reinterpretation pw inp T size i). Qed.
Print Assumptions C50_reinterpretation.
Example C50_reinterpretation_example :
  Supported 64 small SmallT /\
  (forall v, variant small v -> discr small v < 2 ^ (8 * 1)) /\
  enum_from_u32_sized SmallT 1 6 = Ret 2%nat /\
  enum_from_u32_sized SmallT 1 1 = UB /\
  enum_from_u32_sized SmallT 1 (256 + 5) = Ret 1%nat.
Proof. example. intros v Hv. unfold variant in Hv. cbn in Hv. destruct v as [|[|[|v]]]; [reflexivity..|lia]. Qed.

(** C50: what [enum_from_u32] makes of any integer at all, whatever size the compiler gave the enum *)
Theorem C50_any_u32 pw inp T size i : Supported pw inp T -> In size [1; 2; 4; 8; 16] ->
  (forall v, variant inp v -> discr inp v < 2 ^ (8 * size)) -> (2 <= length (in_variants inp))%nat ->
  (forall v, variant inp v -> i mod 2 ^ (8 * size) = discr inp v -> enum_from_u32_sized T size i = Ret v) /\
  ((forall v, variant inp v -> i mod 2 ^ (8 * size) <> discr inp v) -> enum_from_u32_sized T size i = UB).
Proof. exact (ExtraClaims.any_u32 pw inp T size i). Qed.
Print Assumptions C50_any_u32.
Example C50_any_u32_example :
  Supported 64 small SmallT /\
  In 1 [1; 2; 4; 8; 16] /\
  (forall v, variant small v -> discr small v < 2 ^ (8 * 1)) /\
  (2 <= length (in_variants small))%nat /\
  (256 + 5) mod 2 ^ (8 * 1) = discr small 1 /\
  enum_from_u32_sized SmallT 1 (256 + 5) = Ret 1%nat /\
  enum_from_u32_sized SmallT 1 (256 + 1) = UB.
Proof. example; [now left| |cbn; lia]. intros v Hv. unfold variant in Hv. cbn in Hv. destruct v as [|[|[|v]]]; [reflexivity..|lia]. Qed.

(** C51: smaller sets come first *)
Theorem C51_subset_order pw inp T a b : Supported pw inp T -> Reachable pw inp T a -> Reachable pw inp T b ->
  es_is_subset T a b = Ret true -> es_cmp T a b <> Gt /\ (a <> b -> es_cmp T a b = Lt).
Proof. exact (ExtraClaims.subset_order pw inp T a b). Qed.
Print Assumptions C51_subset_order.
Example C51_subset_order_example :
  Supported 64 wide WideT /\
  Reachable 64 wide WideT wide_ac /\
  Reachable 64 wide WideT (es_empty WideT) /\
  es_is_subset WideT (es_empty WideT) wide_ac = Ret true /\
  es_cmp WideT (es_empty WideT) wide_ac = Lt.
Proof. example. constructor. Qed.

(** C25: [extend] with an iterator that panics midway leaves a set of the items so far *)
Theorem C25_extend_unwind_members pw inp T s A steps : Supported pw inp T -> Reachable pw inp T s -> Denotes inp T s A ->
  (forall v, In v (delivered steps) -> variant inp v) ->
  exists s', es_extend_unwind T s steps = Ret (s', panics steps) /\ es_extend T s (delivered steps) = Ret s' /\
    Reachable pw inp T s' /\ Denotes inp T s' (fun v => A v || existsb (Nat.eqb v) (delivered steps)).
Proof. exact (MoreClaims.extend_unwind_members pw inp T s A steps). Qed.
Print Assumptions C25_extend_unwind_members.
Example C25_extend_unwind_members_example :
  Supported 64 wide WideT /\
  Reachable 64 wide WideT wide_ac /\
  Denotes wide WideT wide_ac (among [0; 2]%nat) /\
  (forall v, In v (delivered [Some 1; None; Some 3]) -> variant wide v)%nat /\
  es_extend_unwind WideT wide_ac [Some 1; None; Some 3]%nat = Ret ([8; 0x40; 0; 0x100], true).
Proof. example. Qed.

(** C25: the same for an iterator over sets *)
Theorem C25_extend_sets_unwind_members pw inp T s A steps Bs : Supported pw inp T -> Reachable pw inp T s -> Denotes inp T s A ->
  Forall2 (fun x B => Reachable pw inp T x /\ Denotes inp T x B) (delivered steps) Bs ->
  exists s', es_extend_sets_unwind T s steps = Ret (s', panics steps) /\ es_extend_sets T s (delivered steps) = Ret s' /\
    Reachable pw inp T s' /\ Denotes inp T s' (fun v => A v || existsb (fun B => B v) Bs).
Proof. exact (MoreClaims.extend_sets_unwind_members pw inp T s A steps Bs). Qed.
Print Assumptions C25_extend_sets_unwind_members.
Example C25_extend_sets_unwind_members_example :
  Supported 64 wide WideT /\
  Reachable 64 wide WideT wide_ac /\
  Denotes wide WideT wide_ac (among [0; 2]%nat) /\
  Forall2 (fun x B => Reachable 64 wide WideT x /\ Denotes wide WideT x B) (delivered [Some wide_bc; None]) [among [1; 2]%nat] /\
  es_extend_sets_unwind WideT wide_ac [Some wide_bc; None; Some (es_all WideT)] = Ret ([8; 0x40; 0; 0x100], true).
Proof. example. constructor; [|constructor]. split; auto with ex. Qed.

(** C44: arrays: an input that goes on after it reported its end *)
Theorem C44_unfused_input pw inp T l : Supported pw inp T ->
  let n := r_preferred_array_len (et_repr T) in
  let first := before_end l in let later := before_end (after_end l) in
  ((n <= length first)%nat -> de_array_answers T l = de_array T (Ok first)) /\
  ((length first < n)%nat ->
     match all_ok first, all_ok later with
     | Ok _, Err e => de_array_answers T l = Ret (Err e)
     | _, _ => de_array_answers T l = de_array T (Ok first)
     end).
Proof. exact (MoreClaims.unfused_input pw inp T l). Qed.
Print Assumptions C44_unfused_input.
Example C44_unfused_input_example :
  Supported 64 wide WideT /\
  de_array_answers WideT [Ok (Some 8); Ok None; Ok (Some 77); Err (DeInput 3)] = Ret (Err (DeInput 3)) /\
  de_array_answers WideT [Ok (Some 8); Ok None; Ok (Some 77); Ok None; Err (DeInput 3)] = Ret (Ok [8; 0; 0; 0]) /\
  de_array WideT (Ok [Ok 8]) = Ret (Ok [8; 0; 0; 0]).
Proof. example. Qed.

(** C52: the conversions to numbers, arrays, slices and vectors agree *)
Theorem C52_conversions_agree pw inp T s : Supported pw inp T -> Reachable pw inp T s ->
  (forall out, es_copy_into_slice_truncated T s out = es_as_array_truncated T s (length out) /\
     es_try_copy_into_slice T s out =
       (o <- es_try_as_array T s (length out) ;; Ret (match o with Some ws => (Some tt, ws) | None => (None, out) end))) /\
  (forall k, es_as_array_truncated T s k = (ws <- es_to_vec T s ;; Ret (firstn k (ws ++ repeat 0 k)))) /\
  es_as_array_truncated T s 1 = (x <- es_as_truncated T U64 s ;; Ret [x]) /\
  es_try_as_array T s 1 = (o <- es_try_as T U64 s ;; Ret (option_map (fun x => [x]) o)) /\
  es_as_array_truncated T s 2 = (x <- es_as_truncated T U128 s ;; Ret [x mod 2 ^ 64; x / 2 ^ 64]) /\
  es_try_as_array T s 2 = (o <- es_try_as T U128 s ;; Ret (option_map (fun x => [x mod 2 ^ 64; x / 2 ^ 64]) o)) /\
  (forall t, es_as_truncated T t s = (x <- es_as_truncated T U128 s ;; Ret (x mod 2 ^ ity_bits pw t))) /\
  (forall t t', ity_bits pw t <= ity_bits pw t' ->
     es_try_as T t s = (o <- es_try_as T t' s ;;
                        Ret (match o with Some x => if x <? 2 ^ ity_bits pw t then Some x else None | None => None end))).
Proof. exact (MoreClaims.conversions_agree pw inp T s). Qed.
Print Assumptions C52_conversions_agree.
Example C52_conversions_agree_example :
  Supported 64 wide WideT /\
  Reachable 64 wide WideT wide_ac /\
  Reachable 64 wide WideT wide_bc /\
  es_as_array_truncated WideT wide_bc 2 = Ret [8; 0x40] /\
  es_as_truncated WideT U128 wide_bc = Ret 0x400000000000000008 /\
  es_try_as_array WideT wide_ac 2 = Ret None /\
  es_try_as WideT U64 wide_ac = Ret None.
Proof. example. Qed.

(** C53: the order of declaration does not matter *)
Theorem C53_declaration_order pw inp T inp' T' f a A b B a' b' : Supported pw inp T -> Supported pw inp' T' ->
  in_attrs inp = in_attrs inp' -> embeds inp inp' f -> length (in_variants inp) = length (in_variants inp') ->
  Reachable pw inp T a -> Denotes inp T a (fun v => A (f v)) -> Reachable pw inp' T' a' -> Denotes inp' T' a' A ->
  Reachable pw inp T b -> Denotes inp T b (fun v => B (f v)) -> Reachable pw inp' T' b' -> Denotes inp' T' b' B ->
  storage_of inp = storage_of inp' /\ serialize_name inp = serialize_name inp' /\
  es_len T a = es_len T' a' /\ es_to_vec T a = es_to_vec T' a' /\
  (forall t, es_try_as T t a = es_try_as T' t a' /\ es_as_truncated T t a = es_as_truncated T' t a') /\
  (exists l, es_collect T a = Ret l /\ es_collect T' a' = Ret (map f l)) /\
  es_cmp T a b = es_cmp T' a' b'.
Proof. exact (MoreClaims.declaration_order pw inp T inp' T' f a A b B a' b'). Qed.
Print Assumptions C53_declaration_order.
Example C53_declaration_order_example :
  Supported 64 wide WideT /\
  Supported 64 sorted SortedT /\
  in_attrs wide = in_attrs sorted /\
  embeds wide sorted place /\
  length (in_variants wide) = length (in_variants sorted) /\
  Reachable 64 wide WideT wide_ac /\
  Denotes wide WideT wide_ac (fun v => among [1; 3]%nat (place v)) /\
  Reachable 64 sorted SortedT sorted_ac /\
  Denotes sorted SortedT sorted_ac (among [1; 3]%nat) /\
  Reachable 64 wide WideT wide_bc /\
  Denotes wide WideT wide_bc (fun v => among [0; 1]%nat (place v)) /\
  Reachable 64 sorted SortedT sorted_bc /\
  Denotes sorted SortedT sorted_bc (among [0; 1]%nat) /\
  es_collect WideT wide_ac = Ret [2; 0]%nat /\
  es_collect SortedT sorted_ac = Ret [1; 3]%nat.
Proof. example. Qed.

(** C54: which traits are implemented *)
Theorem C54_impls md inp i o : derive_info md inp = Ret (Ok i) ->
  NoDup (generated_impls o i) /\
  forall t, In t (generated_impls o i) <->
    match t with
    | TPrivate | TEnumSetType => True
    | TWithRepr => exists name b, at_repr (in_attrs inp) = Some name /\ name_bits name = Some b
    | TPartialEq | TEq | TClone | TCopy => sw_no_super_impls o = false
    | TSub | TBitAnd | TBitOr | TBitXor | TNot | TPartialEqSet => sw_no_ops o = false
    end.
Proof. exact (ImplClaims.impls md inp i o). Qed.
Print Assumptions C54_impls.
Example C54_impls_example :
  (exists i, derive_info Debug small = Ret (Ok i) /\ generated_impls (MkSwitches false true) i = [TPrivate; TEnumSetType; TSub; TBitAnd; TBitOr; TBitXor; TNot; TPartialEqSet]) /\
  (exists i, derive_info Debug (enum_of (MkAttrs (Some "u16"%string) None false false false) small_variants) = Ret (Ok i) /\ generated_impls (MkSwitches true false) i = [TPrivate; TEnumSetType; TWithRepr; TPartialEq; TEq; TClone; TCopy]).
Proof. split; (eexists; split; [vm_compute; reflexivity|reflexivity]). Qed.

(** C54: which traits the enum has to implement besides *)
Theorem C54_impls_compile md inp i o user : derive_info md inp = Ret (Ok i) ->
  (forall t, In t user -> t <> TPrivate /\ t <> TEnumSetType /\ t <> TWithRepr) ->
  (impls_accepted (generated_impls o i ++ user) <->
   NoDup user /\
   (forall t, In t [TPartialEq; TEq; TClone; TCopy] -> (In t user <-> sw_no_super_impls o = true)) /\
   (forall t, In t [TSub; TBitAnd; TBitOr; TBitXor; TNot; TPartialEqSet] -> In t user -> sw_no_ops o = true)).
Proof. exact (ImplClaims.impls_compile md inp i o user). Qed.
Print Assumptions C54_impls_compile.
Example C54_impls_compile_example :
  succeeds (derive Debug 64 small) = true /\
  impls_accepted ([TPrivate; TEnumSetType; TPartialEq; TEq; TClone; TCopy] ++ [TSub]) /\
  ~ impls_accepted ([TPrivate; TEnumSetType; TPartialEq; TEq; TClone; TCopy] ++ [TClone]) /\
  ~ impls_accepted ([TPrivate; TEnumSetType] ++ [TClone; TCopy]).
Proof. split; [reflexivity|split; [|split]].
  - split; [repeat constructor; cbn; intuition discriminate|]. intros t s Ht Hs. cbn in Ht. intuition (subst; cbn in *; intuition).
  - intros [H _]. cbn in H. inversion H; subst. inversion H3; subst. inversion H5; subst. inversion H7; subst. inversion H9; subst. apply H10. cbn. auto.
  - intros [_ H]. assert (HI : In TEq ([TPrivate; TEnumSetType] ++ [TClone; TCopy])) by (apply (H TEnumSetType); cbn; auto). cbn in HI. repeat destruct HI as [HI|HI]; try discriminate; exact HI. Qed.

(** C54: the deprecation warnings *)
Theorem C54_warnings_given std a : NoDup (warnings std a) /\
  forall w, In w (warnings std a) <->
    match w with WAsMap => at_as_map a = true | WAsList => at_as_list a = true | WStd => std = true end.
Proof. exact (ImplClaims.warnings_given std a). Qed.
Print Assumptions C54_warnings_given.
Example C54_warnings_given_example :
  warnings false (in_attrs legacy_both) = [WAsMap; WAsList] /\
  warnings true (in_attrs wide) = [WStd].
Proof. example. Qed.

(** C54: following the advice of the warnings does not change the generated code *)
Theorem C54_advice_harmless md pw inp T std : derive md pw inp = Ret (Ok T) ->
  derive md pw (modernised inp) = Ret (Ok T) /\
  forall w, In w (warnings std (in_attrs (modernised inp))) -> w = WStd.
Proof. exact (ImplClaims.advice_harmless md pw inp T std). Qed.
Print Assumptions C54_advice_harmless.
Example C54_advice_harmless_example :
  succeeds (derive Debug 64 legacy_both) = true /\
  at_serialize_repr (in_attrs (modernised legacy_both)) = Some "list"%string.
Proof. example. Qed.


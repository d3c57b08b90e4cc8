(** * Properties: the derive macro, C27-C30, C41, C42, C62, C70 *)
From Coq Require Import Arith.
From Verif Require Import Base Repr Syntax Spec Derive EnumSet Macros Fmt Serde ApiSpec Examples ExtraSpec CrateName ExtraExamples.
From Verif Require CrateNameClaims DeriveClaims LimitClaims Refutations.

(** C27: the bits of the derive are the discriminants of the compiler *)
Theorem C27_derive_discriminants md pw inp T : derive md pw inp = Ret (Ok T) ->
  map fst (et_variants T) = map vd_name (in_variants inp) /\
  map snd (et_variants T) = discrs inp /\
  NoDup (discrs inp) /\
  (forall d, In d (discrs inp) -> d <= 0xFFFFFFBF).
Proof. exact (DeriveClaims.derive_discriminants md pw inp T). Qed.
Print Assumptions C27_derive_discriminants.
Example C27_derive_discriminants_example :
  derive Debug 64 wide = Ret (Ok WideT) /\
  map snd (et_variants WideT) = [200; 3; 70; 71].
Proof. example. Qed.

(** C27: the rule the compiler follows *)
Theorem C27_discriminant_rule inp v d : nth_error (in_variants inp) v = Some d -> literal_discr d ->
  match vd_discr d with
  | Some (DInt n) => discr inp v = n
  | _ => discr inp v = match v with O => 0 | S u => discr inp u + 1 end
  end.
Proof. exact (DeriveClaims.discriminant_rule inp v d). Qed.
Print Assumptions C27_discriminant_rule.
Example C27_discriminant_rule_example :
  nth_error (in_variants wide) 3 = Some (MkVariant "D" true None) /\
  discr wide 3 = discr wide 2 + 1.
Proof. example. Qed.

(** C27: conversions between variants and bits *)
Theorem C27_conversions_inverse pw inp T : Supported pw inp T ->
  (forall v, variant inp v -> enum_into_u32 T v = Ret (discr inp v)) /\
  (forall v, variant inp v -> enum_from_u32 T (discr inp v) = Ret v) /\
  (forall i v, In i (discrs inp) -> enum_from_u32 T i = Ret v -> variant inp v /\ enum_into_u32 T v = Ret i).
Proof. exact (DeriveClaims.conversions_inverse pw inp T). Qed.
Print Assumptions C27_conversions_inverse.
Example C27_conversions_inverse_example :
  Supported 64 wide WideT /\
  enum_into_u32 WideT 2 = Ret 70 /\
  enum_from_u32 WideT 70 = Ret 2%nat.
Proof. example. Qed.

(** C28: the derive always terminates without overflow; it accepts exactly the well-formed declarations *)
Theorem C28_derive_total md pw inp :
  exists r, derive md pw inp = Ret r /\
    ((exists T, r = Ok T) <-> WellFormed inp) /\
    (forall e sp, r = Err (e, sp) -> Violation inp e sp).
Proof. exact (DeriveClaims.derive_total md pw inp). Qed.
Print Assumptions C28_derive_total.
Example C28_derive_total_example :
  succeeds (derive Debug 64 wide) = true /\
  derive Debug 64 (enum_of plain_attrs [("A", Some 7); ("B", Some 7)]%string) = Ret (Err (EDupDiscr, SpVariant 1)).
Proof. example. Qed.

(** C28: a declaration with any of the listed faults is rejected *)
Theorem C28_violation_rejected md pw inp e sp : Violation inp e sp -> ~ WellFormed inp /\ exists x, derive md pw inp = Ret (Err x).
Proof. exact (DeriveClaims.violation_rejected md pw inp e sp). Qed.
Print Assumptions C28_violation_rejected.
Example C28_violation_rejected_example :
  Violation (enum_of plain_attrs [("A", Some 7); ("B", Some 7)]%string) EDupDiscr (SpVariant 1).
Proof. apply (V_discr _ 0 1 7); [lia|reflexivity|reflexivity]. Qed.

(** C62: the compile error reported is the earliest one, and it points at the offending item *)
Theorem C62_first_error md pw inp e sp :
  derive md pw inp = Ret (Err (e, sp)) <->
  Violation inp e sp /\
  forall e' sp', Violation inp e' sp' -> (e', sp') = (e, sp) \/ err_before e sp e' sp'.
Proof. exact (DeriveClaims.first_error md pw inp e sp). Qed.
Print Assumptions C62_first_error.
Example C62_first_error_example :
  derive Debug 64 many_faults = Ret (Err (EFields, SpVariant 1)) /\
  Violation many_faults EFields (SpVariant 1) /\
  Violation many_faults EDiscrNeg (SpDiscr 1) /\
  Violation many_faults EDupName (SpVariant 2) /\
  Violation many_faults EReprSmall (SpVariant 3) /\
  err_before EFields (SpVariant 1) EDupName (SpVariant 2).
Proof. repeat split; try reflexivity;
  [eapply (V_fields many_faults 1); reflexivity|eapply (V_neg many_faults 1); reflexivity
  |eapply (V_name many_faults 0 2); [lia|reflexivity..]|eapply (V_repr_small many_faults _ 8 3); vm_compute; reflexivity || discriminate|unfold err_before; cbn; lia]. Qed.

(** C62: the error points at something that is in the declaration *)
Theorem C62_no_call_site md pw inp e sp : derive md pw inp = Ret (Err (e, sp)) ->
  match sp with
  | SpCallSite => False
  | SpGenerics | SpInput => True
  | SpRepr => at_repr (in_attrs inp) <> None
  | SpSerializeRepr => at_serialize_repr (in_attrs inp) <> None
  | SpReprAttr k => (k < length (in_rust_reprs inp))%nat
  | SpVariant k => (k < length (in_variants inp))%nat
  | SpDiscr k => exists v, nth_error (in_variants inp) k = Some v /\ vd_discr v <> None
  end.
Proof. exact (DeriveClaims.no_call_site md pw inp e sp). Qed.
Print Assumptions C62_no_call_site.
Example C62_no_call_site_example :
  derive Debug 64 (MkInput false true [Some "C"; None] plain_attrs [])%string = Ret (Err (EReprParse, SpReprAttr 1)).
Proof. example. Qed.

(** C29: the chosen storage *)
Theorem C29_storage_chosen md pw inp T : derive md pw inp = Ret (Ok T) ->
  match storage_of inp with
  | SInt b => et_repr T = prim_repr md pw b (N.to_nat ((b + 63) / 64)) /\
              exists lit, et_all_lit T = Some lit /\ lit < 2 ^ b
  | SWords n => et_repr T = array_repr md pw (N.to_nat n) /\ et_all_lit T = None /\ 1 <= n /\ n < 2 ^ 32
  end.
Proof. exact (DeriveClaims.storage_chosen md pw inp T). Qed.
Print Assumptions C29_storage_chosen.
Example C29_storage_chosen_example :
  storage_of small = SInt 8 /\
  storage_of wide = SWords 4 /\
  storage_of sixteen = SInt 16 /\
  et_all_lit SmallT = Some 0x61.
Proof. example. Qed.

(** C29: it holds every variant, and is the smallest integer that does *)
Theorem C29_storage_holds md pw inp T : derive md pw inp = Ret (Ok T) ->
  r_width (et_repr T) = storage_bits (storage_of inp) /\
  N.of_nat (r_preferred_array_len (et_repr T)) = storage_words (storage_of inp) /\
  (forall v, variant inp v -> discr inp v < r_width (et_repr T)) /\
  r_width (et_repr T) < 2 ^ 32 /\
  (at_repr (in_attrs inp) = None -> forall b, In b [8; 16; 32; 64] -> max_discr inp < b ->
     exists b', storage_of inp = SInt b' /\ b' <= b).
Proof. exact (DeriveClaims.storage_holds md pw inp T). Qed.
Print Assumptions C29_storage_holds.
Example C29_storage_holds_example :
  derive Debug 64 wide = Ret (Ok WideT) /\
  r_width (et_repr WideT) = 256 /\
  r_preferred_array_len (et_repr WideT) = 4%nat.
Proof. example. Qed.

(** C30: [variant_count] and [bit_width] *)
Theorem C30_derive_counts md pw inp T : derive md pw inp = Ret (Ok T) ->
  es_variant_count T = N.of_nat (length (in_variants inp)) /\
  es_bit_width T = max_discr inp + 1 /\ es_bit_width T < 2 ^ 32.
Proof. exact (DeriveClaims.derive_counts md pw inp T). Qed.
Print Assumptions C30_derive_counts.
Example C30_derive_counts_example :
  derive Debug 64 wide = Ret (Ok WideT) /\
  es_variant_count WideT = 4 /\
  es_bit_width WideT = 201.
Proof. example. Qed.

(** C30: [bit_width] is one more than the largest discriminant; when it equals the number of variants *)
Theorem C30_bit_width_nonempty md pw inp T : derive md pw inp = Ret (Ok T) -> in_variants inp <> [] ->
  (exists v, variant inp v /\ es_bit_width T = discr inp v + 1) /\
  (forall v, variant inp v -> discr inp v < es_bit_width T) /\
  (es_bit_width T = es_variant_count T <-> forall i, i < es_variant_count T -> exists v, variant inp v /\ discr inp v = i).
Proof. exact (DeriveClaims.bit_width_nonempty md pw inp T). Qed.
Print Assumptions C30_bit_width_nonempty.
Example C30_bit_width_nonempty_example :
  derive Debug 64 single = Ret (Ok SingleT) /\
  in_variants single <> [] /\
  es_bit_width SingleT = 10.
Proof. example. Qed.

(** C30: the empty enum *)
Theorem C30_empty_enum_width md pw inp T : derive md pw inp = Ret (Ok T) -> in_variants inp = [] ->
  es_variant_count T = 0 /\ es_bit_width T = 1.
Proof. exact (DeriveClaims.empty_enum_width md pw inp T). Qed.
Print Assumptions C30_empty_enum_width.
Example C30_empty_enum_width_example :
  derive Debug 64 never = Ret (Ok NeverT) /\
  in_variants never = [].
Proof. example. Qed.

(** C41: on 32-bit and 64-bit targets every accepted enum is supported *)
Theorem C41_supported_32_64 md pw inp T : pw = 32 \/ pw = 64 -> derive md pw inp = Ret (Ok T) -> Supported pw inp T.
Proof. exact (DeriveClaims.supported_32_64 md pw inp T). Qed.
Print Assumptions C41_supported_32_64.
Example C41_supported_32_64_example :
  derive Debug 64 wide = Ret (Ok WideT).
Proof. example. Qed.

(** C41: on 16-bit targets an accepted enum is supported unless its [repr] holds larger numbers than usize *)
Theorem C41_supported_16 md inp T : derive md 16 inp = Ret (Ok T) -> rustc_accepts 16 inp ->
  (forall r, In (Some r) (in_rust_reprs inp) -> In r ["C"; "Rust"; "u8"; "i8"; "i16"; "isize"]%string) ->
  Supported 16 inp T.
Proof. exact (LimitClaims.supported_16 md inp T). Qed.
Print Assumptions C41_supported_16.
Example C41_supported_16_example :
  derive Debug 16 wide = Ret (Ok Wide16T) /\
  rustc_accepts 16 wide /\
  (forall r, In (Some r) (in_rust_reprs wide) -> In r ["C"; "Rust"; "u8"; "i8"; "i16"; "isize"]%string).
Proof. split; [apply derived_ok; vm_compute; reflexivity|]. split; [|intros r []]. intros d Hd. change (discrs wide) with [200; 3; 70; 71] in Hd. change (rustc_discr_max 16 (in_rust_reprs wide)) with 32767. repeat destruct Hd as [<-|Hd]; try lia. destruct Hd. Qed.

(** C41: on 16-bit targets an accepted enum can have two variants in one bit *)
Theorem C41_shared_bit_16 :
  exists inp T s, rustc_accepts 16 inp /\ derive Debug 16 inp = Ret (Ok T) /\ variant inp 0 /\ variant inp 1 /\
    discr inp 0 <> discr inp 1 /\
    es_only T 0 = Ret s /\ es_only T 1 = Ret s /\
    es_contains T s 0 = Ret true /\ es_contains T s 1 = Ret true /\ es_len T s = Ret 1.
Proof. exact Refutations.shared_bit_16. Qed.
Print Assumptions C41_shared_bit_16.

(** C41: on 16-bit targets [len] can be zero for a set that is not empty *)
Theorem C41_len_wraps_16 :
  exists inp T, rustc_accepts 16 inp /\ derive Debug 16 inp = Ret (Ok T) /\
    N.of_nat (length (in_variants inp)) = 65536 /\ es_is_empty T (es_all T) = false /\ es_len T (es_all T) = Ret 0.
Proof. exact LimitClaims.len_wraps_16. Qed.
Print Assumptions C41_len_wraps_16.

(** C42: the serialization format *)
Theorem C42_serialization_chosen md pw inp T : derive md pw inp = Ret (Ok T) ->
  (et_serde T, serialize_name inp) = 
    match et_serde T with
    | SU8 => (SU8, "u8") | SU16 => (SU16, "u16") | SU32 => (SU32, "u32") | SU64 => (SU64, "u64")
    | SU128 => (SU128, "u128") | SList => (SList, "list") | SMap => (SMap, "map") | SArray => (SArray, "array")
    end%string /\
  et_deny_unknown T = at_deny_unknown (in_attrs inp) /\
  (forall t v, sr_ity (et_serde T) = Some t -> variant inp v -> discr inp v < ity_bits pw t).
Proof. exact (DeriveClaims.serialization_chosen md pw inp T). Qed.
Print Assumptions C42_serialization_chosen.
Example C42_serialization_chosen_example :
  serialize_name legacy = "list"%string /\
  serialize_name mapped = "map"%string /\
  serialize_name small = "u8"%string /\
  serialize_name wide = "array"%string /\
  et_serde LegacyT = SList.
Proof. example. Qed.

(** C70: the path of the crate in the generated code, next to the outcome of the rest of the macro *)
Theorem C70_crate_path is_ident md pw o inp :
  (forall T, derive md pw inp = Ret (Ok T) ->
     derive_named is_ident md pw o inp =
     match co_attr o, co_lookup o, co_found o with
     | Some n, _, _ | None, true, FName n =>
         if is_ident n then Ret (Ok (n, T)) else Panic (not_an_ident n)
     | _, _, _ => Ret (Ok ("enumset"%string, T))
     end) /\
  (forall e, derive md pw inp = Ret (Err e) ->
     derive_named is_ident md pw o inp =
     match co_attr o with
     | Some n => if in_generic inp || negb (in_is_enum inp) || is_ident n then Ret (Err e)
                 else Panic (not_an_ident n)
     | None => Ret (Err e)
     end).
Proof. exact (CrateNameClaims.crate_path is_ident md pw o inp). Qed.
Print Assumptions C70_crate_path.
Example C70_crate_path_example :
  derive Debug 64 wide = Ret (Ok WideT) /\
  derive_named ascii_ident Debug 64 (MkCrateOptions (Some "enumset2") true (FName "other"))%string wide = Ret (Ok ("enumset2", WideT))%string /\
  derive_named ascii_ident Debug 64 (MkCrateOptions None true (FName "es_2"))%string wide = Ret (Ok ("es_2", WideT))%string /\
  derive_named ascii_ident Debug 64 (MkCrateOptions None false (FName "es_2"))%string wide = Ret (Ok ("enumset", WideT))%string /\
  derive_named ascii_ident Debug 64 (MkCrateOptions (Some "my-enumset") true FItself)%string wide = Panic (not_an_ident "my-enumset"%string) /\
  derive Debug 64 many_faults = Ret (Err (EFields, SpVariant 1)) /\
  derive_named ascii_ident Debug 64 (MkCrateOptions (Some "") false FError)%string many_faults = Panic (not_an_ident ""%string).
Proof. repeat split; try reflexivity; apply derived_ok; vm_compute; reflexivity. Qed.

(** C70: when the macro succeeds *)
Theorem C70_crate_name_accepted is_ident md pw o inp :
  (exists r, derive_named is_ident md pw o inp = Ret (Ok r)) <->
  WellFormed inp /\
  (forall n, co_attr o = Some n -> is_ident n = true) /\
  (forall n, co_attr o = None -> co_lookup o = true -> co_found o = FName n -> is_ident n = true).
Proof. exact (CrateNameClaims.crate_name_accepted is_ident md pw o inp). Qed.
Print Assumptions C70_crate_name_accepted.
Example C70_crate_name_accepted_example :
  WellFormed wide /\
  derive_named ascii_ident Debug 64 (MkCrateOptions (Some "enumset2") true (FName "a-b"))%string wide = Ret (Ok ("enumset2", WideT))%string /\
  (forall r, derive_named ascii_ident Debug 64 (MkCrateOptions (Some "a::b") true (FName "other"))%string wide <> Ret (Ok r)) /\
  ascii_ident "enumset2"%string = true /\
  ascii_ident "a::b"%string = false /\
  ascii_ident "2a"%string = false.
Proof. split; [destruct (DeriveClaims.derive_total Debug 64 wide) as (r & E & H & _); apply H; exists WideT; assert (F : derive Debug 64 wide = Ret (Ok WideT)) by (apply derived_ok; vm_compute; reflexivity); congruence|repeat split; try reflexivity; discriminate]. Qed.


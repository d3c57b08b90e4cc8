(** * Properties: conversions, C15-C22, C40 *)
From Coq Require Import Arith.
From Verif Require Import Base Repr Syntax Spec Derive EnumSet Macros Fmt Serde ApiSpec Examples.
From Verif Require ConvClaims MiscClaims.

(** C15: sets to integers *)
Theorem C15_to_integer pw inp T s A t : Supported pw inp T -> Reachable pw inp T s -> Denotes inp T s A ->
  ((forall v, variant inp v -> A v = true -> discr inp v < ity_bits pw t) ->
     es_try_as T t s = Ret (Some (set_value inp A)) /\ es_as T t s = Ret (set_value inp A)) /\
  ((exists v, variant inp v /\ A v = true /\ ity_bits pw t <= discr inp v) ->
     es_try_as T t s = Ret None /\ es_as T t s = Panic (PExpect "Bitset will not fit into this type.")) /\
  es_as_truncated T t s = Ret (set_value inp A mod 2 ^ ity_bits pw t).
Proof. exact (ConvClaims.to_integer pw inp T s A t). Qed.
Print Assumptions C15_to_integer.
Example C15_to_integer_example :
  Supported 64 wide WideT /\
  Reachable 64 wide WideT wide_ac /\
  Denotes wide WideT wide_ac (among [0; 2]%nat) /\
  es_try_as WideT U128 wide_ac = Ret None /\
  es_as_truncated WideT U128 wide_ac = Ret (2 ^ 70) /\
  es_try_as WideT U128 wide_bc = Ret (Some (2 ^ 70 + 2 ^ 3)).
Proof. example. Qed.

(** C16: integers to sets *)
Theorem C16_from_integer pw inp T t x : Supported pw inp T -> x < 2 ^ ity_bits pw t ->
  (only_variant_bits inp x ->
     exists s, es_try_from T t x = Ret (Some s) /\ es_from_num T t x = Ret s /\ Denotes inp T s (bits_set inp x)) /\
  (~ only_variant_bits inp x ->
     es_try_from T t x = Ret None /\ es_from_num T t x = Panic (PExpect "Bitset contains invalid variants.")) /\
  Returns inp T (es_from_truncated T t x) (bits_set inp x).
Proof. exact (ConvClaims.from_integer pw inp T t x). Qed.
Print Assumptions C16_from_integer.
Example C16_from_integer_example :
  Supported 64 wide WideT /\
  2 ^ 70 + 2 ^ 3 < 2 ^ ity_bits 64 U128 /\
  es_from_num WideT U128 (2 ^ 70 + 2 ^ 3) = Ret wide_bc /\
  es_try_from WideT U128 (2 ^ 70 + 2 ^ 4) = Ret None /\
  es_from_truncated WideT U128 (2 ^ 70 + 2 ^ 4) = Ret [0; 0x40; 0; 0].
Proof. example. Qed.

(** C17: set to integer and back *)
Theorem C17_as_from pw inp T s t x : Supported pw inp T -> Reachable pw inp T s ->
  es_try_as T t s = Ret (Some x) -> es_try_from T t x = Ret (Some s).
Proof. exact (ConvClaims.as_from pw inp T s t x). Qed.
Print Assumptions C17_as_from.
Example C17_as_from_example :
  Supported 64 wide WideT /\
  Reachable 64 wide WideT wide_bc /\
  es_try_as WideT U128 wide_bc = Ret (Some (2 ^ 70 + 2 ^ 3)).
Proof. example. Qed.

(** C17: integer to set and back *)
Theorem C17_from_as pw inp T s t x : Supported pw inp T -> x < 2 ^ ity_bits pw t ->
  es_try_from T t x = Ret (Some s) -> es_try_as T t s = Ret (Some x).
Proof. exact (ConvClaims.from_as pw inp T s t x). Qed.
Print Assumptions C17_from_as.
Example C17_from_as_example :
  Supported 64 wide WideT /\
  2 ^ 70 + 2 ^ 3 < 2 ^ ity_bits 64 U128 /\
  es_try_from WideT U128 (2 ^ 70 + 2 ^ 3) = Ret (Some wide_bc).
Proof. example. Qed.

(** C18: sets to arrays of any length [k] *)
Theorem C18_to_array pw inp T s A k : Supported pw inp T -> Reachable pw inp T s -> Denotes inp T s A ->
  exists ws, length ws = k /\ words_hold inp ws A (64 * N.of_nat k) /\
    ((forall v, variant inp v -> A v = true -> discr inp v < 64 * N.of_nat k) ->
       es_try_as_array T s k = Ret (Some ws) /\ es_as_array T s k = Ret ws) /\
    ((exists v, variant inp v /\ A v = true /\ 64 * N.of_nat k <= discr inp v) ->
       es_try_as_array T s k = Ret None /\ es_as_array T s k = Panic (PExpect "Bitset will not fit into this type.")) /\
    es_as_array_truncated T s k = Ret ws.
Proof. exact (ConvClaims.to_array pw inp T s A k). Qed.
Print Assumptions C18_to_array.
Example C18_to_array_example :
  Supported 64 wide WideT /\
  Reachable 64 wide WideT wide_ac /\
  Denotes wide WideT wide_ac (among [0; 2]%nat) /\
  es_try_as_array WideT wide_ac 5 = Ret (Some [0; 0x40; 0; 0x100; 0]) /\
  es_try_as_array WideT wide_ac 3 = Ret None /\
  es_as_array_truncated WideT wide_ac 3 = Ret [0; 0x40; 0] /\
  es_try_as_array WideT wide_ac 0 = Ret None.
Proof. example. Qed.

(** C19: arrays and slices to sets *)
Theorem C19_from_words pw inp T l : Supported pw inp T -> words_ok l ->
  (only_variant_words inp l ->
     exists s, es_try_from_array T l = Ret (Some s) /\ es_from_array T l = Ret s /\
               es_try_from_slice T l = Ret (Some s) /\ es_from_slice T l = Ret s /\
               Denotes inp T s (fun v => word_bit l (discr inp v))) /\
  (~ only_variant_words inp l ->
     es_try_from_array T l = Ret None /\ es_from_array T l = Panic (PExpect "Bitset contains invalid variants.") /\
     es_try_from_slice T l = Ret None /\ es_from_slice T l = Panic (PExpect "Bitset contains invalid variants.")) /\
  (exists s, es_from_array_truncated T l = Ret s /\ es_from_slice_truncated T l = Ret s /\
             Denotes inp T s (fun v => word_bit l (discr inp v))).
Proof. exact (ConvClaims.from_words pw inp T l). Qed.
Print Assumptions C19_from_words.
Example C19_from_words_example :
  Supported 64 wide WideT /\
  words_ok [8; 0x40] /\
  es_try_from_array WideT [8; 0x40] = Ret (Some wide_bc) /\
  es_try_from_slice WideT [8; 0x40; 0; 0; 0; 1] = Ret None /\
  es_from_slice_truncated WideT [9; 0x40; 0; 0; 0; 1] = Ret wide_bc.
Proof. example. repeat constructor. Qed.

(** C20: sets into slices with any previous content [out] *)
Theorem C20_copy_into pw inp T s A out : Supported pw inp T -> Reachable pw inp T s -> Denotes inp T s A ->
  let k := 64 * N.of_nat (length out) in
  exists ws, length ws = length out /\ words_hold inp ws A k /\
    ((forall v, variant inp v -> A v = true -> discr inp v < k) ->
       es_try_copy_into_slice T s out = Ret (Some tt, ws) /\ es_copy_into_slice T s out = Ret ws) /\
    ((exists v, variant inp v /\ A v = true /\ k <= discr inp v) ->
       es_try_copy_into_slice T s out = Ret (None, out) /\
       es_copy_into_slice T s out = Panic (PExpect "Bitset will not fit into slice.")) /\
    es_copy_into_slice_truncated T s out = Ret ws.
Proof. exact (ConvClaims.copy_into pw inp T s A out). Qed.
Print Assumptions C20_copy_into.
Example C20_copy_into_example :
  Supported 64 wide WideT /\
  Reachable 64 wide WideT wide_ac /\
  Denotes wide WideT wide_ac (among [0; 2]%nat) /\
  es_try_copy_into_slice WideT wide_ac [1; 1; 1] = Ret (None, [1; 1; 1]) /\
  es_try_copy_into_slice WideT wide_bc [1; 1; 1] = Ret (Some tt, [8; 0x40; 0]) /\
  es_copy_into_slice_truncated WideT wide_ac [1; 1; 1] = Ret [0; 0x40; 0].
Proof. example. Qed.

(** C21: [to_vec] and back; for the length see C29_storage_holds *)
Theorem C21_to_vec_lossless pw inp T s A : Supported pw inp T -> Reachable pw inp T s -> Denotes inp T s A ->
  let n := r_preferred_array_len (et_repr T) in
  (forall v, variant inp v -> discr inp v < 64 * N.of_nat n) /\
  exists ws, es_to_vec T s = Ret ws /\ length ws = n /\
    words_hold inp ws A (64 * N.of_nat n) /\
    es_try_from_slice T ws = Ret (Some s) /\
    es_as_array T s n = Ret ws /\ es_try_from_array T ws = Ret (Some s).
Proof. exact (ConvClaims.to_vec_lossless pw inp T s A). Qed.
Print Assumptions C21_to_vec_lossless.
Example C21_to_vec_lossless_example :
  Supported 64 wide WideT /\
  Reachable 64 wide WideT wide_ac /\
  Denotes wide WideT wide_ac (among [0; 2]%nat) /\
  r_preferred_array_len (et_repr WideT) = 4%nat /\
  es_to_vec WideT wide_ac = Ret [0; 0x40; 0; 0x100].
Proof. example. Qed.

(** C22: the representation methods exist exactly for explicit integer representations *)
Theorem C22_with_repr md pw inp T : derive md pw inp = Ret (Ok T) ->
  (et_with_repr T = true <-> exists name b, at_repr (in_attrs inp) = Some name /\ name_bits name = Some b).
Proof. exact (MiscClaims.with_repr md pw inp T). Qed.
Print Assumptions C22_with_repr.
Example C22_with_repr_example :
  derive Debug 64 sixteen = Ret (Ok SixteenT) /\
  et_with_repr SixteenT = true /\
  et_with_repr SmallT = false.
Proof. example. Qed.

(** C22: and they convert to and from the number *)
Theorem C22_repr_conversions pw inp T name w : Supported pw inp T ->
  at_repr (in_attrs inp) = Some name -> name_bits name = Some w ->
  exists md pl lit i, let P := prim_ty md pw w pl lit i (in_variants inp) in
    T = P /\ et_with_repr P = true /\
    (forall s A, Reachable pw inp P s -> Denotes inp P s A ->
       es_as_repr P s = set_value inp A /\ es_from_repr P (es_as_repr P s) = Ret s) /\
    forall x : N, x < 2 ^ w ->
      (only_variant_bits inp x ->
         exists s, es_try_from_repr P x = Ret (Some s) /\ es_from_repr P x = Ret s /\ Denotes inp P s (bits_set inp x)) /\
      (~ only_variant_bits inp x ->
         es_try_from_repr P x = Ret None /\ es_from_repr P x = Panic (PExpect "Bitset contains invalid variants.")) /\
      Returns inp P (es_from_repr_truncated P x) (bits_set inp x).
Proof. exact (MiscClaims.repr_conversions pw inp T name w). Qed.
Print Assumptions C22_repr_conversions.
Example C22_repr_conversions_example :
  Supported 64 sixteen SixteenT /\
  at_repr (in_attrs sixteen) = Some "u16"%string /\
  name_bits "u16" = Some 16 /\
  Reachable 64 sixteen SixteenT sixteen_ac /\
  es_as_repr SixteenT sixteen_ac = 0x41 /\
  es_try_from_repr SixteenT (0x43 : N) = Ret None.
Proof. example. Qed.

(** C40: unchecked constructors *)
Theorem C40_unchecked_eq pw inp T : Supported pw inp T ->
  (forall t x s, x < 2 ^ ity_bits pw t -> es_try_from T t x = Ret (Some s) -> es_from_unchecked T t x = Ret s) /\
  (forall l s, words_ok l -> es_try_from_array T l = Ret (Some s) -> es_from_array_unchecked T l = Ret s) /\
  (forall l s, words_ok l -> es_try_from_slice T l = Ret (Some s) -> es_from_slice_unchecked T l = Ret s) /\
  (forall x s, r_ok (et_repr T) x -> es_try_from_repr T x = Ret (Some s) -> es_from_repr_unchecked T x = s).
Proof. exact (ConvClaims.unchecked_eq pw inp T). Qed.
Print Assumptions C40_unchecked_eq.
Example C40_unchecked_eq_example :
  Supported 64 wide WideT /\
  2 ^ 70 + 2 ^ 3 < 2 ^ ity_bits 64 U128 /\
  es_try_from WideT U128 (2 ^ 70 + 2 ^ 3) = Ret (Some wide_bc) /\
  es_from_unchecked WideT U128 (2 ^ 70 + 2 ^ 3) = Ret wide_bc.
Proof. example. Qed.


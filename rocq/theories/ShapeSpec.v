(** * Vocabulary of the claims about data of any shape *)
From Coq Require Import ZArith DecimalString.
From Verif Require Import Base Syntax Spec Derive EnumSet Serde Shape.

(** The values have the types the calls say, and variants read are variants of the enum. *)
Definition visit_ok (inp : derive_input) (v : visit) : Prop :=
  match v with
  | VUnsigned n => n < 2 ^ 64
  | VSigned z => (- 2 ^ 63 <= z < 2 ^ 63)%Z
  | VU128 n => n < 2 ^ 128
  | VI128 z => (- 2 ^ 127 <= z < 2 ^ 127)%Z
  | VSeq variants words => (forall u, In (Ok u) variants -> variant inp u) /\ (forall w, In (Ok w) words -> w < 2 ^ 64)
  | VMap entries => forall u b, In (Ok (u, b)) entries -> variant inp u
  | _ => True
  end.

(** The call carries the integer [z], in a type that is read as a [uN] with [wide] for u128. *)
Definition integer (wide : bool) (v : visit) (z : Z) : Prop :=
  (exists n, v = VUnsigned n /\ z = Z.of_N n) \/ v = VSigned z \/
  wide = true /\ ((exists n, v = VU128 n /\ z = Z.of_N n) \/ v = VI128 z).
Definition is_wide (r : serde_repr) : bool := match r with SU128 => true | _ => false end.

(** The data read as a set with the members [A]. *)
Definition shape_stands (pw : N) (inp : derive_input) (r : serde_repr) (deny : bool) (v : visit) (A : vset) : Prop :=
  match r with
  | SList => exists vs ws, v = VSeq (map Ok vs) ws /\ (forall u, A u = true <-> In u vs)
  | SMap => exists es, v = VMap (map Ok es) /\ (forall u, A u = true <-> In (u, true) es)
  | SArray => exists vs ws, v = VSeq vs (map Ok ws) /\
      only_variant_words inp (firstn (N.to_nat (storage_words (storage_of inp))) ws) /\
      (forall u, A u = word_bit ws (discr inp u))
  | _ => exists x t, sr_ity r = Some t /\ integer (is_wide r) v (Z.of_N x) /\ x < 2 ^ ity_bits pw t /\
      (deny = true -> only_variant_bits inp x) /\ (forall u, A u = bits_set inp x u)
  end.

(** The data is of the shape that is asked for. *)
Definition fits (r : serde_repr) (v : visit) : Prop :=
  match r with
  | SList | SArray => exists vs ws, v = VSeq vs ws
  | SMap => exists es, v = VMap es
  | _ => exists z, integer (is_wide r) v z
  end.

(** How errors name what was asked for .. *)
Definition wanted (r : serde_repr) (enum_name : string) : string :=
  match r with
  | SU8 => "u8" | SU16 => "u16" | SU32 => "u32" | SU64 => "u64" | SU128 => "u128"
  | SList => "a list of " ++ enum_name
  | SMap => "a map from " ++ enum_name ++ " to bool"
  | SArray => "a list of u64"
  end.
(** .. and what was found. *)
Definition digits (z : Z) : string :=
  (if (z <? 0)%Z then "-" else "") ++ NilZero.string_of_uint (N.to_uint (Z.abs_N z)).
Inductive found : visit -> string -> Prop :=
| Fd_true : found (VBool true) "boolean `true`"
| Fd_false : found (VBool false) "boolean `false`"
| Fd_unsigned n : found (VUnsigned n) ("integer `" ++ digits (Z.of_N n) ++ "`")
| Fd_signed z : found (VSigned z) ("integer `" ++ digits z ++ "`")
| Fd_u128 n : found (VU128 n) ("integer `" ++ digits (Z.of_N n) ++ "` as u128")
| Fd_i128 z : found (VI128 z) ("integer `" ++ digits z ++ "` as i128")
| Fd_float t : found (VFloat t) ("floating point `" ++ t ++ "`")
| Fd_str t : found (VStr t) ("string " ++ t)
| Fd_bytes : found VBytes "byte array"
| Fd_none : found VNone "Option value"
| Fd_some : found VSome "Option value"
| Fd_unit : found VUnit "unit value"
| Fd_newtype : found VNewtype "newtype struct"
| Fd_seq a b : found (VSeq a b) "sequence"
| Fd_map l : found (VMap l) "map"
| Fd_enum : found VEnum "enum".
(** An integer that does not fit: 128-bit ones are not printed. *)
Inductive found_value : visit -> string -> Prop :=
| Fv_unsigned n : found_value (VUnsigned n) ("integer `" ++ digits (Z.of_N n) ++ "`")
| Fv_signed z : found_value (VSigned z) ("integer `" ++ digits z ++ "`")
| Fv_i128 z : found_value (VI128 z) "i128".
(** [e] is the first error among the items. *)
Definition first_error {A} (items : list (result A de_error)) (e : de_error) : Prop :=
  exists good rest, items = map Ok good ++ Err e :: rest.
(** Why data is refused *)
Inductive refusal (pw : N) (inp : derive_input) (r : serde_repr) (deny : bool) (name : string) (v : visit) : de_error -> Prop :=
| Rf_shape what : ~ fits r v -> found v what ->
    refusal pw inp r deny name v (DeCustom ("invalid type: " ++ what ++ ", expected " ++ wanted r name))
| Rf_range t z what : sr_ity r = Some t -> integer (is_wide r) v z -> ~ (0 <= z < 2 ^ Z.of_N (ity_bits pw t))%Z -> found_value v what ->
    refusal pw inp r deny name v (DeCustom ("invalid value: " ++ what ++ ", expected " ++ wanted r name))
| Rf_unknown t x : sr_ity r = Some t -> deny = true -> integer (is_wide r) v (Z.of_N x) -> x < 2 ^ ity_bits pw t -> ~ only_variant_bits inp x ->
    refusal pw inp r deny name v (DeCustom "enumset contains unknown bits")
| Rf_list vs ws e : r = SList -> v = VSeq vs ws -> first_error vs e -> refusal pw inp r deny name v e
| Rf_map es e : r = SMap -> v = VMap es -> first_error es e -> refusal pw inp r deny name v e
| Rf_words vs ws e : r = SArray -> v = VSeq vs ws -> first_error ws e -> refusal pw inp r deny name v e.

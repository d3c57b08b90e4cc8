(** * What deserialization makes of data of any shape

    [Serde.v] lets a deserializer hand out data of the requested shape or an
    error. A deserializer may as well find other data and hand it to the visitor,
    which then refuses it. This file models the generated visitors with
    [expecting] (derive/src/lib.rs:476, 490-511, 516, 530-555, 608-640) and, from
    the source of serde 1, the default methods of [de::Visitor], the visitors of
    the integer types and the texts of [de::Error] and [de::Unexpected]. *)
From Coq Require Import ZArith DecimalString.
From Verif Require Import Base Repr Syntax Derive EnumSet Serde.

(** The call the deserializer makes. Floats, strings and characters are given by
    how they are printed in errors; the elements of a sequence are given for each
    type the visitor may ask for. *)
Inductive visit : Type :=
| VBool (b : bool)                                     (* visit_bool *)
| VUnsigned (n : N)                                    (* visit_u8 .. visit_u64 *)
| VSigned (z : Z)                                      (* visit_i8 .. visit_i64 *)
| VU128 (n : N)                                        (* visit_u128 *)
| VI128 (z : Z)                                        (* visit_i128 *)
| VFloat (text : string)                               (* visit_f32, visit_f64 *)
| VStr (text : string)                                 (* visit_char, visit_str, visit_borrowed_str, visit_string *)
| VBytes                                               (* visit_bytes, visit_borrowed_bytes, visit_byte_buf *)
| VNone | VSome                                        (* visit_none, visit_some *)
| VUnit                                                (* visit_unit *)
| VNewtype                                             (* visit_newtype_struct *)
| VSeq (variants : list (result nat de_error)) (words : list (result N de_error))  (* visit_seq *)
| VMap (entries : list (result (nat * bool) de_error)) (* visit_map *)
| VEnum.                                               (* visit_enum *)

(** [de::Unexpected] and its [Display] *)
Inductive unexpected : Type :=
| UBool (b : bool) | UUnsigned (n : N) | USigned (z : Z) | UFloat (text : string) | UStr (text : string)
| UBytes | UUnit | UOption | UNewtypeStruct | USeq | UMap | UEnum | UOther (text : string).
Definition decimal_z (z : Z) : string := NilZero.string_of_int (Z.to_int z).
Definition display_unexpected (u : unexpected) : string :=
  match u with
  | UBool b => "boolean `" ++ (if b then "true" else "false") ++ "`"
  | UUnsigned n => "integer `" ++ decimal_z (Z.of_N n) ++ "`"
  | USigned z => "integer `" ++ decimal_z z ++ "`"
  | UFloat t => "floating point `" ++ t ++ "`"
  | UStr t => "string " ++ t
  | UBytes => "byte array"
  | UUnit => "unit value"
  | UOption => "Option value"
  | UNewtypeStruct => "newtype struct"
  | USeq => "sequence"
  | UMap => "map"
  | UEnum => "enum"
  | UOther t => t
  end.
(** [Error::invalid_type] and [Error::invalid_value], as they are provided *)
Definition invalid_type (u : unexpected) (expected : string) : de_error :=
  DeCustom ("invalid type: " ++ display_unexpected u ++ ", expected " ++ expected).
Definition invalid_value (u : unexpected) (expected : string) : de_error :=
  DeCustom ("invalid value: " ++ display_unexpected u ++ ", expected " ++ expected).

(** What the default methods of [Visitor] report *)
Definition default_unexpected (v : visit) : unexpected :=
  match v with
  | VBool b => UBool b
  | VUnsigned n => UUnsigned n
  | VSigned z => USigned z
  | VU128 n => UOther ("integer `" ++ decimal_z (Z.of_N n) ++ "` as u128")
  | VI128 z => UOther ("integer `" ++ decimal_z z ++ "` as i128")
  | VFloat t => UFloat t
  | VStr t => UStr t
  | VBytes => UBytes
  | VNone | VSome => UOption
  | VUnit => UUnit
  | VNewtype => UNewtypeStruct
  | VSeq _ _ => USeq
  | VMap _ => UMap
  | VEnum => UEnum
  end.
Definition default_visit {A} (v : visit) (expecting : string) : result A de_error :=
  Err (invalid_type (default_unexpected v) expecting).

(** The visitors of [u8] .. [u128] in serde: other integer types are accepted if the value fits. *)
Definition ity_text (t : ity) : string :=
  match t with U8 => "u8" | U16 => "u16" | U32 => "u32" | U64 => "u64" | U128 => "u128" | Usize => "usize" end.
Definition int_max (t : ity) : N :=
  match t with U8 => 0xFF | U16 => 0xFFFF | U32 => 0xFFFFFFFF | _ => 0xFFFFFFFFFFFFFFFF end.   (* as u64 *)
Definition visit_int (t : ity) (v : visit) : result N de_error :=
  match v, t with
  | VUnsigned n, _ => if n <=? int_max t then Ok n else Err (invalid_value (UUnsigned n) (ity_text t))
  | VSigned z, _ => if (0 <=? z)%Z && (Z.to_N z <=? int_max t) then Ok (Z.to_N z) else Err (invalid_value (USigned z) (ity_text t))
  | VU128 n, U128 => Ok n
  | VI128 z, U128 => if (0 <=? z)%Z then Ok (Z.to_N z) else Err (invalid_value (UOther "i128") (ity_text t))
  | _, _ => default_visit v (ity_text t)
  end.

Section Visitors.
(** [name] is the name of the enum. *)
Context (T : EnumTy) (name : string).
(** lib.rs:490-511, with 476 and 494-498 *)
Definition visit_list (v : visit) : M (result (eset T) de_error) :=
  match v with
  | VSeq items _ => de_list T (Ok items)
  | _ => Ret (default_visit v ("a list of " ++ name))
  end.
(** lib.rs:530-555, with 516 and 534-538 *)
Definition visit_map (v : visit) : M (result (eset T) de_error) :=
  match v with
  | VMap entries => de_map T (Ok entries)
  | _ => Ret (default_visit v ("a map from " ++ name ++ " to bool"))
  end.
(** lib.rs:608-640, with 612-616 *)
Definition visit_array (v : visit) : M (result (eset T) de_error) :=
  match v with
  | VSeq _ words => de_array T (Ok words)
  | _ => Ret (default_visit v "a list of u64")
  end.
(** lib.rs:433-644: [de.deserialize_seq(Visitor)] and the like, with a
    deserializer that answers by the call [v] *)
Definition es_visit (v : visit) : M (result (eset T) de_error) :=
  match et_serde T with
  | SU8 => de_int T U8 (visit_int U8 v)
  | SU16 => de_int T U16 (visit_int U16 v)
  | SU32 => de_int T U32 (visit_int U32 v)
  | SU64 => de_int T U64 (visit_int U64 v)
  | SU128 => de_int T U128 (visit_int U128 v)
  | SList => visit_list v
  | SMap => visit_map v
  | SArray => visit_array v
  end.
End Visitors.

(** * Model of the generated serde code, /repo/enumset_derive/src/lib.rs:429-644

    A serializer is an arbitrary sink receiving events; each event may fail. A
    deserializer hands out either an error or the items of the requested shape,
    any of which may be an error. The data formats themselves and the element's own
    (de)serialization are not modelled here (see Bincode.v and Json.v). *)
From Verif Require Import Base Repr Syntax Derive EnumSet Fmt.

Inductive sevent : Type :=
| EvInt (t : ity) (x : N)              (* serialize_u8 .. serialize_u128 *)
| EvSeq (len : N)                      (* serialize_seq(Some(len)) *)
| EvLimb (x : N)                       (* serialize_element of a u64 *)
| EvElem (v : nat)                     (* serialize_element of a variant *)
| EvSeqEnd                             (* SerializeSeq::end *)
| EvMap (len : N)                      (* serialize_map(Some(len)) *)
| EvEntry (v : nat) (b : bool)         (* serialize_entry *)
| EvMapEnd.                            (* SerializeMap::end *)

Inductive de_error : Type :=
| DeInput (code : nat)                 (* an error of the deserializer *)
| DeCustom (msg : string).             (* D::Error::custom(msg) *)

(** The integer type named in lib.rs:435-442. *)
Definition sr_ity (r : serde_repr) : option ity :=
  match r with
  | SU8 => Some U8 | SU16 => Some U16 | SU32 => Some U32 | SU64 => Some U64 | SU128 => Some U128
  | _ => None
  end.

(** Whether rustc accepts the generated [deserialize]. Read off the templates:
    - 443-451: [value & !#all_variants] with an array storage: [#all_variants] is
      an [ArrayRepr] expression, [value] an integer: ill-typed;
    - 564-581: with [serialize_deny_unknown] and array serialization the match
      arms have types [EnumSet] and [Result], and [D] is not in scope in the
      inner item: ill-typed. *)
Definition serde_compiles (T : EnumTy) : bool :=
  match et_serde T with
  | SU8 | SU16 | SU32 | SU64 | SU128 =>
      negb (et_deny_unknown T) || match et_all_lit T with Some _ => true | None => false end
  | SArray => negb (et_deny_unknown T)
  | SList | SMap => true
  end.
(** The same with the traits the code needs: lists and maps (de)serialize the
    variants themselves (484, 504, 524, 545), which needs [Serialize] and
    [Deserialize] of the enum, as the user derives or writes them. *)
Definition serde_accepted (has_ser has_de : bool) (T : EnumTy) : bool :=
  serde_compiles T && match et_serde T with SList | SMap => has_ser && has_de | _ => true end.

Section Ser.
Context (T : EnumTy) {W : Type} (emit : sevent -> W -> bool * W).

(** lib.rs:456-462  integers *)
Definition ser_int (t : ity) (set : eset T) (w : W) : M (bool * W) :=
  value <- r_to (et_repr T) t set ;; Ret (emit (EvInt t value) w).

(** lib.rs:478-487  list *)
Definition ser_list (set : eset T) (w : W) : M (bool * W) :=
  len <- es_len T set ;;
  let '(ok, w) := emit (EvSeq len) w in
  if negb ok then Ret (false, w)
  else
    it <- es_into_iter T set ;;
    r <- es_for T (es_for_fuel T) it w (fun bit w =>
           let '(ok, w) := emit (EvElem bit) w in
           Ret (if negb ok then Return w else Next w)) ;;
    match r with inr w => Ret (false, w) | inl w => Ret (emit EvSeqEnd w) end.

(** lib.rs:518-527  map *)
Definition ser_map (set : eset T) (w : W) : M (bool * W) :=
  len <- es_len T set ;;
  let '(ok, w) := emit (EvMap len) w in
  if negb ok then Ret (false, w)
  else
    it <- es_into_iter T set ;;
    r <- es_for T (es_for_fuel T) it w (fun bit w =>
           let '(ok, w) := emit (EvEntry bit true) w in
           Ret (if negb ok then Return w else Next w)) ;;
    match r with inr w => Ret (false, w) | inl w => Ret (emit EvMapEnd w) end.

(** Sending a fixed list of events until the first failure. *)
Fixpoint emit_all (es : list sevent) (w : W) : bool * W :=
  match es with
  | [] => (true, w)
  | e :: rest => let '(ok, w) := emit e w in if ok then emit_all rest w else (false, w)
  end.

(** lib.rs:594-601  the end of the part of the array that is written *)
Definition ser_array_end (array : list N) : M nat :=
  r <- for_ctrl (B := Empty_set) (rev (range 0 (length array))) (length array) (fun i end_ =>
         x <- get array i ;;
         Ret (if negb (x =? 0) then Break end_ else Next (S i))) ;;
  match r with inl e => Ret e | inr b => match b with end end.

(** lib.rs:588-605  array; a slice serializes as a sequence of its elements *)
Definition ser_array (set : eset T) (w : W) : M (bool * W) :=
  array <- es_as_array T set (r_preferred_array_len (et_repr T)) ;;
  end_ <- ser_array_end array ;;
  let part := firstn end_ array in
  Ret (emit_all (EvSeq (N.of_nat (length part)) :: map EvLimb part ++ [EvSeqEnd]) w).

(** set.rs:433-438, lib.rs:433-644  [Serialize for EnumSet] *)
Definition es_serialize (set : eset T) (w : W) : M (bool * W) :=
  match et_serde T with
  | SU8 => ser_int U8 set w
  | SU16 => ser_int U16 set w
  | SU32 => ser_int U32 set w
  | SU64 => ser_int U64 set w
  | SU128 => ser_int U128 set w
  | SList => ser_list set w
  | SMap => ser_map set w
  | SArray => ser_array set w
  end.
End Ser.

Section De.
Context (T : EnumTy).

(** lib.rs:463-472  integers; [lit] is the literal [#all_variants] at type [t];
    used only if [serde_compiles]. *)
Definition de_int (t : ity) (input : result N de_error) : M (result (eset T) de_error) :=
  match input with
  | Err e => Ret (Err e)
  | Ok value =>
      let unknown :=
        et_deny_unknown T &&
        match et_all_lit T with
        | Some lit => negb (N.land value (bnot (ity_bits (et_pw T) t) lit) =? 0)
        | None => false
        end in
      if unknown then Ret (Err (DeCustom "enumset contains unknown bits"))
      else
        value <- r_from (et_repr T) t value ;;
        r <- r_bitand (et_repr T) value (et_all_bits T) ;;
        Ret (Ok r)
  end.

(** lib.rs:499-509  list: [while let Some(val) = seq.next_element()? { accum |= val }] *)
Fixpoint de_list_loop (items : list (result nat de_error)) (accum : eset T) : M (result (eset T) de_error) :=
  match items with
  | [] => Ret (Ok accum)
  | Err e :: _ => Ret (Err e)
  | Ok val :: rest => accum <- es_bitor_assign T accum (OVar val) ;; de_list_loop rest accum
  end.
Definition de_list (input : result (list (result nat de_error)) de_error) : M (result (eset T) de_error) :=
  match input with Err e => Ret (Err e) | Ok items => de_list_loop items (es_new T) end.

(** lib.rs:539-553  map *)
Fixpoint de_map_loop (items : list (result (nat * bool) de_error)) (accum : eset T) : M (result (eset T) de_error) :=
  match items with
  | [] => Ret (Ok accum)
  | Err e :: _ => Ret (Err e)
  | Ok (val, is_present) :: rest =>
      accum <- (if is_present then es_bitor_assign T accum (OVar val) else Ret accum) ;;
      de_map_loop rest accum
  end.
Definition de_map (input : result (list (result (nat * bool) de_error)) de_error) : M (result (eset T) de_error) :=
  match input with Err e => Ret (Err e) | Ok items => de_map_loop items (es_new T) end.

(** lib.rs:625-632  first loop; returns the array and the items not yet read *)
Fixpoint de_array_fill (items : list (result N de_error)) (accum : list N) (i : nat)
  : M (result (list N * list (result N de_error)) de_error) :=
  match items with
  | [] => Ret (Ok (accum, []))
  | Err e :: _ => Ret (Err e)
  | Ok val :: rest =>
      accum <- set accum i val ;;
      let i := S i in
      if Nat.eqb i (length accum) then Ret (Ok (accum, rest)) else de_array_fill rest accum i
  end.
(** lib.rs:633-635  second loop, without [serialize_deny_unknown] *)
Fixpoint de_array_rest (items : list (result N de_error)) : result unit de_error :=
  match items with
  | [] => Ok tt
  | Err e :: _ => Err e
  | Ok _ :: rest => de_array_rest rest
  end.
(** lib.rs:606-641, without [serialize_deny_unknown] (583-585: [from_array]) *)
Definition de_array (input : result (list (result N de_error)) de_error) : M (result (eset T) de_error) :=
  match input with
  | Err e => Ret (Err e)
  | Ok items =>
      r <- de_array_fill items (repeat 0 (r_preferred_array_len (et_repr T))) 0 ;;
      try_ r (fun '(accum, rest) =>
      try_ (de_array_rest rest) (fun _ =>
      s <- es_from_array T accum ;; Ret (Ok s)))
  end.

(** The same with a [SeqAccess] that need not keep answering [None]: each call of
    [next_element] takes the next answer; [None] ends the loop that asked, and
    the second loop (633) asks again. After the last answer it is [None] forever. *)
Definition answers : Type := list (result (option N) de_error).
Fixpoint de_array_fill_answers (l : answers) (accum : list N) (i : nat) : M (result (list N * answers) de_error) :=
  match l with
  | [] => Ret (Ok (accum, []))
  | Err e :: _ => Ret (Err e)
  | Ok None :: rest => Ret (Ok (accum, rest))
  | Ok (Some val) :: rest =>
      accum <- set accum i val ;;
      let i := S i in
      if Nat.eqb i (length accum) then Ret (Ok (accum, rest)) else de_array_fill_answers rest accum i
  end.
Fixpoint de_array_rest_answers (l : answers) : result unit de_error :=
  match l with
  | [] => Ok tt
  | Err e :: _ => Err e
  | Ok None :: _ => Ok tt
  | Ok (Some _) :: rest => de_array_rest_answers rest
  end.
Definition de_array_answers (l : answers) : M (result (eset T) de_error) :=
  r <- de_array_fill_answers l (repeat 0 (r_preferred_array_len (et_repr T))) 0 ;;
  try_ r (fun '(accum, rest) =>
  try_ (de_array_rest_answers rest) (fun _ =>
  s <- es_from_array T accum ;; Ret (Ok s))).

(** What a deserializer hands out when it is asked for an integer of a given
    type, a sequence of variants, a map from variants to booleans or a sequence
    of u64. *)
Record de_source : Type := {
  src_int : ity -> result N de_error;
  src_list : result (list (result nat de_error)) de_error;
  src_map : result (list (result (nat * bool) de_error)) de_error;
  src_words : result (list (result N de_error)) de_error
}.
(** set.rs:440-446, lib.rs:433-644  [Deserialize for EnumSet] *)
Definition es_deserialize (src : de_source) : M (result (eset T) de_error) :=
  match et_serde T with
  | SU8 => de_int U8 (src_int src U8)
  | SU16 => de_int U16 (src_int src U16)
  | SU32 => de_int U32 (src_int src U32)
  | SU64 => de_int U64 (src_int src U64)
  | SU128 => de_int U128 (src_int src U128)
  | SList => de_list (src_list src)
  | SMap => de_map (src_map src)
  | SArray => de_array (src_words src)
  end.
End De.

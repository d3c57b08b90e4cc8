(** * The data format bincode 1 as a sink and as a source

    bincode is not part of the repository; enumset/tests/serde.rs (59-68, 88-92,
    101-105) uses [bincode::serialize] and [bincode::deserialize]. This file models
    them from the documented format: integers of fixed width in little-endian
    order, lengths as u64, an enum as the u32 index of its variant, a bool as one
    byte, nothing at the end of a sequence; bytes left over are ignored. Elements
    of lists and maps use the [Serialize] and [Deserialize] that serde derives for
    a fieldless enum. *)
From Verif Require Import Base Syntax Derive EnumSet Serde.

Fixpoint le_bytes (n : nat) (x : N) : list N :=
  match n with O => [] | S n => x mod 256 :: le_bytes n (x / 256) end.
Fixpoint le_value (l : list N) : N :=
  match l with [] => 0 | b :: l => b + 256 * le_value l end.
Definition ity_bytes (pw : N) (t : ity) : nat := N.to_nat (ity_bits pw t / 8).

(** Writing into a [Vec<u8>] does not fail. *)
Definition bin_bytes (pw : N) (e : sevent) : list N :=
  match e with
  | EvInt t x => le_bytes (ity_bytes pw t) x
  | EvSeq len | EvMap len => le_bytes 8 len
  | EvLimb x => le_bytes 8 x
  | EvElem v => le_bytes 4 (N.of_nat v)
  | EvEntry v b => le_bytes 4 (N.of_nat v) ++ [if b then 1 else 0]
  | EvSeqEnd | EvMapEnd => []
  end.
Definition bin_emit (pw : N) (e : sevent) (w : list N) : bool * list N := (true, w ++ bin_bytes pw e).
(** [bincode::serialize(&set)] *)
Definition bin_serialize (T : EnumTy) (s : eset T) : M (bool * list N) := es_serialize T (bin_emit (et_pw T)) s [].

(** The errors a reader reports *)
Definition bin_eof : de_error := DeInput 0.
Definition bin_bad_bool : de_error := DeInput 1.
Definition bin_bad_index : de_error := DeInput 2.
Definition bin_too_long : de_error := DeInput 3.

Definition reader (A : Type) : Type := list N -> result (A * list N) de_error.
(** An integer of [n] bytes *)
Definition read_int (n : nat) : reader N := fun input =>
  if Nat.ltb (length input) n then Err bin_eof else Ok (le_value (firstn n input), skipn n input).
Definition read_bool : reader bool := fun input =>
  match input with
  | [] => Err bin_eof
  | 0 :: rest => Ok (false, rest)
  | 1 :: rest => Ok (true, rest)
  | _ => Err bin_bad_bool
  end.
(** A variant of an enum with [n] variants; serde's derived code refuses an
    index that is too large. *)
Definition read_variant (n : nat) : reader nat := fun input =>
  match read_int 4 input with
  | Err e => Err e
  | Ok (x, rest) => if x <? N.of_nat n then Ok (N.to_nat x, rest) else Err bin_bad_index
  end.
Definition read_entry (n : nat) : reader (nat * bool) := fun input =>
  match read_variant n input with
  | Err e => Err e
  | Ok (v, rest) => match read_bool rest with Err e => Err e | Ok (b, rest) => Ok ((v, b), rest) end
  end.
(** What the [SeqAccess] or [MapAccess] answers: [count] items or an error. Every
    item takes a byte or more, so [fuel] above the number of bytes is enough. *)
Fixpoint read_items {A} (item : reader A) (fuel : nat) (count : N) (input : list N) : list (result A de_error) :=
  match fuel with
  | O => []
  | S fuel =>
      if count =? 0 then []
      else match item input with
           | Err e => [Err e]
           | Ok (x, rest) => Ok x :: read_items item fuel (count - 1) rest
           end
  end.
(** A length is a u64 that must fit in a usize. *)
Definition read_seq {A} (pw : N) (item : reader A) (input : list N) : result (list (result A de_error)) de_error :=
  match read_int 8 input with
  | Err e => Err e
  | Ok (count, rest) =>
      if count <? 2 ^ pw then Ok (read_items item (S (length rest)) count rest) else Err bin_too_long
  end.
Definition bin_source (T : EnumTy) (input : list N) : de_source :=
  let pw := et_pw T in
  let n := length (et_variants T) in
  {| src_int := fun t => match read_int (ity_bytes pw t) input with Ok (x, _) => Ok x | Err e => Err e end;
     src_list := read_seq pw (read_variant n) input;
     src_map := read_seq pw (read_entry n) input;
     src_words := read_seq pw (read_int 8) input |}.
(** [bincode::deserialize::<EnumSet<T>>(input)] *)
Definition bin_deserialize (T : EnumTy) (input : list N) : M (result (eset T) de_error) :=
  es_deserialize T (bin_source T input).

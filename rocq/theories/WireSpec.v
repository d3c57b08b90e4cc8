(** * Vocabulary of the claims about what serialization writes *)
From Verif Require Import Base Syntax Spec Derive EnumSet Serde.

(** Whatever the sink is and wherever it fails, serializing [s] sends exactly the
    events [es] to it, one after the other. *)
Definition Writes (T : EnumTy) (s : eset T) (es : list sevent) : Prop :=
  forall W (emit : sevent -> W -> bool * W) w, es_serialize T emit s w = Ret (perform emit es w).

(** ** Bytes *)
Definition bytes_ok (l : list N) : Prop := Forall (fun b => b < 256) l.
(** Bit [i] of a byte sequence. *)
Definition byte_bit (l : list N) (i : N) : bool := N.testbit (nth (N.to_nat (i / 8)) l 0) (i mod 8).
(** [l] is the number [x] in [n] bytes, the least significant one first. *)
Definition little_endian (n : N) (x : N) (l : list N) : Prop :=
  N.of_nat (length l) = n /\ bytes_ok l /\ forall i, byte_bit l i = N.testbit x i.
(** The set bits of [l] are the discriminants of the members of [A]. *)
Definition bytes_hold (inp : derive_input) (l : list N) (A : vset) : Prop :=
  bytes_ok l /\ forall i, byte_bit l i = true <-> exists v, variant inp v /\ discr inp v = i /\ A v = true.

(** What bincode makes of a set with the members [A]:
    - integers: a bit set of the width of the integer type;
    - lists: the number of members in 8 bytes, then the index of each member in
      4 bytes, by increasing discriminant;
    - maps: the same with a byte 1 after each index;
    - arrays: the number of words in 8 bytes, then a bit set of that many words. *)
Definition bincode_layout (inp : derive_input) (r : serde_repr) (A : vset) (bytes : list N) : Prop :=
  match r with
  | SList => exists l count items, lists_set inp A l /\ little_endian 8 (N.of_nat (length l)) count /\
      Forall2 (fun v item => little_endian 4 (N.of_nat v) item) l items /\ bytes = count ++ concat items
  | SMap => exists l count items, lists_set inp A l /\ little_endian 8 (N.of_nat (length l)) count /\
      Forall2 (fun v item => exists key, little_endian 4 (N.of_nat v) key /\ item = key ++ [1]) l items /\
      bytes = count ++ concat items
  | SArray => exists count data, little_endian 8 (words_written inp A) count /\
      N.of_nat (length data) = 8 * words_written inp A /\ bytes_hold inp data A /\ bytes = count ++ data
  | SU8 => length bytes = 1%nat /\ bytes_hold inp bytes A
  | SU16 => length bytes = 2%nat /\ bytes_hold inp bytes A
  | SU32 => length bytes = 4%nat /\ bytes_hold inp bytes A
  | SU64 => length bytes = 8%nat /\ bytes_hold inp bytes A
  | SU128 => length bytes = 16%nat /\ bytes_hold inp bytes A
  end.

(** The bytes read as a set with the members [A]. In an integer, [deny] forbids bits
    that belong to no variant; in an array, the words the storage has may have no
    such bits. *)
Definition bincode_stands (pw : N) (inp : derive_input) (r : serde_repr) (deny : bool) (bytes : list N) (A : vset) : Prop :=
  match r with
  | SList => exists vs count items, Forall (variant inp) vs /\ N.of_nat (length vs) < 2 ^ pw /\
      little_endian 8 (N.of_nat (length vs)) count /\
      Forall2 (fun v item => little_endian 4 (N.of_nat v) item) vs items /\
      bytes = count ++ concat items /\ (forall v, A v = true <-> In v vs)
  | SMap => exists es count items, Forall (fun e => variant inp (fst e)) es /\ N.of_nat (length es) < 2 ^ pw /\
      little_endian 8 (N.of_nat (length es)) count /\
      Forall2 (fun e item => exists key, little_endian 4 (N.of_nat (fst e)) key /\ item = key ++ [if snd e : bool then 1 else 0]) es items /\
      bytes = count ++ concat items /\ (forall v, A v = true <-> In (v, true) es)
  | SArray => exists ws count items, N.of_nat (length ws) < 2 ^ pw /\
      little_endian 8 (N.of_nat (length ws)) count /\ Forall2 (little_endian 8) ws items /\ bytes = count ++ concat items /\
      only_variant_words inp (firstn (N.to_nat (storage_words (storage_of inp))) ws) /\
      (forall v, A v = word_bit ws (discr inp v))
  | _ => exists x t, sr_ity r = Some t /\ little_endian (ity_bits pw t / 8) x bytes /\
      (deny = true -> only_variant_bits inp x) /\ (forall v, A v = bits_set inp x v)
  end.

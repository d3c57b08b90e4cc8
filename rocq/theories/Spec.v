(** * The specification: what the theorems say, independently of the model

    This file only uses the input syntax of the derive macro ([Syntax.v]) and
    the Coq standard library. *)
From Coq Require Import Sorted.
From Verif Require Import Base Syntax.

(** ** Variants and discriminants *)

(** Variants are numbered in declaration order. *)
Definition variant (inp : derive_input) (v : nat) : Prop := (v < length (in_variants inp))%nat.
Definition variants (inp : derive_input) : list nat := seq 0 (length (in_variants inp)).
(** The discriminants the compiler assigns. *)
Definition discrs (inp : derive_input) : list N := rustc_discrs (in_variants inp).
Definition discr (inp : derive_input) (v : nat) : N := nth v (discrs inp) 0.

(** [max_discr] is 0 for the empty enum. *)
Definition max_discr (inp : derive_input) : N := fold_right N.max 0 (discrs inp).

(** ** Which declarations should be accepted *)
Definition literal_discr (v : variant_decl) : Prop :=
  match vd_discr v with None => True | Some (DInt _) => True | Some _ => False end.

Definition rust_repr_names : list string :=
  ["C"; "Rust"; "u8"; "u16"; "u32"; "u64"; "u128"; "usize";
   "i8"; "i16"; "i32"; "i64"; "i128"; "isize"]%string.
Definition repr_names : list string := ["u8"; "u16"; "u32"; "u64"; "u128"; "array"]%string.
Definition serialize_repr_names : list string :=
  ["u8"; "u16"; "u32"; "u64"; "u128"; "list"; "map"; "array"]%string.

(** Number of bits of a representation named in an attribute; [None]: unbounded. *)
Definition name_bits (s : string) : option N :=
  (if s =? "u8" then Some 8 else if s =? "u16" then Some 16 else if s =? "u32" then Some 32
   else if s =? "u64" then Some 64 else if s =? "u128" then Some 128 else None)%string.

(** The serialization format in force, by name: [serialize_as_list] wins over
    [serialize_as_map], which wins over [serialize_repr]; [None]: the default. *)
Definition serialize_choice (a : attrs) : option string :=
  if at_as_list a then Some "list"%string
  else if at_as_map a then Some "map"%string
  else at_serialize_repr a.

Definition name_fits (inp : derive_input) (name : option string) : Prop :=
  forall s b, name = Some s -> name_bits s = Some b -> max_discr inp < b.

Record WellFormed (inp : derive_input) : Prop := {
  wf_not_generic : in_generic inp = false;
  wf_is_enum : in_is_enum inp = true;
  wf_rust_reprs : forall r, In r (in_rust_reprs inp) -> exists s, r = Some s /\ In s rust_repr_names;
  wf_repr : forall s, at_repr (in_attrs inp) = Some s -> In s repr_names;
  wf_serialize_repr : forall s, at_serialize_repr (in_attrs inp) = Some s -> In s serialize_repr_names;
  wf_names : NoDup (map vd_name (in_variants inp));
  wf_unit : forall v, In v (in_variants inp) -> vd_unit v = true;
  wf_literal : forall v, In v (in_variants inp) -> literal_discr v;
  wf_max : forall d, In d (discrs inp) -> d <= 0xFFFFFFBF;
  wf_distinct : NoDup (discrs inp);
  wf_repr_fits : name_fits inp (at_repr (in_attrs inp));
  wf_serialize_fits : name_fits inp (serialize_choice (in_attrs inp))
}.

(** ** Numbers denoted by sets *)

(** A mathematical set of variants. *)
Definition vset : Type := nat -> bool.

(** The sum of [2^discriminant] over the members. *)
Definition set_value (inp : derive_input) (A : vset) : N :=
  fold_right (fun v sum => (if A v then 2 ^ discr inp v else 0) + sum) 0 (variants inp).

(** Number of members. *)
Definition set_size (inp : derive_input) (A : vset) : N :=
  N.of_nat (length (filter A (variants inp))).

(** The set of variants whose bit is set in the number [x]. *)
Definition bits_set (inp : derive_input) (x : N) : vset := fun v => N.testbit x (discr inp v).

(** Every set bit of [x] is the discriminant of a variant. *)
Definition only_variant_bits (inp : derive_input) (x : N) : Prop :=
  forall i, N.testbit x i = true -> exists v, variant inp v /\ discr inp v = i.

(** ** Little-endian sequences of 64-bit words *)
Definition words_ok (l : list N) : Prop := Forall (fun x => x < 2 ^ 64) l.
(** Bit [i] of a word sequence. *)
Definition word_bit (l : list N) (i : N) : bool :=
  N.testbit (nth (N.to_nat (i / 64)) l 0) (i mod 64).
Definition only_variant_words (inp : derive_input) (l : list N) : Prop :=
  forall i, word_bit l i = true -> exists v, variant inp v /\ discr inp v = i.
(** The words hold exactly the members of [A] with a discriminant below [b]. *)
Definition words_hold (inp : derive_input) (l : list N) (A : vset) (b : N) : Prop :=
  words_ok l /\
  forall i, word_bit l i = true <-> exists v, variant inp v /\ discr inp v = i /\ A v = true /\ i < b.

(** ** Ordered element lists *)
Definition discr_lt (inp : derive_input) (u v : nat) : Prop := discr inp u < discr inp v.
(** [l] lists the members of [A] once each in increasing discriminant order. *)
Definition lists_set (inp : derive_input) (A : vset) (l : list nat) : Prop :=
  StronglySorted (discr_lt inp) l /\ forall v, In v l <-> variant inp v /\ A v = true.

(** ** Double-ended queues *)
Inductive pop : Type := Front | Back.
(** Removing an element at one end of a list; nothing happens to the empty list. *)
Definition pop_end {A} (p : pop) (l : list A) : option A * list A :=
  match p with
  | Front => (hd_error l, tl l)
  | Back => (hd_error (rev l), rev (tl (rev l)))
  end.
(** The results of a sequence of pops, and what is left. *)
Fixpoint pops {A} (ps : list pop) (l : list A) : list (option A) * list A :=
  match ps with
  | [] => ([], l)
  | p :: ps => let '(o, l) := pop_end p l in let '(os, l) := pops ps l in (o :: os, l)
  end.

(** ** Sequences of fallible actions *)

(** Performing actions on a sink one after the other until one fails;
    [true]: all succeeded. *)
Fixpoint perform {Act W} (act : Act -> W -> bool * W) (l : list Act) (w : W) : bool * W :=
  match l with
  | [] => (true, w)
  | a :: l => let '(ok, w) := act a w in if ok then perform act l w else (false, w)
  end.
(** All values, or the first error. *)
Fixpoint all_ok {A E} (l : list (result A E)) : result (list A) E :=
  match l with
  | [] => Ok []
  | Err e :: _ => Err e
  | Ok a :: l => match all_ok l with Ok r => Ok (a :: r) | Err e => Err e end
  end.

(** ** Printed text *)
Inductive piece : Type := PText (s : string) | PElem (v : nat).
Fixpoint separated (l : list nat) : list piece :=
  match l with
  | [] => []
  | [v] => [PElem v]
  | v :: l => PElem v :: PText " | " :: separated l
  end.
Definition display_pieces (l : list nat) : list piece := separated l.
Definition debug_pieces (l : list nat) : list piece :=
  PText "EnumSet(" :: separated l ++ [PText ")"].

(** ** Storage *)

(** What a set is stored in: an unsigned integer of [bits] bits or [n] words of
    64 bits. A named integer is used as it is; otherwise the smallest integer of
    8, 16, 32 or 64 bits, or an array just large enough. *)
Inductive storage : Type := SInt (bits : N) | SWords (n : N).
Definition storage_of (inp : derive_input) : storage :=
  let words := SWords (max_discr inp / 64 + 1) in
  match at_repr (in_attrs inp) with
  | Some name => match name_bits name with Some b => SInt b | None => words end
  | None =>
      if max_discr inp <? 8 then SInt 8
      else if max_discr inp <? 16 then SInt 16
      else if max_discr inp <? 32 then SInt 32
      else if max_discr inp <? 64 then SInt 64
      else words
  end.
Definition storage_bits (st : storage) : N := match st with SInt b => b | SWords n => 64 * n end.
(** Number of 64-bit words needed to hold the storage. *)
Definition storage_words (st : storage) : N := match st with SInt b => (b + 63) / 64 | SWords n => n end.

(** Lexicographic comparison of word sequences, first word first. *)
Fixpoint lex_compare (l l' : list N) : comparison :=
  match l, l' with
  | [], [] => Eq
  | [], _ => Lt
  | _, [] => Gt
  | x :: l, y :: l' => match x ?= y with Eq => lex_compare l l' | c => c end
  end.

(** ** Serialization formats *)

(** The name of the serialization format in force. *)
Definition serialize_name (inp : derive_input) : string :=
  match serialize_choice (in_attrs inp) with
  | Some s => s
  | None =>
      if max_discr inp <? 8 then "u8"%string
      else if max_discr inp <? 16 then "u16"%string
      else if max_discr inp <? 32 then "u32"%string
      else if max_discr inp <? 64 then "u64"%string
      else if max_discr inp <? 128 then "u128"%string
      else "array"%string
  end.

(** Number of words written by the array format: the words up to the last one
    that is not zero and one more, if the storage has one more; one word for the
    empty set. *)
Definition words_written (inp : derive_input) (A : vset) : N :=
  let x := set_value inp A in
  if x =? 0 then 1 else N.min (storage_words (storage_of inp)) (N.log2 x / 64 + 2).

(** ** Text *)
Definition display_text (elem : nat -> string) (l : list nat) : string := String.concat " | " (map elem l).
Definition debug_text (elem : nat -> string) (l : list nat) : string :=
  ("EnumSet(" ++ display_text elem l ++ ")")%string.
Definition text_prefix (p t : string) : Prop := exists r, t = (p ++ r)%string.
(** An action on a sink that appends the text [t], or fails having appended only
    a prefix of it. [text w] is what the sink [w] has received so far. *)
Definition appends {W} (text : W -> string) (t : string) (act : W -> bool * W) : Prop :=
  forall w, match act w with
            | (true, w') => text w' = (text w ++ t)%string
            | (false, w') => exists p, text_prefix p t /\ text w' = (text w ++ p)%string
            end.

(** * The texts of integer literals, after the Rust reference *)
From Coq Require Import Ascii.
From Verif Require Import Base.
Local Open Scope string_scope.

(** [c] is the digit [d]. *)
Definition digit_is (c : Ascii.ascii) (d : N) : Prop :=
  String.get (N.to_nat d) "0123456789abcdef" = Some c \/ String.get (N.to_nat d) "0123456789ABCDEF" = Some c.
(** Digits of the base, with underscores anywhere. *)
Inductive digits (base : N) : string -> list N -> Prop :=
| digits_end : digits base "" []
| digits_underscore s ds : digits base s ds -> digits base ("_" ++ s) ds
| digits_digit c d s ds : digit_is c d -> d < base -> digits base s ds -> digits base (String c s) (d :: ds).
(** The number that digits stand for, by the places of the digits. *)
Fixpoint number (base : N) (ds : list N) : N :=
  match ds with [] => 0 | d :: ds => d * base ^ N.of_nat (length ds) + number base ds end.

Definition letter (c : Ascii.ascii) : Prop :=
  exists i, String.get i "abcdefghijklmnopqrstuvwxyz" = Some c \/ String.get i "ABCDEFGHIJKLMNOPQRSTUVWXYZ" = Some c.
Definition decimal (c : Ascii.ascii) : Prop := exists i, String.get i "0123456789" = Some c.
Definition begins (P : Ascii.ascii -> Prop) (s : string) : Prop := exists c r, s = String c r /\ P c.
(** A suffix is empty or a word beginning with a letter. *)
Definition suffix_word (s : string) : Prop :=
  s = "" \/ (begins letter s /\ forall i c, String.get i s = Some c -> letter c \/ decimal c \/ c = "_"%char).

Inductive prefixed : string -> N -> Prop :=
| base_10 : prefixed "" 10
| base_2 : prefixed "0b" 2
| base_8 : prefixed "0o" 8
| base_16 : prefixed "0x" 16.

(** Behind the digits of a decimal number this makes it a float: an [e],
    underscores and a digit. *)
Definition letter_e (c : Ascii.ascii) : Prop := c = "e"%char \/ c = "E"%char.
Definition exponent_suffix (s : string) : Prop :=
  exists e k d rest, s = String e rest /\ letter_e e /\ decimal d /\
    (forall i, (i < k)%nat -> String.get i rest = Some "_"%char) /\ String.get k rest = Some d.
(** [text] is an integer with the value [n] and the suffix [suffix], which begins
    where the digits cannot be continued. *)
Inductive integer_text : string -> N -> string -> Prop :=
| integer_of prefix base body ds suffix :
    prefixed prefix base -> digits base body ds -> ds <> [] -> suffix_word suffix ->
    (base = 10 -> ~ exponent_suffix suffix) ->
    ~ begins (fun c => exists d, digit_is c d /\ d < base) suffix ->
    (prefix = "" -> ~ begins (eq "_"%char) body) ->
    (* [0b], [0o] and [0x] are prefixes *)
    ~ (prefix = "" /\ body = "0" /\ begins (fun c => c = "b"%char \/ c = "o"%char \/ c = "x"%char) suffix) ->
    integer_text (prefix ++ body ++ suffix) (number base ds) suffix.
(** In Rust the suffix of an integer does not begin with an [e] either. *)
Definition literal (text : string) (n : N) (suffix : string) : Prop :=
  integer_text text n suffix /\ ~ begins letter_e suffix.

(** The discriminants of variants written with these literals (Rust reference,
    "Discriminants"). *)
Inductive text_discrs : N -> list (option string) -> list N -> Prop :=
| td_end next : text_discrs next [] []
| td_implicit next ts ds : text_discrs (next + 1) ts ds -> text_discrs next (None :: ts) (next :: ds)
| td_explicit next t n suffix ts ds : literal t n suffix -> text_discrs (n + 1) ts ds ->
    text_discrs next (Some t :: ts) (n :: ds).

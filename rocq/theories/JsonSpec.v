(** * Vocabulary of the claims about JSON *)
From Coq Require Import DecimalString.
From Verif Require Import Base Syntax Spec Derive EnumSet Serde.

(** ** Texts made of tokens *)
Definition white (w : string) : Prop :=
  forall c, In c (list_ascii_of_string w) -> In (Ascii.N_of_ascii c) [9; 10; 13; 32].
(** [text] consists of the tokens [ts] with any white space before, between and
    behind them. *)
Inductive spaced : list string -> string -> Prop :=
| spaced_end w : white w -> spaced [] w
| spaced_token w t ts text : white w -> spaced ts text -> spaced (t :: ts) (w ++ t ++ text)%string.
(** The tokens without any white space. *)
Definition unspaced (ts : list string) : string := fold_right append ""%string ts.
(** Items, each a list of tokens, with the token [sep] between them. *)
Fixpoint joined {A} (sep : A) (items : list (list A)) : list A :=
  match items with
  | [] => []
  | [x] => x
  | x :: items => x ++ sep :: joined sep items
  end.

(** ** Names and numbers *)

(** Text that stands for itself in a string: no quote, no backslash, no control
    character. *)
Definition plain (s : string) : Prop :=
  forall c, In c (list_ascii_of_string s) ->
    32 <= Ascii.N_of_ascii c /\ Ascii.N_of_ascii c <> 34 /\ Ascii.N_of_ascii c <> 92.
(** The names by which serde knows the variants, different for different
    variants. Identifiers are plain. *)
Record Names (inp : derive_input) (names : list string) : Prop := {
  nm_length : length names = length (in_variants inp);
  nm_distinct : NoDup names;
  nm_plain : forall s, In s names -> plain s
}.
(** Escape sequences aside, a string stands for itself. *)
Definition Unescapes (unescape : string -> option string) : Prop := forall s, plain s -> unescape s = Some s.

Definition quoted (s : string) : string := ("""" ++ s ++ """")%string.
Definition name_text (names : list string) (v : nat) : string := quoted (nth v names ""%string).
Definition decimal (x : N) : string := NilZero.string_of_uint (N.to_uint x).
Definition bool_text (b : bool) : string := if b then "true"%string else "false"%string.

(** ** Values *)

(** Between the quotes of a string: a backslash escapes the character behind it;
    quotes and control characters need one. *)
Inductive string_body : string -> Prop :=
| body_end : string_body ""
| body_char c r : 32 <= Ascii.N_of_ascii c -> Ascii.N_of_ascii c <> 34 -> Ascii.N_of_ascii c <> 92 ->
    string_body r -> string_body (String c r)
| body_escape c r : string_body r -> string_body ("\" ++ String c r)%string.
(** A string of JSON that stands for [s]. *)
Definition literal (unescape : string -> option string) (s text : string) : Prop :=
  exists body, text = quoted body /\ string_body body /\ unescape body = Some s.
(** An element of a list: the name, or an object with the name as its key. *)
Inductive element_text (unescape : string -> option string) (names : list string) (v : nat) : list string -> Prop :=
| element_string t : literal unescape (nth v names ""%string) t -> element_text unescape names v [t]
| element_object t : literal unescape (nth v names ""%string) t ->
    element_text unescape names v ["{"; t; ":"; "null"; "}"]%string.
(** An entry of an object. *)
Inductive entry_text (unescape : string -> option string) (names : list string) : nat * bool -> list string -> Prop :=
| entry_string v b t : literal unescape (nth v names ""%string) t -> entry_text unescape names (v, b) [t; ":"; bool_text b]%string.
Definition array_tokens (items : list (list string)) : list string := ("[" :: joined "," items ++ ["]"])%string.
Definition entry_tokens (names : list string) (e : nat * bool) : list string :=
  [name_text names (fst e); ":"; bool_text (snd e)]%string.
Definition object_tokens (items : list (list string)) : list string := ("{" :: joined "," items ++ ["}"])%string.

(** What JSON makes of a set with the members [A]:
    - integers: the sum of [2^discriminant] as a decimal number;
    - lists: the names of the members, by increasing discriminant;
    - maps: the same with the value [true] for each;
    - arrays: words holding the members, as decimal numbers. *)
Definition json_layout (inp : derive_input) (names : list string) (r : serde_repr) (A : vset) (ts : list string) : Prop :=
  match r with
  | SList => exists l, lists_set inp A l /\ ts = array_tokens (map (fun v => [name_text names v]) l)
  | SMap => exists l, lists_set inp A l /\ ts = object_tokens (map (fun v => entry_tokens names (v, true)) l)
  | SArray => exists ws, N.of_nat (length ws) = words_written inp A /\
      words_hold inp ws A (64 * N.of_nat (length ws)) /\
      (forall v, variant inp v -> A v = true -> discr inp v < 64 * N.of_nat (length ws)) /\
      ts = array_tokens (map (fun w => [decimal w]) ws)
  | _ => ts = [decimal (set_value inp A)]
  end.

(** The texts read as a set with the members [A]. In a number, [deny] forbids bits
    that belong to no variant; in an array, the words the storage has may have no
    such bits. *)
Definition json_stands (pw : N) (inp : derive_input) (names : list string) (unescape : string -> option string)
    (r : serde_repr) (deny : bool) (text : string) (A : vset) : Prop :=
  match r with
  | SList => exists vs items,
      Forall2 (fun v ts => variant inp v /\ element_text unescape names v ts) vs items /\
      spaced (array_tokens items) text /\ (forall v, A v = true <-> In v vs)
  | SMap => exists es items,
      Forall2 (fun e ts => variant inp (fst e) /\ entry_text unescape names e ts) es items /\
      spaced (object_tokens items) text /\ (forall v, A v = true <-> In (v, true) es)
  | SArray => exists ws, words_ok ws /\ spaced (array_tokens (map (fun w => [decimal w]) ws)) text /\
      only_variant_words inp (firstn (N.to_nat (storage_words (storage_of inp))) ws) /\
      (forall v, A v = word_bit ws (discr inp v))
  | _ => exists x t, sr_ity r = Some t /\ x < 2 ^ ity_bits pw t /\ spaced [decimal x] text /\
      (deny = true -> only_variant_bits inp x) /\ (forall v, A v = bits_set inp x v)
  end.

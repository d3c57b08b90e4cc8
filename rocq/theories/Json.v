(** * The data format JSON as a sink and as a source

    serde_json is not part of the repository; enumset/tests/serde.rs (76-83,
    109-131) uses [serde_json::to_string] and [serde_json::from_str]. This file
    models them for the requests the generated code makes, from the documented
    format: text without white space on output; on input, white space between
    tokens. A variant is written as its name, and read from its name or from an
    object [{name: null}]; a key of an object is a string. The elements use the
    [Serialize] and [Deserialize] that serde derives for a fieldless enum.

    Simplifications: all errors of the reader are the same; names are written as
    they are (no character of an identifier needs an escape); what an escape
    sequence in a string stands for is the parameter [unescape]. *)
From Coq Require Import DecimalString.
From Verif Require Import Base Syntax Derive EnumSet Serde.

Section Json.
(** The names serde uses for the variants, in declaration order. *)
Context (names : list string) (unescape : string -> option string).

(** ** Writing *)
Definition json_decimal (x : N) : string := NilZero.string_of_uint (N.to_uint x).
Definition json_name (v : nat) : string := ("""" ++ nth v names "" ++ """")%string.
(** The state of the writer: the text so far, and whether the open sequence or
    object is still empty. *)
Definition json_emit (e : sevent) (w : string * bool) : bool * (string * bool) :=
  let '(text, first) := w in
  let sep := (if first then "" else ",")%string in
  (true,
   match e with
   | EvInt _ x => (text ++ json_decimal x, first)
   | EvSeq _ => (text ++ "[", true)
   | EvLimb x => (text ++ sep ++ json_decimal x, false)
   | EvElem v => (text ++ sep ++ json_name v, false)
   | EvSeqEnd => (text ++ "]", false)
   | EvMap _ => (text ++ "{", true)
   | EvEntry v b => (text ++ sep ++ json_name v ++ ":" ++ (if b then "true" else "false"), false)
   | EvMapEnd => (text ++ "}", false)
   end)%string.
(** [serde_json::to_string(&set)] *)
Definition json_serialize (T : EnumTy) (s : eset T) : M (bool * string) :=
  '(ok, (text, _)) <- es_serialize T json_emit s (""%string, true) ;; Ret (ok, text).

(** ** Tokens *)
Inductive jtoken : Type :=
| JOpen | JClose | JBegin | JEnd | JColon | JComma     (* [[ ] { } : ,] *)
| JString (s : string)
| JNumber (x : N)                                      (* a natural number *)
| JTrue | JFalse | JNull
| JOther.                                              (* anything else, and everything behind it *)

Definition is_space (c : Ascii.ascii) : bool :=
  let n := Ascii.N_of_ascii c in (n =? 32) || (n =? 9) || (n =? 10) || (n =? 13).
Definition digit_of (c : Ascii.ascii) : option N :=
  let n := Ascii.N_of_ascii c in if (48 <=? n) && (n <=? 57) then Some (n - 48) else None.
Definition is_letter (c : Ascii.ascii) : bool :=
  let n := Ascii.N_of_ascii c in (97 <=? n) && (n <=? 122).
Definition punctuation (c : Ascii.ascii) : option jtoken :=
  match Ascii.N_of_ascii c with
  | 91 => Some JOpen | 93 => Some JClose | 123 => Some JBegin | 125 => Some JEnd
  | 58 => Some JColon | 44 => Some JComma
  | _ => None
  end.
Definition word_token (s : string) : jtoken :=
  (if s =? "true" then JTrue else if s =? "false" then JFalse else if s =? "null" then JNull else JOther)%string.
Definition string_token (s : string) : jtoken :=
  match unescape s with Some s => JString s | None => JOther end.

(** Where the reader is: between tokens; in a string, after a backslash in it;
    in a number other than 0, after a leading 0; in a word. *)
Inductive jstate : Type :=
| LStart | LString (s : string) | LEscape (s : string) | LNumber (x : N) | LZero | LWord (s : string).

(** What begins with the character [c]. *)
Definition json_begin (c : Ascii.ascii) : list jtoken * option jstate :=
  if is_space c then ([], Some LStart)
  else match punctuation c with
       | Some t => ([t], Some LStart)
       | None =>
           match digit_of c with
           | Some 0 => ([], Some LZero)
           | Some d => ([], Some (LNumber d))
           | None =>
               if Ascii.N_of_ascii c =? 34 then ([], Some (LString ""%string))
               else if is_letter c then ([], Some (LWord (String c ""%string)))
               else ([JOther], None)
           end
       end.
(** A number may not be followed by what would make it a fraction. *)
Definition fraction (c : Ascii.ascii) : bool :=
  let n := Ascii.N_of_ascii c in (n =? 46) || (n =? 69) || (n =? 101).
Definition json_char (st : jstate) (c : Ascii.ascii) : list jtoken * option jstate :=
  match st with
  | LStart => json_begin c
  | LString s =>
      let n := Ascii.N_of_ascii c in
      if n =? 34 then
        match string_token s with JOther => ([JOther], None) | t => ([t], Some LStart) end
      else if n =? 92 then ([], Some (LEscape s))
      else if n <? 32 then ([JOther], None)
      else ([], Some (LString (s ++ String c "")%string))
  | LEscape s => ([], Some (LString (s ++ "\" ++ String c "")%string))
  | LNumber x =>
      match digit_of c with
      | Some d => ([], Some (LNumber (10 * x + d)))
      | None => if fraction c then ([JOther], None)
                else let '(ts, st) := json_begin c in (JNumber x :: ts, st)
      end
  | LZero =>
      match digit_of c with
      | Some _ => ([JOther], None)
      | None => if fraction c then ([JOther], None)
                else let '(ts, st) := json_begin c in (JNumber 0 :: ts, st)
      end
  | LWord s =>
      if is_letter c then ([], Some (LWord (s ++ String c "")%string))
      else match word_token s with
           | JOther => ([JOther], None)
           | t => let '(ts, st) := json_begin c in (t :: ts, st)
           end
  end.
(** The end of the text. *)
Definition json_end (st : jstate) : list jtoken :=
  match st with
  | LStart => []
  | LString _ | LEscape _ => [JOther]
  | LNumber x => [JNumber x]
  | LZero => [JNumber 0]
  | LWord s => [word_token s]
  end.
Fixpoint json_tokens (st : jstate) (text : string) : list jtoken :=
  match text with
  | EmptyString => json_end st
  | String c text =>
      match json_char st c with
      | (ts, Some st) => ts ++ json_tokens st text
      | (ts, None) => ts
      end
  end.

(** ** Reading *)
Definition json_error : de_error := DeInput 0.
(** The variant with the given name. *)
Fixpoint find_name (l : list string) (s : string) (k : nat) : option nat :=
  match l with
  | [] => None
  | n :: l => if (n =? s)%string then Some k else find_name l s (S k)
  end.
Definition read_name (s : string) : result nat de_error :=
  match find_name names s 0 with Some v => Ok v | None => Err json_error end.

(** What the [SeqAccess] or [MapAccess] answers behind an item (items, the last
    of which may be an error), and the tokens behind the closing bracket. *)
Definition items (A : Type) : Type := list (result A de_error) * option (list jtoken).
Definition no_items {A} : items A := ([Err json_error], None).
Definition item {A} (x : result A de_error) (more : items A) : items A :=
  match x with
  | Ok _ => (x :: fst more, snd more)
  | Err e => ([Err e], None)
  end.
Fixpoint more_variants (l : list jtoken) : items nat :=
  match l with
  | JClose :: l => ([], Some l)
  | JComma :: JString s :: l => item (read_name s) (more_variants l)
  | JComma :: JBegin :: JString s :: JColon :: JNull :: JEnd :: l => item (read_name s) (more_variants l)
  | _ => no_items
  end.
Fixpoint more_words (l : list jtoken) : items N :=
  match l with
  | JClose :: l => ([], Some l)
  | JComma :: JNumber x :: l => item (if x <? 2 ^ 64 then Ok x else Err json_error) (more_words l)
  | _ => no_items
  end.
Fixpoint more_entries (l : list jtoken) : items (nat * bool) :=
  match l with
  | JEnd :: l => ([], Some l)
  | JComma :: JString s :: JColon :: t :: l =>
      item (match read_name s, t with
            | Ok v, JTrue => Ok (v, true)
            | Ok v, JFalse => Ok (v, false)
            | _, _ => Err json_error
            end) (more_entries l)
  | _ => no_items
  end.
(** The first item is not preceded by a comma. *)
Definition variants_in (l : list jtoken) : items nat :=
  match l with JClose :: _ => more_variants l | _ => more_variants (JComma :: l) end.
Definition words_in (l : list jtoken) : items N :=
  match l with JClose :: _ => more_words l | _ => more_words (JComma :: l) end.
Definition entries_in (l : list jtoken) : items (nat * bool) :=
  match l with JEnd :: _ => more_entries l | _ => more_entries (JComma :: l) end.

Definition json_source (T : EnumTy) (l : list jtoken) : de_source :=
  {| src_int := fun t => match l with
                         | JNumber x :: _ => if x <? 2 ^ ity_bits (et_pw T) t then Ok x else Err json_error
                         | _ => Err json_error
                         end;
     src_list := match l with JOpen :: l => Ok (fst (variants_in l)) | _ => Err json_error end;
     src_map := match l with JBegin :: l => Ok (fst (entries_in l)) | _ => Err json_error end;
     src_words := match l with JOpen :: l => Ok (fst (words_in l)) | _ => Err json_error end |}.
(** The tokens behind the value. *)
Definition json_rest (T : EnumTy) (l : list jtoken) : option (list jtoken) :=
  match l with
  | [] => None
  | _ :: l => match et_serde T with
              | SList => snd (variants_in l)
              | SMap => snd (entries_in l)
              | SArray => snd (words_in l)
              | _ => Some l
              end
  end.
(** [serde_json::from_str::<EnumSet<T>>(text)]: the value, then nothing more *)
Definition json_deserialize (T : EnumTy) (text : string) : M (result (eset T) de_error) :=
  let l := json_tokens LStart text in
  r <- es_deserialize T (json_source T l) ;;
  match r, json_rest T l with
  | Ok s, Some [] => Ret (Ok s)
  | Ok s, _ => Ret (Err json_error)
  | Err e, _ => Ret (Err e)
  end.
End Json.

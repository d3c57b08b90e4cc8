(** * The texts of integer literals

    derive/src/lib.rs:209-213 takes the discriminant of a variant from a literal by
    [i.base10_parse()]. This models how syn 2 (src/lit.rs, [value::parse_lit_int])
    turns the text of the literal token into a number and a suffix; [base10_parse]
    then reads the number as a [u32], see [parse_discr]. Texts are ASCII: a suffix
    with other characters is not modelled. The derive macro sees no tokens that
    begin with a minus sign, which only other macros can make. *)
From Verif Require Import Base Syntax.

(** [byte(s, 0)]: the first byte, 0 at the end *)
Definition first_byte (s : string) : N := match s with EmptyString => 0 | String c _ => Ascii.N_of_ascii c end.
Definition rest_of (s : string) : string := match s with EmptyString => EmptyString | String _ s => s end.
Definition between (a n b : N) : bool := (a <=? n) && (n <=? b).

(** [ident::xid_ok] *)
Definition xid_start (n : N) : bool := (n =? 95) || between 97 n 122 || between 65 n 90.
Definition xid_continue (n : N) : bool := xid_start n || between 48 n 57.
Fixpoint all_continue (s : string) : bool :=
  match s with EmptyString => true | String c s => xid_continue (Ascii.N_of_ascii c) && all_continue s end.
Definition xid_ok (s : string) : bool :=
  match s with EmptyString => false | String c s => xid_start (Ascii.N_of_ascii c) && all_continue s end.

(** What follows an [e] makes the literal one of a float. *)
Fixpoint exponent (has_exp : bool) (s : string) : bool :=
  match s with
  | EmptyString => has_exp
  | String c r =>
      let n := Ascii.N_of_ascii c in
      if n =? 95 then exponent has_exp r
      else if (n =? 45) || (n =? 43) then true
      else if between 48 n 57 then exponent true r
      else has_exp && xid_ok s
  end.

(** The loop over the digits: the value, whether there was a digit, and what
    follows. [None] if the text is not that of an integer. *)
Fixpoint lit_digits (base value : N) (has_digit : bool) (s : string) : option (N * bool * string) :=
  match s with
  | EmptyString => Some (value, has_digit, s)
  | String c r =>
      let n := Ascii.N_of_ascii c in
      let digit d := if base <=? d then None else lit_digits base (value * base + d) true r in
      if between 48 n 57 then digit (n - 48)
      else if (10 <? base) && between 97 n 102 then digit (n - 97 + 10)
      else if (10 <? base) && between 65 n 70 then digit (n - 65 + 10)
      else if n =? 95 then lit_digits base value has_digit r
      else if (base =? 10) && (n =? 46) then None
      else if (base =? 10) && ((n =? 101) || (n =? 69)) then
        if exponent false r then None else Some (value, has_digit, s)
      else Some (value, has_digit, s)
  end.
(** [parse_lit_int]: the value and the suffix *)
Definition lit_int (s : string) : option (N * string) :=
  let second := first_byte (rest_of s) in
  let found :=
    if (first_byte s =? 48) && (second =? 120) then Some (16, rest_of (rest_of s))
    else if (first_byte s =? 48) && (second =? 111) then Some (8, rest_of (rest_of s))
    else if (first_byte s =? 48) && (second =? 98) then Some (2, rest_of (rest_of s))
    else if between 48 (first_byte s) 57 then Some (10, s)
    else None in
  match found with
  | None => None
  | Some (base, s) =>
      match lit_digits base 0 false s with
      | Some (value, true, suffix) => if (suffix =? "")%string || xid_ok suffix then Some (value, suffix) else None
      | _ => None
      end
  end.

(** lib.rs:208-219  the expression that a literal with this text is; a literal that
    is not one of an integer is refused like any other expression *)
Definition discr_of_text (text : string) : discr_expr :=
  match lit_int text with Some (n, _) => DInt n | None => DOther end.
(** A declaration without fields, its variants with the texts of their discriminants *)
Definition read_variants (vs : list (string * option string)) : list variant_decl :=
  map (fun v => MkVariant (fst v) true (option_map discr_of_text (snd v))) vs.

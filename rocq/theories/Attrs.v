(** * Decoding of the attributes of the derive macro

    Model of the struct [EnumsetAttrs] of /repo/enumset_derive/src/lib.rs, whose
    decoder is generated by darling 0.20 ([#[derive(FromDeriveInput)]]), and of
    the entry point of the macro. As in the rest of the model the tokens are
    already parsed by syn. *)
From Verif Require Import Base Syntax Derive Impls CrateName.
Open Scope string_scope.

(** ** Parsed attributes *)
Inductive expr : Type :=
| EStr (s : string)          (* a string literal, any form *)
| EBool (b : bool)
| EOther.                    (* any other literal or expression *)
(** [syn::Meta] without its path *)
Inductive meta : Type :=
| MWord                      (* [x] *)
| MList                      (* [x(..)] *)
| MValue (e : expr).         (* [x = e] *)
(** [darling::ast::NestedMeta]; paths are printed as strings *)
Inductive item : Type :=
| ILit                       (* a literal *)
| IMeta (path : string) (m : meta).
(** An attribute with its path. The tokens of a list are seen by two parsers:
    [items] is the list of comma separated [NestedMeta], [None] if they do not
    parse as one; [ident] is the identifier, [None] if they are not exactly one. *)
Inductive attr_form : Type :=
| AWord                                                               (* #[x] *)
| AList (items : option (list item)) (ident : option string)          (* #[x(..)] *)
| ANameValue.                                                         (* #[x = ..] *)
Record attribute : Type := MkAttribute { a_path : string; a_form : attr_form }.

(** ** Errors of darling, with the place they point at *)
Inductive attribute_error : Type :=
| ANoNameValue               (* Name-value arguments are not supported. *)
| AParse                     (* of syn *)
| ALiteral                   (* Unexpected meta-item format `literal` *)
| AUnknown (name : string)   (* Unknown field *)
| ADuplicate (name : string) (* Duplicate field *)
| AValue (name : string).    (* the value is not a boolean or a string *)
(** The number of the attribute and, except for a fault of the attribute as a
    whole, the number of the item in it *)
Definition place : Type := nat * option nat.
Definition errors : Type := list (place * attribute_error).

(** ** [FromMeta] of darling *)
(** [bool] and [SpannedValue<bool>]: [from_word], [from_bool], [from_string] *)
Definition bool_from_meta (m : meta) : option bool :=
  match m with
  | MWord => Some true
  | MValue (EBool b) => Some b
  | MValue (EStr s) => if s =? "true" then Some true else if s =? "false" then Some false else None
  | _ => None
  end.
(** [Option<String>] and [SpannedValue<Option<String>>] *)
Definition string_from_meta (m : meta) : option string :=
  match m with MValue (EStr s) => Some s | _ => None end.

(** ** The generated decoder *)
(** The local variable of a field: whether it was given, and its value if that
    was all right *)
Definition slot (V : Type) : Type := (bool * option V)%type.
Record slots : Type := MkSlots {
  s_no_ops : slot bool;
  s_no_super_impls : slot bool;
  s_repr : slot string;
  s_serialize_repr : slot string;
  s_deny_unknown : slot bool;
  s_crate_name : slot string;
  s_as_list : slot bool;
  s_as_map : slot bool
}.
Definition no_slots : slots :=
  MkSlots (false, None) (false, None) (false, None) (false, None) (false, None) (false, None) (false, None) (false, None).

(** One field: [if !x.0 { x = (true, errors.handle(from_meta(item))) } else { errors.push(duplicate_field) }] *)
Definition take {V} (from_meta : meta -> option V) (name : string) (p : place) (m : meta)
           (x : slot V) (es : errors) : slot V * errors :=
  if fst x then (x, es ++ [(p, ADuplicate name)])%list
  else match from_meta m with
       | Some v => ((true, Some v), es)
       | None => ((true, None), es ++ [(p, AValue name)])%list
       end.

(** derive/src/lib.rs:22-36  the match on the name of an item *)
Definition on_item (p : place) (it : item) (st : slots * errors) : slots * errors :=
  let '(s, es) := st in
  let '(MkSlots no_ops no_super_impls repr serialize_repr deny crate_name as_list as_map) := s in
  match it with
  | ILit => (s, es ++ [(p, ALiteral)])%list
  | IMeta name m =>
      if name =? "no_ops" then
        let '(x, es) := take bool_from_meta name p m no_ops es in
        (MkSlots x no_super_impls repr serialize_repr deny crate_name as_list as_map, es)
      else if name =? "no_super_impls" then
        let '(x, es) := take bool_from_meta name p m no_super_impls es in
        (MkSlots no_ops x repr serialize_repr deny crate_name as_list as_map, es)
      else if name =? "repr" then
        let '(x, es) := take string_from_meta name p m repr es in
        (MkSlots no_ops no_super_impls x serialize_repr deny crate_name as_list as_map, es)
      else if name =? "serialize_repr" then
        let '(x, es) := take string_from_meta name p m serialize_repr es in
        (MkSlots no_ops no_super_impls repr x deny crate_name as_list as_map, es)
      else if name =? "serialize_deny_unknown" then
        let '(x, es) := take bool_from_meta name p m deny es in
        (MkSlots no_ops no_super_impls repr serialize_repr x crate_name as_list as_map, es)
      else if name =? "crate_name" then
        let '(x, es) := take string_from_meta name p m crate_name es in
        (MkSlots no_ops no_super_impls repr serialize_repr deny x as_list as_map, es)
      else if name =? "serialize_as_list" then
        let '(x, es) := take bool_from_meta name p m as_list es in
        (MkSlots no_ops no_super_impls repr serialize_repr deny crate_name x as_map, es)
      else if name =? "serialize_as_map" then
        let '(x, es) := take bool_from_meta name p m as_map es in
        (MkSlots no_ops no_super_impls repr serialize_repr deny crate_name as_list x, es)
      else (s, es ++ [(p, AUnknown name)])%list
  end.
Fixpoint on_items (a i : nat) (l : list item) (st : slots * errors) : slots * errors :=
  match l with
  | [] => st
  | it :: l => on_items a (S i) l (on_item (a, Some i) it st)
  end.
(** [#[darling(attributes(enumset))]], lib.rs:21; [#[enumset]] is [#[enumset()]] *)
Definition on_attribute (a : nat) (x : attribute) (st : slots * errors) : slots * errors :=
  if a_path x =? "enumset" then
    match a_form x with
    | AWord => st
    | ANameValue => (fst st, snd st ++ [((a, None), ANoNameValue)])%list
    | AList None _ => (fst st, snd st ++ [((a, None), AParse)])%list
    | AList (Some l) _ => on_items a 0 l st
    end
  else st.
Fixpoint on_attributes (a : nat) (l : list attribute) (st : slots * errors) : slots * errors :=
  match l with
  | [] => st
  | x :: l => on_attributes (S a) l (on_attribute a x st)
  end.

(** All fields of [EnumsetAttrs] *)
Record options : Type := MkOptions {
  op_attrs : attrs;
  op_switches : switches;
  op_crate_name : option string
}.
(** Fields that are not given have the default value, lib.rs:20-21, 25, 27, 30 *)
Definition flag (x : slot bool) : bool := match snd x with Some b => b | None => false end.
(** [EnumsetAttrs::from_derive_input] *)
Definition decode_attributes (l : list attribute) : result options errors :=
  let '(s, es) := on_attributes 0 l (no_slots, []) in
  match es with
  | [] => Ok (MkOptions
                (MkAttrs (snd (s_repr s)) (snd (s_serialize_repr s)) (flag (s_deny_unknown s))
                         (flag (s_as_list s)) (flag (s_as_map s)))
                (MkSwitches (flag (s_no_ops s)) (flag (s_no_super_impls s)))
                (snd (s_crate_name s)))
  | _ => Err es
  end.

(** ** The entry point *)
(** lib.rs:998-1000  the [#[repr(..)]] attributes; [parse_args] also fails on
    [#[repr]] and [#[repr = ..]] *)
Definition rust_reprs (l : list attribute) : list (option string) :=
  flat_map (fun x => if a_path x =? "repr" then [match a_form x with AList _ id => id | _ => None end] else []) l.

(** The item the macro is applied to *)
Record source_item : Type := MkItem {
  it_attributes : list attribute;
  it_generic : bool;
  it_is_enum : bool;
  it_variants : list variant_decl
}.
Definition input_of (it : source_item) (o : options) : derive_input :=
  MkInput (it_generic it) (it_is_enum it) (rust_reprs (it_attributes it)) (op_attrs o) (it_variants it).

(** A compile error: those of darling, all at once, or the one of the macro *)
Inductive compile_error : Type :=
| CAttributes (es : errors)
| CMacro (e : derive_error) (sp : span).
(** What is generated: the path of the crate, the functions, the impls, the warnings *)
Record generated : Type := MkGenerated {
  g_crate : string;
  g_type : EnumTy;
  g_impls : list trait;
  g_warnings : list warning
}.

(** lib.rs:972-982  [derive_enum_set_type]; [lookup], [found] and [std] as in
    CrateName.v and Impls.v *)
Definition derive_item (is_ident : string -> bool) (md : build) (pw : N) (lookup : bool) (found : found_crate) (std : bool)
           (it : source_item) : M (result generated compile_error) :=
  match decode_attributes (it_attributes it) with
  | Err es => Ret (Err (CAttributes es))
  | Ok o =>
      let inp := input_of it o in
      r <- derive_named is_ident md pw (MkCrateOptions (op_crate_name o) lookup found) inp ;;
      match r with
      | Err (e, sp) => Ret (Err (CMacro e sp))
      | Ok (path, T) =>
          i <- derive_info md inp ;;
          match i with
          | Err (e, sp) => Ret (Err (CMacro e sp))
          | Ok i => Ret (Ok (MkGenerated path T (generated_impls (op_switches o) i) (warnings std (op_attrs o))))
          end
      end
  end.

(** * Vocabulary for claims about attributes *)
From Verif Require Import Base Syntax Spec Derive Impls CrateName Attrs.
Open Scope string_scope.

(** The options of [#[enumset(..)]], see the documentation of the derive macro *)
Definition flag_names : list string :=
  ["no_ops"; "no_super_impls"; "serialize_deny_unknown"; "serialize_as_list"; "serialize_as_map"].
Definition text_names : list string := ["repr"; "serialize_repr"; "crate_name"].

(** [x], [x = true], [x = "true"], [x = false], [x = "false"] *)
Inductive says : meta -> bool -> Prop :=
| Says_word : says MWord true
| Says_bool b : says (MValue (EBool b)) b
| Says_true : says (MValue (EStr "true")) true
| Says_false : says (MValue (EStr "false")) false.

(** What may be given for an option *)
Definition fits (name : string) (m : meta) : Prop :=
  In name flag_names /\ (exists b, says m b) \/
  In name text_names /\ (exists s, m = MValue (EStr s)).

(** The items of all [#[enumset(..)]] attributes *)
Definition items_of (x : attribute) : list item :=
  match x with MkAttribute "enumset" (AList (Some l) _) => l | _ => [] end.
Definition all_items (l : list attribute) : list item := flat_map items_of l.
Definition item_name (it : item) : string := match it with IMeta n _ => n | ILit => "" end.
(** Every [enumset] attribute can be read as a list of items. *)
Definition readable (l : list attribute) : Prop :=
  forall f, In (MkAttribute "enumset" f) l -> f = AWord \/ exists its id, f = AList (Some its) id.

(** The values of the options *)
Definition given_flag (l : list attribute) (name : string) (b : bool) : Prop :=
  b = true <-> exists m, In (IMeta name m) (all_items l) /\ says m true.
Definition given_text (l : list attribute) (name : string) (o : option string) : Prop :=
  forall s, o = Some s <-> In (IMeta name (MValue (EStr s))) (all_items l).
Definition Given (l : list attribute) (o : options) : Prop :=
  given_text l "repr" (at_repr (op_attrs o)) /\
  given_text l "serialize_repr" (at_serialize_repr (op_attrs o)) /\
  given_flag l "serialize_deny_unknown" (at_deny_unknown (op_attrs o)) /\
  given_flag l "serialize_as_list" (at_as_list (op_attrs o)) /\
  given_flag l "serialize_as_map" (at_as_map (op_attrs o)) /\
  given_flag l "no_ops" (sw_no_ops (op_switches o)) /\
  given_flag l "no_super_impls" (sw_no_super_impls (op_switches o)) /\
  given_text l "crate_name" (op_crate_name o).

(** [#[repr(..)]] is given as a single name rustc knows *)
Definition reprs_fine (l : list attribute) : Prop :=
  forall f, In (MkAttribute "repr" f) l -> exists items r, f = AList items (Some r) /\ In r rust_repr_names.
(** The name each [#[repr(..)]] gives, [None] if it is not a single name *)
Definition repr_gives (x : attribute) (r : option string) : Prop :=
  (exists items, a_form x = AList items r) \/ (a_form x = AWord \/ a_form x = ANameValue) /\ r = None.
Definition Reprs (l : list attribute) (rs : list (option string)) : Prop :=
  Forall2 repr_gives (filter (fun x => a_path x =? "repr") l) rs.
(** The declaration without its [#[repr(..)]] *)
Definition declared (it : source_item) (o : options) : derive_input :=
  MkInput (it_generic it) (it_is_enum it) [] (op_attrs o) (it_variants it).

(** ** Faults and their places *)
(** The item at a place *)
Definition item_at (l : list attribute) (p : place) (it : item) : Prop :=
  exists a i its id, p = (a, Some i) /\ nth_error l a = Some (MkAttribute "enumset" (AList (Some its) id)) /\
    nth_error its i = Some it.
(** Places in the order of the text *)
Definition earlier (p q : place) : Prop :=
  (fst p < fst q)%nat \/
  fst p = fst q /\ exists i j, snd p = Some i /\ snd q = Some j /\ (i < j)%nat.

Inductive Fault (l : list attribute) : place -> attribute_error -> Prop :=
| Fault_name_value a : nth_error l a = Some (MkAttribute "enumset" ANameValue) -> Fault l (a, None) ANoNameValue
| Fault_parse a id : nth_error l a = Some (MkAttribute "enumset" (AList None id)) -> Fault l (a, None) AParse
| Fault_literal p : item_at l p ILit -> Fault l p ALiteral
| Fault_unknown p name m : item_at l p (IMeta name m) -> ~ In name flag_names -> ~ In name text_names ->
    Fault l p (AUnknown name)
| Fault_duplicate p name m p' m' : item_at l p (IMeta name m) -> In name flag_names \/ In name text_names ->
    item_at l p' (IMeta name m') -> earlier p' p -> Fault l p (ADuplicate name)
| Fault_value p name m : item_at l p (IMeta name m) -> In name flag_names \/ In name text_names ->
    (forall p' m', item_at l p' (IMeta name m') -> ~ earlier p' p) -> ~ fits name m -> Fault l p (AValue name).

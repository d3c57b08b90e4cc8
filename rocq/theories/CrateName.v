(** * The path under which the generated code refers to the crate

    Model of the option [crate_name] in /repo/enumset_derive/src/lib.rs. Which
    strings are identifiers is left to the compiler: [is_ident] is any predicate. *)
From Verif Require Import Base Syntax Derive.

(** The result of [proc_macro_crate::crate_name("enumset")], lib.rs:330: the name
    under which Cargo.toml of the user lists the crate, that it is being compiled
    itself, or an error. *)
Inductive found_crate : Type := FName (s : string) | FItself | FError.

Record crate_options : Type := MkCrateOptions {
  co_attr : option string;       (* lib.rs:31  [#[enumset(crate_name = "..")]] *)
  co_lookup : bool;              (* the cargo feature [proc-macro-crate] *)
  co_found : found_crate
}.

Section CrateName.
Context (is_ident : string -> bool).

(** [Ident::new] panics on a string that is no identifier (proc_macro2). *)
Definition not_an_ident (s : string) : panic :=
  PExplicit ("`""" ++ s ++ """` is not a valid identifier")%string.
Definition ident_new (s : string) : M string := if is_ident s then Ret s else Panic (not_an_ident s).

(** lib.rs:152-155  the field [crate_name] in [EnumSetInfo::new] *)
Definition info_crate_name (o : crate_options) : M (option string) :=
  match co_attr o with
  | Some x => x <- ident_new x ;; Ret (Some x)
  | None => Ret None
  end.

(** lib.rs:323-344  [enumset] in [enum_set_type_impl], without the leading [::] *)
Definition enumset_path (o : crate_options) (crate_name : option string) : M string :=
  match crate_name with
  | Some crate_name => Ret crate_name
  | None =>
      if co_lookup o then
        match co_found o with
        | FName name => ident_new name
        | _ => Ret "enumset"%string
        end
      else Ret "enumset"%string
  end.

(** lib.rs:983-1061  the macro again, with the crate's path next to the generated
    functions. The checks on lines 988 and 993 come before [EnumSetInfo::new]
    (line 994); [derive] repeats them without effect. *)
Definition derive_named (md : build) (pw : N) (o : crate_options) (inp : derive_input)
  : M (result (string * EnumTy) (derive_error * span)) :=
  if in_generic inp then Ret (Err (EGeneric, SpGenerics))
  else if negb (in_is_enum inp) then Ret (Err (ENotEnum, SpInput))
  else
    crate_name <- info_crate_name o ;;
    r <- derive md pw inp ;;
    try_ r (fun T => p <- enumset_path o crate_name ;; Ret (Ok (p, T))).
End CrateName.

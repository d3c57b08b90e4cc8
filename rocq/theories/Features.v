(** * The cargo features

    /repo/enumset/Cargo.toml:22-28 and /repo/enumset_derive/Cargo.toml:15-26; the
    features of several users of the crate add up, cargo builds it once. *)
From Verif Require Import Base Syntax CrateName Attrs Whole.

(** enumset/Cargo.toml:23-28; [serde2] is the implicit feature of the optional
    dependency on line 36 *)
Inductive feature : Type := FSerde | FAlloc | FProcMacroCrate | FStd | FSerde2.
(** What the features turn on: [cfg(feature = ..)] in enumset and in
    enumset_derive, and the dependency on serde. *)
Inductive flag : Type := OwnSerde | OwnAlloc | DeriveSerde | DeriveLookup | DeriveStdWarning | DepSerde.

(** enumset/Cargo.toml:23-28 *)
Definition turns_on (f : feature) (x : flag) : bool :=
  match f, x with
  | FSerde, (OwnSerde | DepSerde | DeriveSerde) => true
  | FAlloc, OwnAlloc => true
  | FProcMacroCrate, DeriveLookup => true
  | FStd, (OwnAlloc | DeriveLookup | DeriveStdWarning) => true
  | FSerde2, DepSerde => true
  | _, _ => false
  end.
Definition on (fs : list feature) (x : flag) : bool := existsb (fun f => turns_on f x) fs.

(** Does the crate depend on serde where it names it? macros.rs:8-9 and set.rs:12
    name the optional dependency if the feature serde is on. *)
Definition serde_available (fs : list feature) : Prop := on fs OwnSerde = true -> on fs DepSerde = true.
(** traits.rs:60-68 and derive/src/lib.rs:429-644: the functions the trait
    [EnumSetTypePrivate] asks for and those the macro generates; an impl has to
    have exactly those of the trait. *)
Definition impl_matches (fs : list feature) : Prop := on fs DeriveSerde = on fs OwnSerde.
(** set.rs:724-730  [to_vec]; set.rs:433-447  [Serialize] and [Deserialize] of sets *)
Definition has_to_vec (fs : list feature) : bool := on fs OwnAlloc.
Definition has_serde (fs : list feature) : bool := on fs OwnSerde.

(** A declaration in a program built with the features [fs] *)
Definition builds (is_ident : string -> bool) (md : build) (pw : N) (found : found_crate) (fs : list feature)
           (u : user_enum) (g : generated) : Prop :=
  serde_available fs /\ impl_matches fs /\
  compiles_to is_ident md pw (on fs DeriveLookup) found (on fs DeriveStdWarning) (on fs DeriveSerde) u g.

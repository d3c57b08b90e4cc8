(** * Names in the generated code

    The identifiers that [quote!] writes are resolved where the macro is used
    (their span is the call site): first among the names that the generated code
    itself binds around them, then among the items there, then in the prelude and
    the primitive types. The name of the enum is written wherever the macro has
    [#name], so it may be captured, and it may hide a name of the prelude.

    This lists every use of an unqualified name of a type or trait in the code of
    /repo/enumset_derive/src/lib.rs:320-970, with the names bound around it. Names
    behind [::] (paths from [#enumset], [#core], [#internal], [#serde] and those of
    associated items), values, macros and the variants are not concerned. *)
From Verif Require Import Base Syntax Derive Impls.
Local Open Scope string_scope.

Inductive use : Type :=
| UEnum                   (* [#name] *)
| UOutside (s : string)   (* a primitive type or a trait of the prelude *)
| UOwn (s : string).      (* what the generated code itself binds *)
(** A use and the names of types bound around it, innermost first. *)
Record place : Type := At { pl_scope : list string; pl_use : use }.

Definition here (us : list use) : list place := map (At []) us.
(** A block of code that binds [s]. *)
Definition binding (s : string) (ps : list place) : list place := map (fun p => At (pl_scope p ++ [s]) (pl_use p)) ps.

Definition int_names : list string := ["u8"; "u16"; "u32"; "u64"; "u128"].
(** lib.rs:352-359  [#repr] *)
Definition repr_uses (r : internal_repr) : list use :=
  match r with
  | IU8 => [UOutside "u8"] | IU16 => [UOutside "u16"] | IU32 => [UOutside "u32"]
  | IU64 => [UOutside "u64"] | IU128 => [UOutside "u128"] | IArray _ => []
  end.

(** lib.rs:385-391 and the same thrice; 413-419; 420-425 *)
Definition binary_op : list place :=
  binding "O" (here [UOutside "Into"; UEnum; UOwn "O"; UEnum; UEnum; UOwn "O"]).
Definition ops_uses (o : switches) : list place :=
  if sw_no_ops o then []
  else binary_op ++ binary_op ++ binary_op ++ binary_op ++ here [UEnum; UEnum] ++ here [UEnum; UEnum; UEnum; UOutside "bool"].

(** lib.rs:434-474  integers; [use #serde::de::Error] (445) binds a name where only [D] is used *)
Definition ser_name (s : serde_repr) : list use :=
  match s with
  | SU8 => [UOutside "u8"] | SU16 => [UOutside "u16"] | SU32 => [UOutside "u32"]
  | SU64 => [UOutside "u64"] | SU128 => [UOutside "u128"] | _ => []
  end.
Definition serde_int_uses (i : info) : list place :=
  binding "S" (here ([UEnum; UOwn "S"; UOwn "S"; UOwn "S"] ++ repr_uses (internal_repr_of i))) ++
  binding "D" (here [UOwn "D"; UEnum; UOwn "D"] ++ here (ser_name (serde_repr_of i)) ++
               (if i_deny_unknown i then binding "Error" (here [UOwn "D"]) else []) ++
               here (repr_uses (internal_repr_of i))).
(** lib.rs:478-487, 518-527  [serialize] for lists and maps; the body binds [trait] *)
Definition serialize_items_uses (trait : string) : list place :=
  binding "S" (here [UEnum; UOwn "S"; UOwn "S"; UOwn "S"] ++ binding trait []).
(** lib.rs:488-513, 528-557, 606-641  [deserialize] with a visitor, whose method
    with the parameter [A] uses [us] *)
Definition visitor_uses (us : list use) : list place :=
  binding "D" (here [UOwn "D"; UEnum; UOwn "D"] ++
    binding "Visitor" (here [UOwn "Visitor"; UEnum] ++
                       binding "A" (here ([UOwn "A"; UOwn "A"; UOwn "A"] ++ us)) ++
                       here [UOwn "Visitor"])).
Definition serde_uses (i : info) : list place :=
  match serde_repr_of i with
  | SU8 | SU16 | SU32 | SU64 | SU128 => serde_int_uses i
  | SList => serialize_items_uses "SerializeSeq" ++ visitor_uses [UEnum; UEnum]              (* 504, 505 *)
  | SMap => serialize_items_uses "SerializeMap" ++ visitor_uses [UEnum; UEnum; UOutside "bool"]   (* 544-546 *)
  | SArray =>
      (* [#preferred_size] (560-563) names the enum: 592, 622 *)
      binding "S" (here [UEnum; UOwn "S"; UOwn "S"; UOwn "S"; UEnum]) ++
      visitor_uses ([UEnum; UOutside "u64"; UOutside "u64"] ++ (if i_deny_unknown i then [UOwn "D"; UEnum; UOwn "D"] else [UEnum]))
  end.

(** lib.rs:649-709 *)
Definition into_uses (i : info) : list place :=
  match i_variants i with
  | [] => here [UOutside "u32"; UOutside "u32"]
  | [_] => here [UOutside "u32"; UOutside "u32"; UOutside "u32"; UEnum]
  | vs =>
      here [UOutside "u32"; UOutside "u32"; UOutside "u32"] ++
      concat (map (fun s => here [UOutside "bool"; UEnum; UOutside s]) int_names) ++
      concat (map (fun _ => here [UEnum]) vs) ++
      concat (map (fun s => here [UOutside s; UEnum]) int_names)
  end.
(** lib.rs:711-739 *)
Definition super_uses (o : switches) (i : info) : list place :=
  if sw_no_super_impls o then []
  else here [UEnum; UOutside "bool"] ++
       match i_variants i with [] => [] | _ => here [UOutside "u32"; UOutside "u32"] end ++
       here [UEnum; UEnum; UEnum].
(** lib.rs:741-750 *)
Definition with_repr_uses (i : info) : list place :=
  match i_explicit_internal i with
  | Some _ => here (UEnum :: repr_uses (internal_repr_of i))
  | None => []
  end.
(** lib.rs:752-907; the functions of the helper: 782-823, 850-905 *)
Definition helper_fn (args : nat) : list use := repeat UEnum args ++ [UEnum].
Definition helper_fns : list use :=
  [UOwn "__EnumSetConstHelper"] ++ helper_fn 2 ++ helper_fn 2 ++ helper_fn 2 ++ helper_fn 1 ++ [UEnum].
Definition inherent_uses (i : info) : list place :=
  match internal_repr_of i with
  | IArray _ => here ([UEnum; UEnum; UEnum; UOutside "u32"; UOutside "usize"] ++ helper_fns)
  | r => here ([UEnum; UEnum] ++ match i_variants i with [] => [] | _ => repr_uses r end ++ helper_fns)
  end.

(** lib.rs:924-968  the whole: everything is inside a block that binds the helper *)
Definition generated_uses (serde : bool) (o : switches) (i : info) : list place :=
  binding "__EnumSetConstHelper"
    (here [UOwn "__EnumSetConstHelper"; UEnum; UOwn "__EnumSetConstHelper"] ++
     here ([UEnum; UOwn "__EnumSetConstHelper"; UOwn "__EnumSetConstHelper"] ++ repr_uses (internal_repr_of i) ++
           [UOutside "u32"; UOutside "u32"]) ++
     into_uses i ++
     (if serde then serde_uses i else []) ++
     here [UEnum] ++
     with_repr_uses i ++ super_uses o i ++ ops_uses o ++ inherent_uses i).

(** ** Paths [Self::..]

    Inside an impl for the enum, [Self::X] means the associated type [X]; if a
    variant is called [X] too, rustc refuses the path as ambiguous (lint
    [ambiguous_associated_items], an error by default also in the code of macros).
    The impl blocks for the enum: the associated types they define, and the types
    they write behind [Self::]. *)
Record impl_block : Type := MkBlock { ib_types : list string; ib_self : list string }.
(** lib.rs:385-419  [- & | ^ !]: [type Output], [-> Self::Output] *)
Definition op_block : impl_block := MkBlock ["Output"] ["Output"].
Definition plain_block : impl_block := MkBlock [] [].
Definition impl_blocks (o : switches) (i : info) : list impl_block :=
  [plain_block;                                                             (* 930-942 *)
   MkBlock ["ConstHelper"; "Repr"] ["Repr"];                                (* 945-956 *)
   plain_block] ++                                                          (* 959 *)
  match i_explicit_internal i with Some _ => [MkBlock ["Repr"] []] | None => [] end ++   (* 741-750 *)
  (if sw_no_super_impls o then [] else repeat plain_block 4) ++             (* 721-738 *)
  (if sw_no_ops o then [] else repeat op_block 5 ++ [plain_block]) ++       (* 384-425 *)
  [plain_block].                                                            (* 767-778, 829-845 *)

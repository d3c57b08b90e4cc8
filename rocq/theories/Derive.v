(** * Model of /repo/enumset_derive/src/lib.rs

    The derive macro: the checks it performs on its input, the representation it
    chooses, and the code it generates ([quote!] templates become functions).
    The proc macro runs on the host, whose usize is taken to be 64 bits wide;
    [pw] is the usize width of the target for which the generated code is
    compiled and [md] the build mode (of the macro and of the generated code;
    the macro never overflows, C28). Identifiers used only for naming are not modelled; for the
    impl blocks and warnings see Impls.v. *)
From Verif Require Import Base Prim ArrayRepr Repr Syntax.

(** lib.rs:38-53  [InternalRepr] *)
Inductive internal_repr : Type := IU8 | IU16 | IU32 | IU64 | IU128 | IArray (size : nat).
(** lib.rs:54-66  [InternalRepr::supported_variants] *)
Definition ir_supported (r : internal_repr) : N :=
  match r with
  | IU8 => 8 | IU16 => 16 | IU32 => 32 | IU64 => 64 | IU128 => 128
  | IArray size => N.of_nat size * 64
  end.

(** lib.rs:68-87  [SerdeRepr] *)
Inductive serde_repr : Type := SU8 | SU16 | SU32 | SU64 | SU128 | SList | SMap | SArray.
(** lib.rs:88-102  [SerdeRepr::supported_variants] *)
Definition sr_supported (r : serde_repr) : option N :=
  match r with
  | SU8 => Some 8 | SU16 => Some 16 | SU32 => Some 32 | SU64 => Some 64 | SU128 => Some 128
  | SList | SMap | SArray => None
  end.

(** The compile errors the macro itself reports. *)
Inductive derive_error : Type :=
| EGeneric                (* 989-992: cannot be used on enums with type parameters *)
| ENotEnum                (* 1059: may only be used on enums *)
| EReprParse              (* 1000: [attr.parse_args()?] fails *)
| ERustRepr (r : string)  (* 1005-1008: `#[repr(..)]` cannot be used on enumset variants *)
| EInvalidRepr            (* 197 *)
| EInvalidSerdeRepr       (* 183 *)
| EDupName                (* 205 *)
| EFields                 (* 243: can only be used on fieldless enums *)
| EDiscrU32               (* 212: must fit into u32 *)
| EDiscrNeg               (* 215 *)
| EDiscrLit               (* 217: must be literal expressions *)
| EDiscrMax               (* 224: maximum is 0xFFFFFFBF *)
| EDupDiscr               (* 227 *)
| EReprSmall              (* 288: `repr` is too small *)
| ESerdeSmall.            (* 297: `serialize_repr` is too small *)
(** What an error points at. Variants and [#[repr(..)]] attributes are counted
    from 0; [SpReprAttr] also stands for the span inside the attribute that syn
    gives to a parse error (1000). *)
Inductive span : Type :=
| SpCallSite              (* Span::call_site() *)
| SpGenerics              (* input.generics.span() *)
| SpInput                 (* input.span() *)
| SpReprAttr (k : nat)    (* attr.span() *)
| SpRepr                  (* attrs.repr.span() *)
| SpSerializeRepr         (* attrs.serialize_repr.span() *)
| SpVariant (k : nat)     (* variant.span() *)
| SpDiscr (k : nat).      (* expr.span() *)

(** lib.rs:112-147  [EnumSetInfo]. The sets [used_variant_names] and
    [used_discriminants] are lists. *)
Record info : Type := MkInfo {
  i_explicit_internal : option internal_repr;
  i_force_array : bool;
  i_explicit_serde : option serde_repr;
  i_variants : list (string * N);          (* name, variant_repr *)
  i_max_discrim : N;
  i_max_discrim_span : option span;
  i_cur_discrim : N;
  i_used_names : list string;
  i_used_discrs : list N;
  i_deny_unknown : bool
}.

(** lib.rs:149-170  [EnumSetInfo::new] *)
Definition info_new (a : attrs) : info :=
  MkInfo None false None [] 0 None 0 [] [] (at_deny_unknown a).

Definition with_internal (i : info) (r : option internal_repr) : info :=
  MkInfo r (i_force_array i) (i_explicit_serde i) (i_variants i) (i_max_discrim i)
         (i_max_discrim_span i) (i_cur_discrim i) (i_used_names i) (i_used_discrs i) (i_deny_unknown i).
Definition with_force_array (i : info) (b : bool) : info :=
  MkInfo (i_explicit_internal i) b (i_explicit_serde i) (i_variants i) (i_max_discrim i)
         (i_max_discrim_span i) (i_cur_discrim i) (i_used_names i) (i_used_discrs i) (i_deny_unknown i).
Definition with_serde (i : info) (r : option serde_repr) : info :=
  MkInfo (i_explicit_internal i) (i_force_array i) r (i_variants i) (i_max_discrim i)
         (i_max_discrim_span i) (i_cur_discrim i) (i_used_names i) (i_used_discrs i) (i_deny_unknown i).

(** lib.rs:173-186  [push_serialize_repr]; the span is that of the call, 1020 *)
Definition push_serialize_repr (i : info) (ty : string) : result info (derive_error * span) :=
  (if ty =? "u8" then Ok (with_serde i (Some SU8))
   else if ty =? "u16" then Ok (with_serde i (Some SU16))
   else if ty =? "u32" then Ok (with_serde i (Some SU32))
   else if ty =? "u64" then Ok (with_serde i (Some SU64))
   else if ty =? "u128" then Ok (with_serde i (Some SU128))
   else if ty =? "list" then Ok (with_serde i (Some SList))
   else if ty =? "map" then Ok (with_serde i (Some SMap))
   else if ty =? "array" then Ok (with_serde i (Some SArray))
   else Err (EInvalidSerdeRepr, SpSerializeRepr))%string.

(** lib.rs:189-200  [push_repr]; the span is that of the call, 1015 *)
Definition push_repr (i : info) (ty : string) : result info (derive_error * span) :=
  (if ty =? "u8" then Ok (with_internal i (Some IU8))
   else if ty =? "u16" then Ok (with_internal i (Some IU16))
   else if ty =? "u32" then Ok (with_internal i (Some IU32))
   else if ty =? "u64" then Ok (with_internal i (Some IU64))
   else if ty =? "u128" then Ok (with_internal i (Some IU128))
   else if ty =? "array" then Ok (with_force_array i true)
   else Err (EInvalidRepr, SpRepr))%string.

(** lib.rs:207-219  parsing the discriminant of the variant number [k]: the new
    [cur_discrim] *)
Definition parse_discr (k : nat) (cur : N) (d : option discr_expr) : result N (derive_error * span) :=
  match d with
  | None => Ok cur
  | Some (DInt n) => match try_into 32 n with Some v => Ok v | None => Err (EDiscrU32, SpDiscr k) end
  | Some DNeg => Err (EDiscrNeg, SpDiscr k)
  | Some DOther => Err (EDiscrLit, SpVariant k)
  end.

Section Derive.
Context (md : build).

(** lib.rs:203-245  [push_variant], for the variant number [k] *)
Definition push_variant (i : info) (k : nat) (v : variant_decl) : M (result info (derive_error * span)) :=
  if existsb (String.eqb (vd_name v)) (i_used_names i) then Ret (Err (EDupName, SpVariant k))
  else if vd_unit v then
    try_ (parse_discr k (i_cur_discrim i) (vd_discr v)) (fun discriminant =>
    if 0xFFFFFFC0 <=? discriminant then Ret (Err (EDiscrMax, SpVariant k))
    else if existsb (N.eqb discriminant) (i_used_discrs i) then Ret (Err (EDupDiscr, SpVariant k))
    else
      cur <- cadd 32 discriminant 1 ;;
      let larger := i_max_discrim i <? discriminant in
      let max := if larger then discriminant else i_max_discrim i in
      let max_span := if larger then Some (SpVariant k) else i_max_discrim_span i in
      Ret (Ok (MkInfo (i_explicit_internal i) (i_force_array i) (i_explicit_serde i)
                      (i_variants i ++ [(vd_name v, discriminant)]) max max_span cur
                      (vd_name v :: i_used_names i) (discriminant :: i_used_discrs i)
                      (i_deny_unknown i))))
  else Ret (Err (EFields, SpVariant k)).

(** lib.rs:1049-1051  the loop over the variants *)
Fixpoint push_variants (i : info) (k : nat) (vs : list variant_decl) : M (result info (derive_error * span)) :=
  match vs with
  | [] => Ret (Ok i)
  | v :: rest => r <- push_variant i k v ;; try_ r (fun i' => push_variants i' (S k) rest)
  end.

(** lib.rs:248-259  [internal_repr] *)
Definition internal_repr_of (i : info) : internal_repr :=
  match i_explicit_internal i with
  | Some x => x
  | None =>
      let x := i_max_discrim i in
      if (x <? 8) && negb (i_force_array i) then IU8
      else if (x <? 16) && negb (i_force_array i) then IU16
      else if (x <? 32) && negb (i_force_array i) then IU32
      else if (x <? 64) && negb (i_force_array i) then IU64
      else IArray (N.to_nat ((x + 64) / 64))
  end.

(** lib.rs:262-274  [serde_repr] *)
Definition serde_repr_of (i : info) : serde_repr :=
  match i_explicit_serde i with
  | Some x => x
  | None =>
      let x := i_max_discrim i in
      if x <? 8 then SU8 else if x <? 16 then SU16 else if x <? 32 then SU32
      else if x <? 64 then SU64 else if x <? 128 then SU128 else SArray
  end.

(** lib.rs:277-303  [validate] *)
Definition validate (i : info) : result unit (derive_error * span) :=
  let span := match i_max_discrim_span i with Some x => x | None => SpCallSite end in
  if ir_supported (internal_repr_of i) <=? i_max_discrim i then Err (EReprSmall, span)
  else match sr_supported (serde_repr_of i) with
       | Some s => if s <=? i_max_discrim i then Err (ESerdeSmall, span) else Ok tt
       | None => Ok tt
       end.

(** lib.rs:306-316  [variant_map]; the padding loop [while idx >= vec.len()
    { vec.push(0) }] appends [idx + 1 - len] zeros *)
Definition variant_map_step (vec : list N) (v : string * N) : M (list N) :=
  let repr := snd v in
  let idx := N.to_nat (repr / 64) in
  let bit := repr mod 64 in
  let vec := vec ++ repeat 0 (S idx - length vec) in
  x <- get vec idx ;; m <- shl 64 1 bit ;; set vec idx (N.lor x m).
Definition variant_map (i : info) : M (list N) :=
  for_each (i_variants i) [0] (fun v vec => variant_map_step vec v).

End Derive.

(** ** The generated implementation of [EnumSetTypePrivate] (traits.rs:36-67)
    and of the const helper *)
Record EnumTy : Type := MkEnumTy {
  et_repr : ReprTrait;                                   (* type Repr *)
  et_all_bits : r_t et_repr;                             (* const ALL_BITS *)
  et_all_lit : option N;    (* the token [#all_variants] if it is an integer literal *)
  et_bit_width : N;                                      (* const BIT_WIDTH *)
  et_variant_count : N;                                  (* const VARIANT_COUNT *)
  et_variants : list (string * N);   (* the names and values in the generated match arms *)
  et_discrs : list N;                (* discriminants rustc assigns to the variants *)
  et_const_only : N -> M (r_t et_repr);                  (* argument: [self as ..] *)
  et_const_union : r_t et_repr -> r_t et_repr -> M (r_t et_repr);
  et_const_intersection : r_t et_repr -> r_t et_repr -> M (r_t et_repr);
  et_const_symmetric_difference : r_t et_repr -> r_t et_repr -> M (r_t et_repr);
  et_const_complement : r_t et_repr -> M (r_t et_repr);
  et_with_repr : bool;               (* is [EnumSetTypeWithRepr] implemented *)
  et_serde : serde_repr;
  et_deny_unknown : bool;
  et_pw : N
}.

Section Generate.
Context (md : build).

(** lib.rs:758-822  inherent impls for integer storages. [1 << self as #repr]:
    the discriminant is cast to the storage type first. The bodies of the three
    binary helpers are the built-in operators. For an uninhabited enum
    [self_as_repr_mask] is [0] (758-762). *)
Definition prim_const_only (w : N) (is_uninhabited : bool) (self : N) : M N :=
  if is_uninhabited then Ret 0 else shl w 1 (wrap w self).
Definition prim_const_complement (w all chain : N) : N := N.land (bnot w chain) all.

(** lib.rs:835-845  [__impl_enumset_internal__const_only] for array storages *)
Definition array_const_only (pw : N) (size : nat) (self : N) : M (list N) :=
  let set0 := repeat 0 size in
  let bit := wrap 32 self in
  let idx := N.to_nat (wrap pw bit / 64) in
  let bit := bit mod 64 in
  x <- get set0 idx ;; m <- shl 64 1 bit ;; set set0 idx (N.lor x m).
(** lib.rs:851-862, 864-875, 877-888: [while i < size { a.0[i] op= b.0[i]; i += 1 }];
    a counting loop, modelled like [for i in 0..size] *)
Definition array_const_union (size : nat) (a b : list N) : M (list N) :=
  for_each (range 0 size) a (fun i a => x <- get a i ;; y <- get b i ;; set a i (N.lor x y)).
Definition array_const_intersection (size : nat) (a b : list N) : M (list N) :=
  for_each (range 0 size) a (fun i a => x <- get a i ;; y <- get b i ;; set a i (N.land x y)).
Definition array_const_symmetric_difference (size : nat) (a b : list N) : M (list N) :=
  for_each (range 0 size) a (fun i a => x <- get a i ;; y <- get b i ;; set a i (N.lxor x y)).
(** lib.rs:890-902 *)
Definition array_const_complement (size : nat) (all chain : list N) : M (list N) :=
  for_each (range 0 size) chain (fun i chain =>
    x <- get chain i ;; y <- get all i ;; set chain i (N.land (bnot 64 x) y)).

(** lib.rs:320-971  [enum_set_type_impl], for integer storages of width [w] *)
Definition prim_ty (pw w : N) (pl : nat) (lit : N) (i : info) (decls : list variant_decl) : EnumTy := {|
  et_repr := prim_repr md pw w pl;
  et_all_bits := lit;
  et_all_lit := Some lit;
  et_bit_width := i_max_discrim i + 1;                        (* 920 *)
  et_variant_count := wrap 32 (N.of_nat (length (i_variants i)));  (* 921 *)
  et_variants := i_variants i;
  et_discrs := rustc_discrs decls;
  et_const_only := prim_const_only w (Nat.eqb (length (i_variants i)) 0);
  et_const_union := fun a b => Ret (N.lor a b);               (* 783-791 *)
  et_const_intersection := fun a b => Ret (N.land a b);       (* 793-801 *)
  et_const_symmetric_difference := fun a b => Ret (N.lxor a b);  (* 803-811 *)
  et_const_complement := fun a => Ret (prim_const_complement w lit a);  (* 813-821 *)
  et_with_repr := match i_explicit_internal i with Some _ => true | None => false end;  (* 741-750 *)
  et_serde := serde_repr_of i;
  et_deny_unknown := i_deny_unknown i;
  et_pw := pw
|}.

Definition array_ty (pw : N) (size : nat) (all : list N) (i : info) (decls : list variant_decl) : EnumTy := {|
  et_repr := array_repr md pw size;
  et_all_bits := all;
  et_all_lit := None;
  et_bit_width := i_max_discrim i + 1;
  et_variant_count := wrap 32 (N.of_nat (length (i_variants i)));
  et_variants := i_variants i;
  et_discrs := rustc_discrs decls;
  et_const_only := array_const_only pw size;
  et_const_union := array_const_union size;
  et_const_intersection := array_const_intersection size;
  et_const_symmetric_difference := array_const_symmetric_difference size;
  et_const_complement := array_const_complement size all;
  et_with_repr := match i_explicit_internal i with Some _ => true | None => false end;
  et_serde := serde_repr_of i;
  et_deny_unknown := i_deny_unknown i;
  et_pw := pw
|}.

(** lib.rs:352-379 ([repr], [variant_map], [all_variants]) and 923-970; the array
    lengths of the integer types are those of primitive.rs:262-266 *)
Definition enum_set_type_impl (pw : N) (i : info) (decls : list variant_decl) : M EnumTy :=
  vm <- variant_map md i ;;
  match internal_repr_of i with
  | IU8 => l <- get vm 0 ;; Ret (prim_ty pw 8 1 l i decls)
  | IU16 => l <- get vm 0 ;; Ret (prim_ty pw 16 1 l i decls)
  | IU32 => l <- get vm 0 ;; Ret (prim_ty pw 32 1 l i decls)
  | IU64 => l <- get vm 0 ;; Ret (prim_ty pw 64 1 l i decls)
  | IU128 =>                                                   (* 366-371 *)
      l0 <- get vm 0 ;;
      hi <- match nth_error vm 1 with Some x => shl 128 x 64 | None => Ret 0 end ;;
      Ret (prim_ty pw 128 2 (N.lor l0 hi) i decls)
  | IArray size =>                                             (* 372-378 *)
      Ret (array_ty pw size (map (fun k => nth k vm 0) (range 0 size)) i decls)
  end.

(** lib.rs:998-1011  check of [#[repr(..)]] on the enum *)
Definition allowed_rust_reprs : list string :=
  ["C"; "Rust"; "u8"; "u16"; "u32"; "u64"; "u128"; "usize";
   "i8"; "i16"; "i32"; "i64"; "i128"; "isize"]%string.
Fixpoint check_rust_reprs (k : nat) (rs : list (option string)) : result unit (derive_error * span) :=
  match rs with
  | [] => Ok tt
  | None :: _ => Err (EReprParse, SpReprAttr k)
  | Some r :: rest =>
      if existsb (String.eqb r) allowed_rust_reprs then check_rust_reprs (S k) rest
      else Err (ERustRepr r, SpReprAttr k)
  end.

(** lib.rs:983-1061  [derive_enum_set_type_0], up to the validated [EnumSetInfo] *)
Definition derive_info (inp : derive_input) : M (result info (derive_error * span)) :=
  if in_generic inp then Ret (Err (EGeneric, SpGenerics))
  else if negb (in_is_enum inp) then Ret (Err (ENotEnum, SpInput))
  else
    let a := in_attrs inp in
    let i0 := info_new a in
    try_ (check_rust_reprs 0 (in_rust_reprs inp)) (fun _ =>
    try_ (match at_repr a with Some r => push_repr i0 r | None => Ok i0 end) (fun i1 =>
    try_ (match at_serialize_repr a with Some r => push_serialize_repr i1 r | None => Ok i1 end) (fun i2 =>
    let i3 := if at_as_map a then with_serde i2 (Some SMap) else i2 in
    let i4 := if at_as_list a then with_serde i3 (Some SList) else i3 in
    r <- push_variants md i4 0 (in_variants inp) ;;
    try_ r (fun i5 => try_ (validate i5) (fun _ => Ret (Ok i5)))))).

(** lib.rs:974-982, 1057: the whole macro *)
Definition derive (pw : N) (inp : derive_input) : M (result EnumTy (derive_error * span)) :=
  r <- derive_info inp ;;
  try_ r (fun i => t <- enum_set_type_impl pw i (in_variants inp) ;; Ret (Ok t)).

End Generate.

(** ** Conversions between variants and bits

    A value of the enum type is the index of its variant in declaration order. *)

(** [self as u32] of the compiler (lib.rs:664, 685; 653-655 for the empty enum).
    An index that is not a variant is not a value of the type; we answer [UB]. *)
Definition enum_into_u32 (T : EnumTy) (v : nat) : M N :=
  match et_variants T with
  | [] => Panic (PExplicit "is uninhabited.")
  | _ => match nth_error (et_discrs T) v with
         | Some d => Ret (wrap 32 d)
         | None => UB
         end
  end.

(** lib.rs:696  the generated match arms: first arm whose value matches *)
Fixpoint match_arms (arms : list (string * N)) (val : N) (k : nat) : option nat :=
  match arms with
  | [] => None
  | (_, d) :: rest => if val =? d then Some k else match_arms rest val (S k)
  end.
(** lib.rs:656-708  [enum_from_u32]. The arms after the variant arms
    (699-705) reinterpret an integer that is no variant or are
    [unreachable_unchecked]: undefined behaviour. [enum_from_u32_sized] below
    spells those arms out. *)
Definition enum_from_u32 (T : EnumTy) (val : N) : M nat :=
  match et_variants T with
  | [] => Panic (PExplicit "is uninhabited.")
  | [_] => Ret 0%nat
  | arms => match match_arms arms val 0 with Some v => Ret v | None => UB end
  end.

(** Memory of the enum type holding the unsigned integer [x]: the variant whose
    discriminant is [x], otherwise not a value of the type. *)
Fixpoint read_enum (discrs : list N) (x : N) (k : nat) : M nat :=
  match discrs with
  | [] => UB
  | d :: rest => if x =? d then Ret k else read_enum rest x (S k)
  end.
(** lib.rs:656-708  [enum_from_u32] in full, for an enum that takes [size] bytes:
    688-689 [IS_U8] ..: at most one of them is true; 699-702 the integer is cast
    to that type and its memory read as the enum; 705 [unreachable_unchecked]. *)
Definition enum_from_u32_sized (T : EnumTy) (size val : N) : M nat :=
  match et_variants T with
  | [] => Panic (PExplicit "is uninhabited.")
  | [_] => Ret 0%nat
  | arms =>
      match match_arms arms val 0 with
      | Some v => Ret v
      | None => if existsb (N.eqb size) [1; 2; 4; 8; 16] then read_enum (et_discrs T) (wrap (8 * size) val) 0
                else UB
      end
  end.

(** lib.rs:711-715, 722-726  [PartialEq] of the enum itself *)
Definition enum_eq (T : EnumTy) (a b : nat) : M bool :=
  match et_variants T with
  | [] => Panic (PExplicit "is uninhabited.")
  | _ => x <- enum_into_u32 T a ;; y <- enum_into_u32 T b ;; Ret (x =? y)
  end.

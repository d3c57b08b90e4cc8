(** * Notions about the modelled API used in the theorem statements *)
From Verif Require Import Base Repr Syntax Spec Derive EnumSet Macros Serde.

(** The enum [inp] is accepted by the derive macro and [T] is the generated
    implementation, in a debug or a release build, compiled for a target with a
    [pw]-bit usize in which the discriminants and the number of variants are
    representable. (For 32 and 64 bits this always holds, see C41.) *)
Record Supported (pw : N) (inp : derive_input) (T : EnumTy) : Prop := {
  sup_usize : pw = 16 \/ pw = 32 \/ pw = 64;
  sup_derive : exists md, derive md pw inp = Ret (Ok T);
  sup_discrs : forall d, In d (discrs inp) -> d < 2 ^ pw;
  sup_count : N.of_nat (length (in_variants inp)) < 2 ^ pw
}.

(** The set [s] has exactly the members [A], as observed through [contains]. *)
Definition Denotes (inp : derive_input) (T : EnumTy) (s : eset T) (A : vset) : Prop :=
  forall v, variant inp v -> es_contains T s v = Ret (A v).

(** The computation [m] returns a set with exactly the members [A]. *)
Definition Returns (inp : derive_input) (T : EnumTy) (m : M (eset T)) (A : vset) : Prop :=
  exists s, m = Ret s /\ Denotes inp T s A.

(** Two computations return the same set. *)
Definition Agree (T : EnumTy) (m m' : M (eset T)) : Prop := exists s, m = Ret s /\ m' = Ret s.

(** An operand is a variant or an obtainable set; its members. *)
Definition OpDenotes (inp : derive_input) (T : EnumTy) (P : eset T -> Prop) (o : operand T) (A : vset) : Prop :=
  match o with
  | OSet s => P s /\ Denotes inp T s A
  | OVar u => variant inp u /\ forall v, variant inp v -> A v = Nat.eqb v u
  end.

(** Expressions over sets with the operators [| & ^ - !], evaluated by the
    crate's operators from left to right, and by Boolean operations. *)
Inductive sexpr : Type :=
| SVar (i : nat)
| SEmpty
| SAll
| SOr (e e' : sexpr)
| SAnd (e e' : sexpr)
| SXor (e e' : sexpr)
| SSub (e e' : sexpr)
| SNot (e : sexpr).
Fixpoint es_eval (T : EnumTy) (env : nat -> eset T) (e : sexpr) : M (eset T) :=
  match e with
  | SVar i => Ret (env i)
  | SEmpty => Ret (es_empty T)
  | SAll => Ret (es_all T)
  | SOr e e' => x <- es_eval T env e ;; y <- es_eval T env e' ;; es_bitor T x (OSet y)
  | SAnd e e' => x <- es_eval T env e ;; y <- es_eval T env e' ;; es_bitand T x (OSet y)
  | SXor e e' => x <- es_eval T env e ;; y <- es_eval T env e' ;; es_bitxor T x (OSet y)
  | SSub e e' => x <- es_eval T env e ;; y <- es_eval T env e' ;; es_sub T x (OSet y)
  | SNot e => x <- es_eval T env e ;; es_not T x
  end.
Fixpoint bool_eval (env : nat -> bool) (e : sexpr) : bool :=
  match e with
  | SVar i => env i
  | SEmpty => false
  | SAll => true
  | SOr e e' => bool_eval env e || bool_eval env e'
  | SAnd e e' => bool_eval env e && bool_eval env e'
  | SXor e e' => xorb (bool_eval env e) (bool_eval env e')
  | SSub e e' => bool_eval env e && negb (bool_eval env e')
  | SNot e => negb (bool_eval env e)
  end.

(** A sequence of calls of [next] and [next_back] on an iterator. *)
Fixpoint es_pops (T : EnumTy) (ps : list pop) (it : es_iter_t T) : M (list (option nat) * es_iter_t T) :=
  match ps with
  | [] => Ret ([], it)
  | p :: ps =>
      '(o, it) <- (match p with Front => es_next T it | Back => es_next_back T it end) ;;
      '(os, it) <- es_pops T ps it ;;
      Ret (o :: os, it)
  end.

(** The iterator [it] yields exactly [l], whichever ends are asked in whichever order. *)
Definition it_yields (T : EnumTy) (it : es_iter_t T) (l : list nat) : Prop :=
  forall ps, exists it', es_pops T ps it = Ret (fst (pops ps l), it').

(** ** Sets obtainable through the API

    The closure of the constructors under all set-valued operations. Unsafe
    constructors may be used when their documented condition ("all bits are
    variants") holds. *)
Section Reachable.
Context (pw : N) (inp : derive_input) (T : EnumTy).

Inductive Reachable : eset T -> Prop :=
(* constructors *)
| R_new : Reachable (es_new T)
| R_empty : Reachable (es_empty T)
| R_default : Reachable (es_default T)
| R_all : Reachable (es_all T)
| R_only v s : variant inp v -> es_only T v = Ret s -> Reachable s
| R_from v s : variant inp v -> es_from T v = Ret s -> Reachable s
(* methods *)
| R_clear s : Reachable s -> Reachable (es_clear T s)
| R_insert s v b s' : Reachable s -> variant inp v -> es_insert T s v = Ret (b, s') -> Reachable s'
| R_remove s v b s' : Reachable s -> variant inp v -> es_remove T s v = Ret (b, s') -> Reachable s'
| R_union a b s : Reachable a -> Reachable b -> es_union T a b = Ret s -> Reachable s
| R_intersection a b s : Reachable a -> Reachable b -> es_intersection T a b = Ret s -> Reachable s
| R_difference a b s : Reachable a -> Reachable b -> es_difference T a b = Ret s -> Reachable s
| R_symmetrical_difference a b s : Reachable a -> Reachable b -> es_symmetrical_difference T a b = Ret s -> Reachable s
| R_complement a s : Reachable a -> es_complement T a = Ret s -> Reachable s
| R_insert_all a b s : Reachable a -> Reachable b -> es_insert_all T a b = Ret s -> Reachable s
| R_remove_all a b s : Reachable a -> Reachable b -> es_remove_all T a b = Ret s -> Reachable s
(* operators; the right operand is a set or a bare variant *)
| R_sub a o s : Reachable a -> (forall x, o = OSet x -> Reachable x) -> (forall v, o = OVar v -> variant inp v) ->
    es_sub T a o = Ret s -> Reachable s
| R_bitand a o s : Reachable a -> (forall x, o = OSet x -> Reachable x) -> (forall v, o = OVar v -> variant inp v) ->
    es_bitand T a o = Ret s -> Reachable s
| R_bitor a o s : Reachable a -> (forall x, o = OSet x -> Reachable x) -> (forall v, o = OVar v -> variant inp v) ->
    es_bitor T a o = Ret s -> Reachable s
| R_bitxor a o s : Reachable a -> (forall x, o = OSet x -> Reachable x) -> (forall v, o = OVar v -> variant inp v) ->
    es_bitxor T a o = Ret s -> Reachable s
| R_sub_assign a o s : Reachable a -> (forall x, o = OSet x -> Reachable x) -> (forall v, o = OVar v -> variant inp v) ->
    es_sub_assign T a o = Ret s -> Reachable s
| R_bitand_assign a o s : Reachable a -> (forall x, o = OSet x -> Reachable x) -> (forall v, o = OVar v -> variant inp v) ->
    es_bitand_assign T a o = Ret s -> Reachable s
| R_bitor_assign a o s : Reachable a -> (forall x, o = OSet x -> Reachable x) -> (forall v, o = OVar v -> variant inp v) ->
    es_bitor_assign T a o = Ret s -> Reachable s
| R_bitxor_assign a o s : Reachable a -> (forall x, o = OSet x -> Reachable x) -> (forall v, o = OVar v -> variant inp v) ->
    es_bitxor_assign T a o = Ret s -> Reachable s
| R_not a s : Reachable a -> es_not T a = Ret s -> Reachable s
(* operators on bare variants *)
| R_var_sub u o s : variant inp u -> (forall x, o = OSet x -> Reachable x) -> (forall v, o = OVar v -> variant inp v) ->
    var_sub T u o = Ret s -> Reachable s
| R_var_bitand u o s : variant inp u -> (forall x, o = OSet x -> Reachable x) -> (forall v, o = OVar v -> variant inp v) ->
    var_bitand T u o = Ret s -> Reachable s
| R_var_bitor u o s : variant inp u -> (forall x, o = OSet x -> Reachable x) -> (forall v, o = OVar v -> variant inp v) ->
    var_bitor T u o = Ret s -> Reachable s
| R_var_bitxor u o s : variant inp u -> (forall x, o = OSet x -> Reachable x) -> (forall v, o = OVar v -> variant inp v) ->
    var_bitxor T u o = Ret s -> Reachable s
| R_var_not u s : variant inp u -> var_not T u = Ret s -> Reachable s
(* conversions from the representation type *)
| R_try_from_repr x s : r_ok (et_repr T) x -> es_try_from_repr T x = Ret (Some s) -> Reachable s
| R_from_repr x s : r_ok (et_repr T) x -> es_from_repr T x = Ret s -> Reachable s
| R_from_repr_truncated x s : r_ok (et_repr T) x -> es_from_repr_truncated T x = Ret s -> Reachable s
| R_from_repr_unchecked x : r_ok (et_repr T) x ->
    (forall i, i < r_width (et_repr T) -> r_has_bit (et_repr T) x i = Ret true ->
               exists v, variant inp v /\ discr inp v = i) ->
    Reachable (es_from_repr_unchecked T x)
(* conversions from integers *)
| R_try_from t x s : x < 2 ^ ity_bits pw t -> es_try_from T t x = Ret (Some s) -> Reachable s
| R_from_num t x s : x < 2 ^ ity_bits pw t -> es_from_num T t x = Ret s -> Reachable s
| R_from_truncated t x s : x < 2 ^ ity_bits pw t -> es_from_truncated T t x = Ret s -> Reachable s
| R_from_unchecked t x s : x < 2 ^ ity_bits pw t -> only_variant_bits inp x ->
    es_from_unchecked T t x = Ret s -> Reachable s
(* conversions from arrays and slices *)
| R_try_from_array l s : words_ok l -> es_try_from_array T l = Ret (Some s) -> Reachable s
| R_from_array l s : words_ok l -> es_from_array T l = Ret s -> Reachable s
| R_from_array_truncated l s : words_ok l -> es_from_array_truncated T l = Ret s -> Reachable s
| R_from_array_unchecked l s : words_ok l -> only_variant_words inp l ->
    es_from_array_unchecked T l = Ret s -> Reachable s
| R_try_from_slice l s : words_ok l -> es_try_from_slice T l = Ret (Some s) -> Reachable s
| R_from_slice l s : words_ok l -> es_from_slice T l = Ret s -> Reachable s
| R_from_slice_truncated l s : words_ok l -> es_from_slice_truncated T l = Ret s -> Reachable s
| R_from_slice_unchecked l s : words_ok l -> only_variant_words inp l ->
    es_from_slice_unchecked T l = Ret s -> Reachable s
(* collections *)
| R_extend a items s : Reachable a -> (forall v, In v items -> variant inp v) ->
    es_extend T a items = Ret s -> Reachable s
| R_from_iter items s : (forall v, In v items -> variant inp v) -> es_from_iter T items = Ret s -> Reachable s
| R_extend_sets a items s : Reachable a -> (forall x, In x items -> Reachable x) ->
    es_extend_sets T a items = Ret s -> Reachable s
| R_from_iter_sets items s : (forall x, In x items -> Reachable x) -> es_from_iter_sets T items = Ret s -> Reachable s
| R_sum_sets items s : (forall x, In x items -> Reachable x) -> es_sum_sets T items = Ret s -> Reachable s
| R_sum items s : (forall v, In v items -> variant inp v) -> es_sum T items = Ret s -> Reachable s
(* constant macros *)
| R_enum_set ops s : (forall x, In (OSet x) ops -> Reachable x) -> (forall v, In (OVar v) ops -> variant inp v) ->
    mc_enum_set T ops = Ret s -> Reachable s
| R_mc_union o ops s : (forall x, In (OSet x) (o :: ops) -> Reachable x) -> (forall v, In (OVar v) (o :: ops) -> variant inp v) ->
    mc_union T o ops = Ret s -> Reachable s
| R_mc_intersection o ops s : (forall x, In (OSet x) (o :: ops) -> Reachable x) -> (forall v, In (OVar v) (o :: ops) -> variant inp v) ->
    mc_intersection T o ops = Ret s -> Reachable s
| R_mc_difference o ops s : (forall x, In (OSet x) (o :: ops) -> Reachable x) -> (forall v, In (OVar v) (o :: ops) -> variant inp v) ->
    mc_difference T o ops = Ret s -> Reachable s
| R_mc_symmetric_difference o ops s : (forall x, In (OSet x) (o :: ops) -> Reachable x) -> (forall v, In (OVar v) (o :: ops) -> variant inp v) ->
    mc_symmetric_difference T o ops = Ret s -> Reachable s
| R_mc_complement o s : (forall x, o = OSet x -> Reachable x) -> (forall v, o = OVar v -> variant inp v) ->
    mc_complement T o = Ret s -> Reachable s
(* deserialization of arbitrary input *)
| R_de_int t input s : sr_ity (et_serde T) = Some t -> serde_compiles T = true ->
    (forall x, input = Ok x -> x < 2 ^ ity_bits pw t) -> de_int T t input = Ret (Ok s) -> Reachable s
| R_de_list input s : (forall items v, input = Ok items -> In (Ok v) items -> variant inp v) ->
    de_list T input = Ret (Ok s) -> Reachable s
| R_de_map input s : (forall items v b, input = Ok items -> In (Ok (v, b)) items -> variant inp v) ->
    de_map T input = Ret (Ok s) -> Reachable s
| R_de_array input s : serde_compiles T = true ->
    (forall items x, input = Ok items -> In (Ok x) items -> x < 2 ^ 64) ->
    de_array T input = Ret (Ok s) -> Reachable s.
End Reachable.

(** ** What each compile error of the derive macro reports, and where *)
Inductive Violation (inp : derive_input) : derive_error -> span -> Prop :=
| V_generic : in_generic inp = true -> Violation inp EGeneric SpGenerics
| V_not_enum : in_is_enum inp = false -> Violation inp ENotEnum SpInput
| V_repr_parse k : nth_error (in_rust_reprs inp) k = Some None -> Violation inp EReprParse (SpReprAttr k)
| V_rust_repr k r : nth_error (in_rust_reprs inp) k = Some (Some r) -> ~ In r rust_repr_names ->
    Violation inp (ERustRepr r) (SpReprAttr k)
| V_repr s : at_repr (in_attrs inp) = Some s -> ~ In s repr_names -> Violation inp EInvalidRepr SpRepr
| V_serialize_repr s : at_serialize_repr (in_attrs inp) = Some s -> ~ In s serialize_repr_names ->
    Violation inp EInvalidSerdeRepr SpSerializeRepr
| V_name i j u v : (i < j)%nat -> nth_error (in_variants inp) i = Some u -> nth_error (in_variants inp) j = Some v ->
    vd_name u = vd_name v -> Violation inp EDupName (SpVariant j)
| V_fields k v : nth_error (in_variants inp) k = Some v -> vd_unit v = false -> Violation inp EFields (SpVariant k)
| V_u32 k v n : nth_error (in_variants inp) k = Some v -> vd_discr v = Some (DInt n) -> 2 ^ 32 <= n ->
    Violation inp EDiscrU32 (SpDiscr k)
| V_neg k v : nth_error (in_variants inp) k = Some v -> vd_discr v = Some DNeg -> Violation inp EDiscrNeg (SpDiscr k)
| V_literal k v : nth_error (in_variants inp) k = Some v -> vd_discr v = Some DOther ->
    Violation inp EDiscrLit (SpVariant k)
| V_max k d : nth_error (discrs inp) k = Some d -> 0xFFFFFFBF < d -> Violation inp EDiscrMax (SpVariant k)
| V_discr i j d : (i < j)%nat -> nth_error (discrs inp) i = Some d -> nth_error (discrs inp) j = Some d ->
    Violation inp EDupDiscr (SpVariant j)
| V_repr_small s b k : at_repr (in_attrs inp) = Some s -> name_bits s = Some b ->
    nth_error (discrs inp) k = Some (max_discr inp) -> b <= max_discr inp -> Violation inp EReprSmall (SpVariant k)
| V_serialize_small s b k : serialize_choice (in_attrs inp) = Some s -> name_bits s = Some b ->
    nth_error (discrs inp) k = Some (max_discr inp) -> b <= max_discr inp -> Violation inp ESerdeSmall (SpVariant k).

(** The order in which the checks are made: by stage, within a stage by position
    in the source, and for the same variant by the kind of check. *)
Definition err_stage (e : derive_error) : nat :=
  match e with
  | EGeneric => 0 | ENotEnum => 1
  | EReprParse | ERustRepr _ => 2
  | EInvalidRepr => 3 | EInvalidSerdeRepr => 4
  | EDupName | EFields | EDiscrU32 | EDiscrNeg | EDiscrLit | EDiscrMax | EDupDiscr => 5
  | EReprSmall => 6 | ESerdeSmall => 7
  end.
Definition err_position (sp : span) : nat :=
  match sp with SpReprAttr k | SpVariant k | SpDiscr k => k | _ => 0 end.
Definition err_check (e : derive_error) : nat :=
  match e with
  | EDupName => 0 | EFields => 1 | EDiscrU32 | EDiscrNeg | EDiscrLit => 2 | EDiscrMax => 3 | EDupDiscr => 4
  | _ => 0
  end.
Definition err_before (e : derive_error) (sp : span) (e' : derive_error) (sp' : span) : Prop :=
  (err_stage e < err_stage e' \/
   err_stage e = err_stage e' /\
   (err_position sp < err_position sp' \/
    err_position sp = err_position sp' /\ err_check e < err_check e'))%nat.

(** ** Deserializer input of the right Rust types *)
Record SourceOk (pw : N) (inp : derive_input) (src : de_source) : Prop := {
  so_int : forall t x, src_int src t = Ok x -> x < 2 ^ ity_bits pw t;
  so_list : forall items v, src_list src = Ok items -> In (Ok v) items -> variant inp v;
  so_map : forall items v b, src_map src = Ok items -> In (Ok (v, b)) items -> variant inp v;
  so_words : forall items x, src_words src = Ok items -> In (Ok x) items -> x < 2 ^ 64
}.

(** * Histories of API calls: execution by the modelled code *)
From Verif Require Import Base Repr Syntax Derive EnumSet IterMethods CmpMethods Macros Fmt Serde HistorySpec.

Section History.
Context (T : EnumTy).

Record state : Type := { c_sets : nat -> eset T; c_iters : nat -> option (es_iter_t T) }.
Definition c_init : state := {| c_sets := fun _ => es_new T; c_iters := fun _ => None |}.
Definition c_set (st : state) (d : nat) (s : eset T) : state :=
  {| c_sets := update (c_sets st) d s; c_iters := c_iters st |}.
Definition c_set_iter (st : state) (i : nat) (it : es_iter_t T) : state :=
  {| c_sets := c_sets st; c_iters := update (c_iters st) i (Some it) |}.
Definition c_drop_iter (st : state) (i : nat) : state :=
  {| c_sets := c_sets st; c_iters := update (c_iters st) i None |}.
Definition c_arg (st : state) (o : arg) : operand T :=
  match o with ASet r => OSet (c_sets st r) | AVar v => OVar v end.

Definition method (op : bop) : eset T -> eset T -> M (eset T) :=
  match op with
  | BOr => es_union T | BAnd => es_intersection T
  | BXor => es_symmetrical_difference T | BSub => es_difference T
  end.
Definition oper (op : bop) : eset T -> operand T -> M (eset T) :=
  match op with BOr => es_bitor T | BAnd => es_bitand T | BXor => es_bitxor T | BSub => es_sub T end.
Definition assign_oper (op : bop) : eset T -> operand T -> M (eset T) :=
  match op with
  | BOr => es_bitor_assign T | BAnd => es_bitand_assign T
  | BXor => es_bitxor_assign T | BSub => es_sub_assign T
  end.
Definition var_oper (op : bop) : nat -> operand T -> M (eset T) :=
  match op with BOr => var_bitor T | BAnd => var_bitand T | BXor => var_bitxor T | BSub => var_sub T end.
Definition macro (op : bop) : operand T -> list (operand T) -> M (eset T) :=
  match op with
  | BOr => mc_union T | BAnd => mc_intersection T
  | BXor => mc_symmetric_difference T | BSub => mc_difference T
  end.

Definition c_call (st : state) (k : scall) : M (eset T) :=
  let S := c_sets st in
  match k with
  | KNew => Ret (es_new T) | KEmpty => Ret (es_empty T) | KDefault => Ret (es_default T) | KAll => Ret (es_all T)
  | KOnly v => es_only T v | KFrom v => es_from T v
  | KCopy r => Ret (S r) | KClear r => Ret (es_clear T (S r))
  | KMethod op a b => method op (S a) (S b)
  | KComplement a => es_complement T (S a)
  | KInsertAll a b => es_insert_all T (S a) (S b)
  | KRemoveAll a b => es_remove_all T (S a) (S b)
  | KOper op a o => oper op (S a) (c_arg st o)
  | KAssign op a o => assign_oper op (S a) (c_arg st o)
  | KNot a => es_not T (S a)
  | KVarOper op u o => var_oper op u (c_arg st o)
  | KVarNot u => var_not T u
  | KFromTruncated t x => es_from_truncated T t x
  | KFromUnchecked t x => es_from_unchecked T t x
  | KFromArrayTruncated l => es_from_array_truncated T l
  | KFromArrayUnchecked l => es_from_array_unchecked T l
  | KFromSliceTruncated l => es_from_slice_truncated T l
  | KFromSliceUnchecked l => es_from_slice_unchecked T l
  | KExtend a items => es_extend T (S a) items
  | KFromIter items => es_from_iter T items
  | KSum items => es_sum T items
  | KExtendSets a rs => es_extend_sets T (S a) (map S rs)
  | KFromIterSets rs => es_from_iter_sets T (map S rs)
  | KSumSets rs => es_sum_sets T (map S rs)
  | KEnumSet l => mc_enum_set T (map (c_arg st) l)
  | KMacro op o l => macro op (c_arg st o) (map (c_arg st) l)
  | KMacroComplement o => mc_complement T (c_arg st o)
  end.

(** A text sink and a serializer that accept everything. *)
Definition put (t w : string) : bool * string := (true, (w ++ t)%string).
Definition rec_event (e : sevent) (w : list sevent) : bool * list sevent := (true, w ++ [e]).

Definition step (c : cmd) (st : state) : M (output * state) :=
  let S := c_sets st in
  let out (m : M output) : M (output * state) := o <- m ;; Ret (o, st) in
  let assign d (m : M (eset T)) : M (output * state) := s <- m ;; Ret (OUnit, c_set st d s) in
  let try_assign d (m : M (option (eset T))) : M (output * state) :=
    o <- m ;; Ret (match o with Some s => (OBool true, c_set st d s) | None => (OBool false, st) end) in
  let with_iter i (f : es_iter_t T -> M (output * state)) : M (output * state) :=
    match c_iters st i with Some it => f it | None => out (Ret ONoIterator) end in
  (* the methods with repr in their name do not exist for other storages *)
  let with_int (f : (r_t (et_repr T) -> N) -> (N -> r_t (et_repr T)) -> M (output * state)) : M (output * state) :=
    match r_int (et_repr T) with Some (number, value) => f number value | None => UB end in
  match c with
  | CLet d k => assign d (c_call st k)
  | CInsert r v => '(b, s) <- es_insert T (S r) v ;; Ret (OBool b, c_set st r s)
  | CRemove r v => '(b, s) <- es_remove T (S r) v ;; Ret (OBool b, c_set st r s)
  | CTryFrom d t x => try_assign d (es_try_from T t x)
  | CTryFromArray d l => try_assign d (es_try_from_array T l)
  | CTryFromSlice d l => try_assign d (es_try_from_slice T l)
  | CFromNum d t x => assign d (es_from_num T t x)
  | CFromArray d l => assign d (es_from_array T l)
  | CFromSlice d l => assign d (es_from_slice T l)
  | CMax d a b => assign d (Ret (es_max T (S a) (S b)))
  | CMin d a b => assign d (Ret (es_min T (S a) (S b)))
  | CClamp d x lo hi => assign d (es_clamp T (S x) (S lo) (S hi))
  | CAsRepr r => with_int (fun number _ => out (Ret (ONum (number (es_as_repr T (S r))))))
  | CTryFromRepr d x => with_int (fun _ value => try_assign d (es_try_from_repr T (value x)))
  | CFromRepr d x => with_int (fun _ value => assign d (es_from_repr T (value x)))
  | CFromReprTruncated d x => with_int (fun _ value => assign d (es_from_repr_truncated T (value x)))
  | CFromReprUnchecked d x => with_int (fun _ value => assign d (Ret (es_from_repr_unchecked T (value x))))
  | CForeign d f r =>
      with_int (fun number value => assign d (Ret (es_from_repr_unchecked T (value (f (number (es_as_repr T (S r))))))))
  | CContains r v => out (b <- es_contains T (S r) v ;; Ret (OBool b))
  | CLen r => out (x <- es_len T (S r) ;; Ret (ONum x))
  | CIsEmpty r => out (Ret (OBool (es_is_empty T (S r))))
  | CIsDisjoint a b => out (x <- es_is_disjoint T (S a) (S b) ;; Ret (OBool x))
  | CIsSubset a b => out (x <- es_is_subset T (S a) (S b) ;; Ret (OBool x))
  | CIsSuperset a b => out (x <- es_is_superset T (S a) (S b) ;; Ret (OBool x))
  | CEq a b => out (Ret (OBool (es_eq T (S a) (S b))))
  | CEqVar r v => out (x <- es_eq_var T (S r) v ;; Ret (OBool x))
  | CVarEqSet v r => out (x <- var_eq_set T v (S r) ;; Ret (OBool x))
  | CVarEqVar u v => out (x <- enum_eq T u v ;; Ret (OBool x))
  | CVariantCount => out (Ret (ONum (es_variant_count T)))
  | CBitWidth => out (Ret (ONum (es_bit_width T)))
  | CCmp a b => out (Ret (OCmp (es_cmp T (S a) (S b))))
  | CPartialCmp a b => out (Ret (OOptCmp (es_partial_cmp T (S a) (S b))))
  | CNe a b => out (Ret (OBool (es_ne T (S a) (S b))))
  | CLt a b => out (Ret (OBool (es_lt T (S a) (S b))))
  | CLe a b => out (Ret (OBool (es_le T (S a) (S b))))
  | CGt a b => out (Ret (OBool (es_gt T (S a) (S b))))
  | CGe a b => out (Ret (OBool (es_ge T (S a) (S b))))
  | CHash r => out (Ret (OHash (es_hash T (S r))))
  | CTryAs t r => out (x <- es_try_as T t (S r) ;; Ret (OOptNum x))
  | CAs t r => out (x <- es_as T t (S r) ;; Ret (ONum x))
  | CAsTruncated t r => out (x <- es_as_truncated T t (S r) ;; Ret (ONum x))
  | CTryAsArray k r => out (x <- es_try_as_array T (S r) k ;; Ret (OOptWords x))
  | CAsArray k r => out (x <- es_as_array T (S r) k ;; Ret (OWords x))
  | CAsArrayTruncated k r => out (x <- es_as_array_truncated T (S r) k ;; Ret (OWords x))
  | CToVec r => out (x <- es_to_vec T (S r) ;; Ret (OWords x))
  | CTryCopy r l =>
      out ('(o, l') <- es_try_copy_into_slice T (S r) l ;;
           Ret (OCopied (match o with Some _ => true | None => false end) l'))
  | CCopy r l => out (x <- es_copy_into_slice T (S r) l ;; Ret (OWords x))
  | CCopyTruncated r l => out (x <- es_copy_into_slice_truncated T (S r) l ;; Ret (OWords x))
  | CCollect r => out (x <- es_collect T (S r) ;; Ret (OVariants x))
  | CCollectRev r => out (x <- es_collect_rev T (S r) ;; Ret (OVariants x))
  | CDisplay elem r => out ('(_, w) <- fmt_display T put (fun v => put (elem v)) (S r) ""%string ;; Ret (OText w))
  | CDebug elem r => out ('(_, w) <- fmt_debug T put (fun v => put (elem v)) (S r) ""%string ;; Ret (OText w))
  | CIter i r => it <- es_iter T (S r) ;; Ret (OUnit, c_set_iter st i it)
  | CIntoIter i r => it <- es_into_iter T (S r) ;; Ret (OUnit, c_set_iter st i it)
  | CIterClone j i => with_iter i (fun it => Ret (OUnit, c_set_iter st j it))
  | CNext i => with_iter i (fun it => '(o, it) <- es_next T it ;; Ret (OOptVariant o, c_set_iter st i it))
  | CNextBack i => with_iter i (fun it => '(o, it) <- es_next_back T it ;; Ret (OOptVariant o, c_set_iter st i it))
  | CSizeHint i => with_iter i (fun it => '(lo, hi) <- es_size_hint T it ;; Ret (OHint lo hi, st))
  | CIterLen i => with_iter i (fun it => x <- es_iter_len T it ;; Ret (ONum x, st))
  | CNth i n => with_iter i (fun it => '(o, it) <- es_nth T (es_next T) n it ;; Ret (OOptVariant o, c_set_iter st i it))
  | CNthBack i n => with_iter i (fun it => '(o, it) <- es_nth T (es_next_back T) n it ;; Ret (OOptVariant o, c_set_iter st i it))
  | CFind i p => with_iter i (fun it => '(o, it) <- es_find T (es_next T) p it ;; Ret (OOptVariant o, c_set_iter st i it))
  | CFindBack i p => with_iter i (fun it => '(o, it) <- es_find T (es_next_back T) p it ;; Ret (OOptVariant o, c_set_iter st i it))
  | CAny i p => with_iter i (fun it => '(b, it) <- es_any T (es_next T) p it ;; Ret (OBool b, c_set_iter st i it))
  | CAllItems i p => with_iter i (fun it => '(b, it) <- es_all_items T (es_next T) p it ;; Ret (OBool b, c_set_iter st i it))
  | CLast i => with_iter i (fun it => o <- es_last T (es_next T) it ;; Ret (OOptVariant o, c_drop_iter st i))
  | CCount md i => with_iter i (fun it => x <- @es_count md T (es_next T) it ;; Ret (ONum x, c_drop_iter st i))
  | CRest i => with_iter i (fun it => l <- es_drain T (Datatypes.S (length (et_variants T))) it ;; Ret (OVariants l, c_drop_iter st i))
  | CFold i f x =>
      with_iter i (fun it => y <- es_fold T (es_next T) it x (fun y v => Ret (f y v)) ;; Ret (ONum y, c_drop_iter st i))
  | CFoldBack i f x =>
      with_iter i (fun it => y <- es_fold T (es_next_back T) it x (fun y v => Ret (f y v)) ;; Ret (ONum y, c_drop_iter st i))
  | CPosition md i p =>
      with_iter i (fun it => '(o, it) <- @es_position md T (es_next T) p it ;; Ret (OOptNum o, c_set_iter st i it))
  | CPartition d e i p =>
      with_iter i (fun it => '(a, b) <- es_partition T p it ;; Ret (OUnit, c_drop_iter (c_set (c_set st d a) e b) i))
  | CExtendIter d i =>
      with_iter i (fun it => '(s, it) <- es_extend_iter T (S d) it ;; Ret (OUnit, c_set_iter (c_set st d s) i it))
  | CSerialize r => out ('(_, w) <- es_serialize T rec_event (S r) [] ;; Ret (OEvents w))
  | CDeserialize d src =>
      r <- es_deserialize T src ;;
      match r with Ok s => assign d (Ret s) | Err e => out (Ret (OError e)) end
  end.

(** The values returned by the calls of a history until the first one that does
    not return, and how the history ends. *)
Fixpoint run (cs : list cmd) (st : state) : list output * M unit :=
  match cs with
  | [] => ([], Ret tt)
  | c :: cs =>
      match step c st with
      | Ret (o, st) => let '(os, r) := run cs st in (o :: os, r)
      | Panic p => ([], Panic p)
      | UB => ([], UB)
      | OutOfFuel => ([], OutOfFuel)
      end
  end.
(** A program (see [a_play]) run for at most [n] calls. *)
Fixpoint play (n : nat) (prog : program) (seen : list output) (st : state) : list output * M unit :=
  match n with
  | O => (seen, Ret tt)
  | S n =>
      match prog seen with
      | None => (seen, Ret tt)
      | Some c =>
          match step c st with
          | Ret (o, st) => play n prog (seen ++ [o]) st
          | Panic p => (seen, Panic p)
          | UB => (seen, UB)
          | OutOfFuel => (seen, OutOfFuel)
          end
      end
  end.
End History.

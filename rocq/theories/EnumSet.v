(** * Model of /repo/enumset/src/set.rs

    [EnumSet<T>] is [repr(transparent)] over [T::Repr] (set.rs:123-130): a set is
    a value of the storage type. Methods taking [&mut self] return the new set. *)
From Verif Require Import Base Repr Syntax Derive.

(** set.rs:125 *)
Definition eset (T : EnumTy) : Type := r_t (et_repr T).

(** A right operand of type [O: Into<EnumSet<T>>]: a set or a bare variant. *)
Inductive operand (T : EnumTy) : Type :=
| OSet (s : eset T)
| OVar (v : nat).
Arguments OSet {T} _.
Arguments OVar {T} _.

Section Ops.
Context (T : EnumTy).
Notation set := (eset T).
Notation R := (et_repr T).

(** set.rs:134, 139, 155, 306-308  [EMPTY_REPR], [new], [empty], [default] *)
Definition es_new : set := r_empty R.
Definition es_empty : set := r_empty R.
Definition es_default : set := es_new.
(** set.rs:135, 161  [ALL_REPR], [all] *)
Definition es_all : set := et_all_bits T.
(** set.rs:455, 461  the deprecated constants [EMPTY] and [ALL] *)
Definition es_EMPTY : set := r_empty R.
Definition es_ALL : set := et_all_bits T.
(** set.rs:171, 180 *)
Definition es_bit_width : N := et_bit_width T.
Definition es_variant_count : N := et_variant_count T.

(** set.rs:186-188  [len]: [count_ones() as usize] *)
Definition es_len (self : set) : M N := c <- r_count_ones R self ;; Ret (wrap (et_pw T) c).
(** set.rs:191-193 *)
Definition es_is_empty (self : set) : bool := r_is_empty R self.
(** set.rs:196-198  [clear] *)
Definition es_clear (self : set) : set := r_empty R.

(** set.rs:221-244 *)
Definition es_union (self other : set) : M set := r_bitor R self other.
Definition es_intersection (self other : set) : M set := r_bitand R self other.
Definition es_difference (self other : set) : M set := r_and_not R self other.
Definition es_symmetrical_difference (self other : set) : M set := r_bitxor R self other.
Definition es_complement (self : set) : M set := x <- r_not R self ;; r_bitand R x (et_all_bits T).

(** set.rs:248-250  [contains] *)
Definition es_contains (self : set) (v : nat) : M bool :=
  b <- enum_into_u32 T v ;; r_has_bit R self b.
(** set.rs:258-262  [insert] *)
Definition es_insert (self : set) (v : nat) : M (bool * set) :=
  c <- es_contains self v ;;
  let contains := negb c in
  b <- enum_into_u32 T v ;;
  self' <- r_add_bit R self b ;;
  Ret (contains, self').
(** set.rs:265-269  [remove] *)
Definition es_remove (self : set) (v : nat) : M (bool * set) :=
  contains <- es_contains self v ;;
  b <- enum_into_u32 T v ;;
  self' <- r_remove_bit R self b ;;
  Ret (contains, self').
(** set.rs:145-149  [only]; set.rs:373-377  [From<T>] *)
Definition es_only (v : nat) : M set := '(_, s) <- es_insert es_new v ;; Ret s.
Definition es_from (v : nat) : M set := es_only v.
(** [other.into()]: identity on sets, [From<T>] on variants *)
Definition es_into (o : operand T) : M set :=
  match o with OSet s => Ret s | OVar v => es_from v end.

(** set.rs:273-280 *)
Definition es_insert_all (self other : set) : M set := r_bitor R self other.
Definition es_remove_all (self other : set) : M set := r_and_not R self other.

(** set.rs:311-338  operators [- & | ^] *)
Definition es_sub (self : set) (o : operand T) : M set := x <- es_into o ;; es_difference self x.
Definition es_bitand (self : set) (o : operand T) : M set := x <- es_into o ;; es_intersection self x.
Definition es_bitor (self : set) (o : operand T) : M set := x <- es_into o ;; es_union self x.
Definition es_bitxor (self : set) (o : operand T) : M set := x <- es_into o ;; es_symmetrical_difference self x.
(** set.rs:340-363  [-= &= |= ^=] *)
Definition es_sub_assign (self : set) (o : operand T) : M set := es_sub self o.
Definition es_bitand_assign (self : set) (o : operand T) : M set := es_bitand self o.
Definition es_bitor_assign (self : set) (o : operand T) : M set := es_bitor self o.
Definition es_bitxor_assign (self : set) (o : operand T) : M set := es_bitxor self o.
(** set.rs:365-371  [!] *)
Definition es_not (self : set) : M set := es_complement self.

(** set.rs:123 [derive(PartialEq, Eq)]; set.rs:379-383 [PartialEq<T>] *)
Definition es_eq (a b : set) : bool := r_eqb R a b.
Definition es_eq_var (self : set) (v : nat) : M bool := s <- es_only v ;; Ret (r_eqb R self s).

(** set.rs:203-217 *)
Definition es_is_disjoint (self other : set) : M bool :=
  x <- es_bitand self (OSet other) ;; Ret (es_is_empty x).
Definition es_is_superset (self other : set) : M bool :=
  x <- es_bitand self (OSet other) ;; Ret (r_eqb R x other).
Definition es_is_subset (self other : set) : M bool := es_is_superset other self.

(** derive/src/lib.rs:385-425  operators on bare variants *)
Definition var_sub (v : nat) (o : operand T) : M set :=
  s <- es_only v ;; x <- es_into o ;; es_sub s (OSet x).
Definition var_bitand (v : nat) (o : operand T) : M set :=
  s <- es_only v ;; x <- es_into o ;; es_bitand s (OSet x).
Definition var_bitor (v : nat) (o : operand T) : M set :=
  s <- es_only v ;; x <- es_into o ;; es_bitor s (OSet x).
Definition var_bitxor (v : nat) (o : operand T) : M set :=
  s <- es_only v ;; x <- es_into o ;; es_bitxor s (OSet x).
Definition var_not (v : nat) : M set := s <- es_only v ;; es_not s.
Definition var_eq_set (v : nat) (o : set) : M bool := s <- es_only v ;; Ret (es_eq s o).

(** set.rs:416-431  [Hash], [PartialOrd], [Ord] *)
Definition es_hash (self : set) : list hash_write := r_hash R self.
Definition es_partial_cmp (self other : set) : option comparison := Some (r_cmp R self other).
Definition es_cmp (self other : set) : comparison := r_cmp R self other.

(** ** Conversions *)

(** The check [if bits.and_not(mask).is_empty() { Some(..) } else { None }]
    (set.rs:518-522, 598-602, 697-701, 771-775) *)
Definition es_checked (bits : set) : M (option set) :=
  x <- r_and_not R bits (et_all_bits T) ;;
  Ret (if r_is_empty R x then Some bits else None).

(** set.rs:466-535  methods that exist only with an explicit integer repr *)
Definition es_as_repr (self : set) : r_t R := self.
Definition es_from_repr_unchecked (bits : r_t R) : set := bits.
Definition es_try_from_repr (bits : r_t R) : M (option set) := es_checked bits.
Definition es_from_repr (bits : r_t R) : M set :=
  o <- es_try_from_repr bits ;; expect "Bitset contains invalid variants." o.
Definition es_from_repr_truncated (bits : r_t R) : M set :=
  r_bitand R bits (es_as_repr es_all).

(** set.rs:537-656  [conversion_impls!], for the integer type [t] *)
Definition es_try_as (t : ity) (self : set) : M (option N) := r_to_opt R t self.
Definition es_as (t : ity) (self : set) : M N :=
  o <- es_try_as t self ;; expect "Bitset will not fit into this type." o.
Definition es_as_truncated (t : ity) (self : set) : M N := r_to R t self.
Definition es_try_from (t : ity) (bits : N) : M (option set) :=
  o <- r_from_opt R t bits ;;
  match o with Some bits => es_checked bits | None => Ret None end.
Definition es_from_num (t : ity) (bits : N) : M set :=
  o <- es_try_from t bits ;; expect "Bitset contains invalid variants." o.
Definition es_from_truncated (t : ity) (bits : N) : M set :=
  mask <- es_as_truncated t es_all ;; r_from R t (N.land bits mask).
Definition es_from_unchecked (t : ity) (bits : N) : M set := r_from R t bits.

(** set.rs:658-721  arrays *)
Definition es_try_as_array (self : set) (O : nat) : M (option (list N)) := r_to_u64_array_opt R self O.
Definition es_as_array (self : set) (O : nat) : M (list N) :=
  o <- es_try_as_array self O ;; expect "Bitset will not fit into this type." o.
Definition es_as_array_truncated (self : set) (O : nat) : M (list N) := r_to_u64_array R self O.
Definition es_try_from_array (bits : list N) : M (option set) :=
  o <- r_from_u64_array_opt R bits ;;
  match o with Some bits => es_checked bits | None => Ret None end.
Definition es_from_array (v : list N) : M set :=
  o <- es_try_from_array v ;; expect "Bitset contains invalid variants." o.
Definition es_from_array_truncated (bits : list N) : M set :=
  x <- r_from_u64_array R bits ;; r_bitand R x (et_all_bits T).
Definition es_from_array_unchecked (bits : list N) : M set := r_from_u64_array R bits.

(** set.rs:726-755  vectors and slices; a slice argument is given with its
    content and returned with its new content *)
Definition es_to_vec (self : set) : M (list N) :=
  r_to_u64_slice R self (repeat 0 (r_preferred_array_len R)).
Definition es_try_copy_into_slice (self : set) (data : list N) : M (option unit * list N) :=
  r_to_u64_slice_opt R self data.
Definition es_copy_into_slice (self : set) (data : list N) : M (list N) :=
  '(o, data') <- es_try_copy_into_slice self data ;;
  _ <- expect "Bitset will not fit into slice." o ;; Ret data'.
Definition es_copy_into_slice_truncated (self : set) (data : list N) : M (list N) :=
  r_to_u64_slice R self data.
(** set.rs:760-795 *)
Definition es_try_from_slice (bits : list N) : M (option set) :=
  o <- r_from_u64_slice_opt R bits ;;
  match o with Some bits => es_checked bits | None => Ret None end.
Definition es_from_slice (v : list N) : M set :=
  o <- es_try_from_slice v ;; expect "Bitset contains invalid variants." o.
Definition es_from_slice_truncated (bits : list N) : M set :=
  x <- r_from_u64_slice R bits ;; r_bitand R x (et_all_bits T).
Definition es_from_slice_unchecked (bits : list N) : M set := r_from_u64_slice R bits.

(** ** Iterators *)

(** set.rs:802-804  [EnumSetIter] *)
Definition es_iter_t : Type := r_iter_t R.
(** set.rs:806-820, 879-881  [EnumSetIter::new], [iter], [into_iter] *)
Definition es_iter (self : set) : M es_iter_t := r_iter R self.
Definition es_into_iter (self : set) : M es_iter_t := es_iter self.

(** [.map(|x| unsafe { T::enum_from_u32(x) })] (set.rs:826, 835-837) *)
Definition es_map_item (o : option N) : M (option nat) :=
  match o with Some x => v <- enum_from_u32 T x ;; Ret (Some v) | None => Ret None end.
(** set.rs:825-827 *)
Definition es_next (it : es_iter_t) : M (option nat * es_iter_t) :=
  '(o, it') <- r_iter_next R it ;; o' <- es_map_item o ;; Ret (o', it').
(** set.rs:834-838 *)
Definition es_next_back (it : es_iter_t) : M (option nat * es_iter_t) :=
  '(o, it') <- r_iter_next_back R it ;; o' <- es_map_item o ;; Ret (o', it').
(** set.rs:828-830 *)
Definition es_size_hint (it : es_iter_t) : M (N * option N) := r_iter_size_hint R it.
(** set.rs:841  [ExactSizeIterator::len]: the default method of core, which
    asserts [upper == Some(lower)] *)
Definition es_iter_len (it : es_iter_t) : M N :=
  '(lo, hi) <- es_size_hint it ;;
  match hi with
  | Some h => if h =? lo then Ret lo else Panic (PExplicit "assertion failed")
  | None => Panic (PExplicit "assertion failed")
  end.

(** Running an iterator to its end with [next] (as [for] loops, [collect], ...
    do) or with [next_back] ([rev()]); [fuel] bounds the number of calls. *)
Fixpoint es_drain (fuel : nat) (it : es_iter_t) : M (list nat) :=
  match fuel with
  | O => OutOfFuel
  | S fuel =>
      '(o, it') <- es_next it ;;
      match o with
      | Some v => rest <- es_drain fuel it' ;; Ret (v :: rest)
      | None => Ret []
      end
  end.
Fixpoint es_drain_back (fuel : nat) (it : es_iter_t) : M (list nat) :=
  match fuel with
  | O => OutOfFuel
  | S fuel =>
      '(o, it') <- es_next_back it ;;
      match o with
      | Some v => rest <- es_drain_back fuel it' ;; Ret (v :: rest)
      | None => Ret []
      end
  end.
(** [self.iter().collect::<Vec<_>>()] and [self.iter().rev().collect::<Vec<_>>()];
    one call more than there are variants suffices (proved). *)
Definition es_collect (self : set) : M (list nat) :=
  it <- es_iter self ;; es_drain (S (length (et_variants T))) it.
Definition es_collect_rev (self : set) : M (list nat) :=
  it <- es_iter self ;; es_drain_back (S (length (et_variants T))) it.

(** set.rs:843-873  [Extend], [FromIterator] *)
Definition es_extend (self : set) (items : list nat) : M set :=
  for_each items self (fun v self => '(_, s) <- es_insert self v ;; Ret s).
Definition es_from_iter (items : list nat) : M set := es_extend es_default items.
Definition es_extend_sets (self : set) (items : list set) : M set :=
  for_each items self (fun v self => es_insert_all self v).
Definition es_from_iter_sets (items : list set) : M set := es_extend_sets es_default items.
(** set.rs:843-849, 859-865 with an iterator that may panic instead of answering
    ([None]): the set as it is found after the unwinding, and whether the
    iterator panicked *)
Fixpoint es_extend_unwind (self : set) (steps : list (option nat)) : M (set * bool) :=
  match steps with
  | [] => Ret (self, false)
  | None :: _ => Ret (self, true)
  | Some v :: rest => '(_, s) <- es_insert self v ;; es_extend_unwind s rest
  end.
Fixpoint es_extend_sets_unwind (self : set) (steps : list (option set)) : M (set * bool) :=
  match steps with
  | [] => Ret (self, false)
  | None :: _ => Ret (self, true)
  | Some v :: rest => s <- es_insert_all self v ;; es_extend_sets_unwind s rest
  end.
(** set.rs:883-902  [Sum] (by value and by reference alike) *)
Definition es_sum_sets (items : list set) : M set :=
  for_each items es_empty (fun v a => es_bitor a (OSet v)).
Definition es_sum (items : list nat) : M set :=
  for_each items es_empty (fun v a => es_bitor a (OVar v)).

End Ops.

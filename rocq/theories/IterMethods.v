(** * The provided methods of [Iterator] and [DoubleEndedIterator] on [EnumSetIter]

    set.rs:822-841 overrides only [next], [size_hint] and [next_back]; all other
    methods are the default ones of core::iter, which are modelled here from
    their documented meaning in terms of [next] and [next_back]. [fuel] bounds
    the number of calls as in [es_drain]. *)
From Verif Require Import Base Repr Syntax Derive EnumSet.

Section Methods.
Context {md : build} (T : EnumTy).
Notation iter := (es_iter_t T).
(** [next] or [next_back]: the methods with a mirror image take it as argument *)
Context (step : iter -> M (option nat * iter)).

(** [advance_by], [advance_back_by]: [n] calls, [false] when one finds nothing *)
Fixpoint es_advance (n : nat) (it : iter) : M (bool * iter) :=
  match n with
  | O => Ret (true, it)
  | S n =>
      '(o, it) <- step it ;;
      match o with Some _ => es_advance n it | None => Ret (false, it) end
  end.
(** [nth], [nth_back] *)
Definition es_nth (n : nat) (it : iter) : M (option nat * iter) :=
  '(ok, it) <- es_advance n it ;;
  if ok then step it else Ret (None, it).
(** [fold], [rfold]; the closure may panic *)
Fixpoint es_fold_loop {B} (fuel : nat) (it : iter) (accum : B) (f : B -> nat -> M B) : M B :=
  match fuel with
  | O => OutOfFuel
  | S fuel =>
      '(o, it) <- step it ;;
      match o with
      | Some x => accum <- f accum x ;; es_fold_loop fuel it accum f
      | None => Ret accum
      end
  end.
Definition es_fold {B} (it : iter) (init : B) (f : B -> nat -> M B) : M B :=
  es_fold_loop (S (length (et_variants T))) it init f.
(** [count]: [self.fold(0, |count, _| count + 1)] on usize *)
Definition es_count (it : iter) : M N := es_fold it 0 (fun count _ => @cadd md (et_pw T) count 1).
(** [last]: [self.fold(None, |_, x| Some(x))] *)
Definition es_last (it : iter) : M (option nat) := es_fold it None (fun _ x => Ret (Some x)).
(** [find], [rfind]: stops at the first item satisfying [p]; the iterator can be
    used further *)
Fixpoint es_find_loop (fuel : nat) (p : nat -> bool) (it : iter) : M (option nat * iter) :=
  match fuel with
  | O => OutOfFuel
  | S fuel =>
      '(o, it) <- step it ;;
      match o with
      | Some x => if p x then Ret (Some x, it) else es_find_loop fuel p it
      | None => Ret (None, it)
      end
  end.
Definition es_find (p : nat -> bool) (it : iter) : M (option nat * iter) :=
  es_find_loop (S (length (et_variants T))) p it.
(** [any], [all]: [find] for the predicate or its negation *)
Definition es_any (p : nat -> bool) (it : iter) : M (bool * iter) :=
  '(o, it) <- es_find p it ;; Ret (match o with Some _ => true | None => false end, it).
Definition es_all_items (p : nat -> bool) (it : iter) : M (bool * iter) :=
  '(o, it) <- es_find (fun x => negb (p x)) it ;; Ret (match o with Some _ => false | None => true end, it).
(** [position]: the number of items before the first one satisfying [p], counted in usize *)
Fixpoint es_position_loop (fuel : nat) (p : nat -> bool) (k : N) (it : iter) : M (option N * iter) :=
  match fuel with
  | O => OutOfFuel
  | S fuel =>
      '(o, it) <- step it ;;
      match o with
      | Some x => if p x then Ret (Some k, it) else k <- @cadd md (et_pw T) k 1 ;; es_position_loop fuel p k it
      | None => Ret (None, it)
      end
  end.
Definition es_position (p : nat -> bool) (it : iter) : M (option N * iter) :=
  es_position_loop (S (length (et_variants T))) p 0 it.
End Methods.

(** set.rs:843-849  [set.extend(&mut it)] with an [EnumSetIter] as the
    iterator: [iter.into_iter().for_each(|v| { self.insert(v); })]; the iterator
    is used up afterwards *)
Section Extend.
Context (T : EnumTy).
Fixpoint es_extend_iter_loop (fuel : nat) (self : eset T) (it : es_iter_t T) : M (eset T * es_iter_t T) :=
  match fuel with
  | O => OutOfFuel
  | S fuel =>
      '(o, it) <- es_next T it ;;
      match o with
      | Some v => '(_, self) <- es_insert T self v ;; es_extend_iter_loop fuel self it
      | None => Ret (self, it)
      end
  end.
Definition es_extend_iter (self : eset T) (it : es_iter_t T) : M (eset T * es_iter_t T) :=
  es_extend_iter_loop (S (length (et_variants T))) self it.
(** core's [Iterator::partition] into two sets: both start as [default()]
    (set.rs:304-309) and grow by [extend_one], by default [extend(Some(v))] *)
Fixpoint es_partition_loop (fuel : nat) (p : nat -> bool) (left right : eset T) (it : es_iter_t T) : M (eset T * eset T) :=
  match fuel with
  | O => OutOfFuel
  | S fuel =>
      '(o, it) <- es_next T it ;;
      match o with
      | Some v =>
          if p v then left <- es_extend T left [v] ;; es_partition_loop fuel p left right it
          else right <- es_extend T right [v] ;; es_partition_loop fuel p left right it
      | None => Ret (left, right)
      end
  end.
Definition es_partition (p : nat -> bool) (it : es_iter_t T) : M (eset T * eset T) :=
  es_partition_loop (S (length (et_variants T))) p (es_default T) (es_default T) it.
End Extend.

(** set.rs:843-849  [set.extend((&mut it).map(f))], where the set and the iterator
    may belong to different enums and the closure may panic ([None]). Answers
    whether it went through; if not, the set and the iterator as they are when the
    panic has been caught *)
Section ExtendMap.
Context (T T' : EnumTy).
Fixpoint es_extend_map_loop (fuel : nat) (f : nat -> option nat) (self : eset T') (it : es_iter_t T)
  : M (bool * eset T' * es_iter_t T) :=
  match fuel with
  | O => OutOfFuel
  | S fuel =>
      '(o, it) <- es_next T it ;;
      match o with
      | None => Ret (true, self, it)
      | Some v =>
          match f v with
          | None => Ret (false, self, it)
          | Some u => '(_, self) <- es_insert T' self u ;; es_extend_map_loop fuel f self it
          end
      end
  end.
Definition es_extend_map (f : nat -> option nat) (self : eset T') (it : es_iter_t T) : M (bool * eset T' * es_iter_t T) :=
  es_extend_map_loop (S (length (et_variants T))) f self it.
End ExtendMap.

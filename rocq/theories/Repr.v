(** * Model of /repo/enumset/src/repr/mod.rs

    The trait [EnumSetTypeRepr] (mod.rs:18-90) is a record of operations; its
    implementations are [prim_repr] (primitive.rs:3-266) and [array_repr]
    (array.rs:53-270). Functions with a [t : ity] argument stand for the six
    trait functions of that integer type. *)
From Verif Require Import Base Prim ArrayRepr.

(** What a [Hash] implementation feeds to the hasher: integers of the core
    library call [write_uW]; an array feeds its length prefix and then its
    elements as one slice. *)
Inductive hash_write : Type :=
| HInt (w x : N)
| HLen (n : nat)
| HWords (l : list N).

Record ReprTrait : Type := MkReprTrait {
  r_t : Type;                                        (* Self *)
  r_ok : r_t -> Prop;        (* typing: integers and lists that are values of the Rust type *)
  r_preferred_array_len : nat;
  r_width : N;
  r_empty : r_t;
  r_eqb : r_t -> r_t -> bool;                        (* Eq *)
  r_cmp : r_t -> r_t -> comparison;                  (* Ord *)
  r_hash : r_t -> list hash_write;                   (* Hash *)
  r_bitand : r_t -> r_t -> M r_t;
  r_bitor : r_t -> r_t -> M r_t;
  r_bitxor : r_t -> r_t -> M r_t;
  r_not : r_t -> M r_t;
  r_is_empty : r_t -> bool;
  r_add_bit : r_t -> N -> M r_t;
  r_remove_bit : r_t -> N -> M r_t;
  r_has_bit : r_t -> N -> M bool;
  r_count_ones : r_t -> M N;
  r_leading_zeros : r_t -> M N;
  r_trailing_zeros : r_t -> M N;
  r_and_not : r_t -> r_t -> M r_t;
  r_iter_t : Type;                                   (* type Iter *)
  r_iter : r_t -> M r_iter_t;
  r_iter_next : r_iter_t -> M (option N * r_iter_t);
  r_iter_next_back : r_iter_t -> M (option N * r_iter_t);
  r_iter_size_hint : r_iter_t -> M (N * option N);
  r_from : ity -> N -> M r_t;                        (* from_u8 .. from_usize *)
  r_to : ity -> r_t -> M N;                          (* to_u8 .. to_usize *)
  r_from_opt : ity -> N -> M (option r_t);
  r_to_opt : ity -> r_t -> M (option N);
  r_to_u64_array : r_t -> nat -> M (list N);
  r_to_u64_array_opt : r_t -> nat -> M (option (list N));
  r_from_u64_array : list N -> M r_t;
  r_from_u64_array_opt : list N -> M (option r_t);
  r_to_u64_slice : r_t -> list N -> M (list N);
  r_to_u64_slice_opt : r_t -> list N -> M (option unit * list N);
  r_from_u64_slice : list N -> M r_t;
  r_from_u64_slice_opt : list N -> M (option r_t);
  (* if Self is a primitive integer type: a value as a number, a number as a value *)
  r_int : option ((r_t -> N) * (N -> r_t));
}.

(** primitive.rs:13-258  [impl EnumSetTypeRepr for $name]; the macro is used with
    widths [w] and array lengths [pl] 8, 1; 16, 1; 32, 1; 64, 1; 128, 2 (262-266),
    see [enum_set_type_impl] *)
Definition prim_repr (md : build) (pw w : N) (pl : nat) : ReprTrait := {|
  r_t := N;
  r_ok := fun x => x < 2 ^ w;
  r_preferred_array_len := pl;
  r_width := w;
  r_empty := p_empty;
  r_eqb := N.eqb;
  r_cmp := N.compare;
  r_hash := fun x => [HInt w x];
  r_bitand := fun a b => Ret (p_bitand a b);
  r_bitor := fun a b => Ret (p_bitor a b);
  r_bitxor := fun a b => Ret (p_bitxor a b);
  r_not := fun a => Ret (p_bitnot w a);
  r_is_empty := p_is_empty;
  r_add_bit := p_add_bit w;
  r_remove_bit := p_remove_bit w;
  r_has_bit := p_has_bit w;
  r_count_ones := fun a => Ret (p_count_ones a);
  r_leading_zeros := fun a => Ret (p_leading_zeros w a);
  r_trailing_zeros := fun a => Ret (p_trailing_zeros w a);
  r_and_not := fun a b => Ret (p_and_not w a b);
  r_iter_t := N;
  r_iter := fun a => Ret a;                          (* primitive.rs:56-58 *)
  r_iter_next := p_iter_next w;
  r_iter_next_back := p_iter_next_back w;
  r_iter_size_hint := fun it => Ret (p_iter_size_hint pw it);
  r_from := fun _ v => Ret (p_from w v);
  r_to := fun t a => Ret (p_to pw t a);
  r_from_opt := fun _ v => Ret (p_from_opt w v);
  r_to_opt := fun t a => Ret (p_to_opt pw t a);
  r_to_u64_array := p_to_u64_array pl;
  r_to_u64_array_opt := p_to_u64_array_opt pl;
  r_from_u64_array := p_from_u64_array w pl;
  r_from_u64_array_opt := p_from_u64_array_opt w;
  r_to_u64_slice := p_to_u64_slice pl;
  r_to_u64_slice_opt := p_to_u64_slice_opt pl;
  r_from_u64_slice := p_from_u64_slice w pl;
  r_from_u64_slice_opt := p_from_u64_slice_opt w;
  r_int := Some (fun x => x, fun x => x);
|}.

(** array.rs:53-270  [impl EnumSetTypeRepr for ArrayRepr<N>] *)
Definition array_repr (md : build) (pw : N) (n : nat) : ReprTrait := {|
  r_t := list N;
  r_ok := fun l => length l = n /\ Forall (fun x => x < 2 ^ 64) l;
  r_preferred_array_len := n;                        (* array.rs:54 *)
  r_width := a_width n;
  r_empty := a_empty n;
  r_eqb := a_eqb;
  r_cmp := a_cmp;
  r_hash := fun l => [HLen n; HWords l];
  r_bitand := a_bitand n;
  r_bitor := a_bitor n;
  r_bitxor := a_bitxor n;
  r_not := a_bitnot n;
  r_is_empty := a_is_empty;
  r_add_bit := a_add_bit pw;
  r_remove_bit := a_remove_bit pw;
  r_has_bit := a_has_bit pw;
  r_count_ones := a_count_ones;
  r_leading_zeros := a_leading_zeros n;
  r_trailing_zeros := a_trailing_zeros n;
  r_and_not := a_and_not n;
  r_iter_t := a_iter;
  r_iter := a_iter_new n;                            (* array.rs:108-110 *)
  r_iter_next := a_iter_next;
  r_iter_next_back := a_iter_next_back;
  r_iter_size_hint := a_iter_size_hint pw;
  r_from := a_from n;
  r_to := a_to pw n;
  r_from_opt := a_from_opt n;
  r_to_opt := a_to_opt pw n;
  r_to_u64_array := a_to_u64_array n;
  r_to_u64_array_opt := a_to_u64_array_opt n;
  r_from_u64_array := a_from_u64_array n;
  r_from_u64_array_opt := a_from_u64_array_opt n;
  r_to_u64_slice := a_to_u64_slice n;
  r_to_u64_slice_opt := a_to_u64_slice_opt n;
  r_from_u64_slice := a_from_u64_slice n;
  r_from_u64_slice_opt := a_from_u64_slice_opt n;
  r_int := None;
|}.

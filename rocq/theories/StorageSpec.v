(** * Vocabulary of the claims about the storages themselves *)
From Coq Require Export Sorting.Sorted.
From Verif Require Import Base Repr Syntax Spec Derive EnumSet.

(** The number written in 64-bit words, least significant first. *)
Fixpoint words_value (l : list N) : N := match l with [] => 0 | x :: l => x + 2 ^ 64 * words_value l end.

(** [R] is one of the storages of the crate, compiled for a [pw]-bit usize, and
    its values stand for the numbers [value]: the five integer types and the
    arrays of words that the derive macro can choose. *)
Inductive Storage (pw : N) : forall R : ReprTrait, (r_t R -> N) -> Prop :=
| Storage_int md w pl : In (w, pl) [(8, 1%nat); (16, 1%nat); (32, 1%nat); (64, 1%nat); (128, 2%nat)] ->
    Storage pw (prim_repr md pw w pl) (fun x => x)
| Storage_words md n : (0 < n)%nat -> 64 * N.of_nat n < 2 ^ 32 ->
    Storage pw (array_repr md pw n) words_value.

(** [m] returns a value whose bits are [f]. *)
Definition gives {R : ReprTrait} (value : r_t R -> N) (m : M (r_t R)) (f : N -> bool) : Prop :=
  exists z, m = Ret z /\ r_ok R z /\ forall i, N.testbit (value z) i = f i.
(** [m] returns a value that stands for [v]. *)
Definition gives_value {R : ReprTrait} (value : r_t R -> N) (m : M (r_t R)) (v : N) : Prop :=
  exists z, m = Ret z /\ r_ok R z /\ value z = v.
Definition gives_option {R : ReprTrait} (value : r_t R -> N) (m : M (option (r_t R))) (o : option N) : Prop :=
  match o with
  | Some v => exists z, m = Ret (Some z) /\ r_ok R z /\ value z = v
  | None => m = Ret None
  end.

(** A sequence of calls of [next] and [next_back] on the iterator of a storage. *)
Fixpoint r_pops (R : ReprTrait) (ps : list pop) (it : r_iter_t R) : M (list (option N) * r_iter_t R) :=
  match ps with
  | [] => Ret ([], it)
  | p :: ps =>
      '(o, it) <- (match p with Front => r_iter_next R it | Back => r_iter_next_back R it end) ;;
      '(os, it) <- r_pops R ps it ;;
      Ret (o :: os, it)
  end.

(** What is asked of a storage: [R] is lawful if its values behave like unsigned
    integers of [r_width R] bits, whatever they are made of. *)
Record Lawful (pw : N) (R : ReprTrait) (value : r_t R -> N) : Prop := {
  lw_width : 0 < r_width R < 2 ^ 32;
  lw_words : r_width R <= 64 * N.of_nat (r_preferred_array_len R);
  lw_empty : r_ok R (r_empty R) /\ value (r_empty R) = 0;
  lw_range : forall x, r_ok R x -> value x < 2 ^ r_width R;
  lw_inj : forall x y, r_ok R x -> r_ok R y -> value x = value y -> x = y;
  lw_eq : forall x y, r_ok R x -> r_ok R y -> (r_eqb R x y = true <-> x = y);
  lw_hash : forall x y, r_ok R x -> r_ok R y -> r_hash R x = r_hash R y -> x = y;
  lw_cmp_eq : forall x y, r_ok R x -> r_ok R y -> (r_cmp R x y = Eq <-> x = y);
  lw_cmp_antisym : forall x y, r_ok R x -> r_ok R y -> r_cmp R y x = CompOpp (r_cmp R x y);
  lw_cmp_trans : forall x y z c, r_ok R x -> r_ok R y -> r_ok R z -> r_cmp R x y = c -> r_cmp R y z = c -> r_cmp R x z = c;
  lw_logic : forall x y, r_ok R x -> r_ok R y -> let bit z i := N.testbit (value z) i in
    gives value (r_bitand R x y) (fun i => bit x i && bit y i) /\
    gives value (r_bitor R x y) (fun i => bit x i || bit y i) /\
    gives value (r_bitxor R x y) (fun i => xorb (bit x i) (bit y i)) /\
    gives value (r_and_not R x y) (fun i => bit x i && negb (bit y i)) /\
    gives value (r_not R x) (fun i => (i <? r_width R) && negb (bit x i));
  lw_bit : forall x b, r_ok R x -> b < r_width R -> b < 2 ^ pw -> let bit z i := N.testbit (value z) i in
    r_has_bit R x b = Ret (bit x b) /\
    gives value (r_add_bit R x b) (fun i => (i =? b) || bit x i) /\
    gives value (r_remove_bit R x b) (fun i => negb (i =? b) && bit x i);
  lw_is_empty : forall x, r_ok R x -> (r_is_empty R x = true <-> forall i, N.testbit (value x) i = false);
  lw_counts : forall x, r_ok R x -> let bit i := N.testbit (value x) i in
    r_count_ones R x = Ret (N.of_nat (length (filter (fun k => bit (N.of_nat k)) (seq 0 (N.to_nat (r_width R)))))) /\
    (exists n, r_leading_zeros R x = Ret n /\ n <= r_width R /\
       (forall i, r_width R - n <= i -> bit i = false) /\ (n = r_width R \/ bit (r_width R - n - 1) = true)) /\
    (exists n, r_trailing_zeros R x = Ret n /\ n <= r_width R /\
       (forall i, i < n -> bit i = false) /\ (n = r_width R \/ bit n = true));
  lw_iter : forall x, r_ok R x ->
    exists it l, r_iter R x = Ret it /\ StronglySorted N.lt l /\ (forall i, In i l <-> N.testbit (value x) i = true) /\
      forall ps, exists it', r_pops R ps it = Ret (fst (pops ps l), it') /\
        let k := N.of_nat (length (snd (pops ps l))) in
        (k < 2 ^ pw -> r_iter_size_hint R it' = Ret (k, Some k));
  lw_int : forall t x, r_ok R x -> let w := ity_bits pw t in
    r_to R t x = Ret (value x mod 2 ^ w) /\
    r_to_opt R t x = Ret (if value x <? 2 ^ w then Some (value x) else None);
  lw_of_int : forall t v, let w := ity_bits pw t in v < 2 ^ w ->
    gives_value value (r_from R t v) (v mod 2 ^ r_width R) /\
    gives_option value (r_from_opt R t v) (if v <? 2 ^ r_width R then Some v else None);
  lw_to_words : forall x k, r_ok R x ->
    exists l, length l = k /\ words_ok l /\ words_value l = value x mod 2 ^ (64 * N.of_nat k) /\
      let fits := value x <? 2 ^ (64 * N.of_nat k) in
      r_to_u64_array R x k = Ret l /\
      r_to_u64_array_opt R x k = Ret (if fits then Some l else None) /\
      forall out, length out = k ->
        r_to_u64_slice R x out = Ret l /\
        r_to_u64_slice_opt R x out = Ret (if fits then (Some tt, l) else (None, out));
  lw_of_words : forall l, words_ok l ->
    gives_value value (r_from_u64_array R l) (words_value l mod 2 ^ r_width R) /\
    gives_value value (r_from_u64_slice R l) (words_value l mod 2 ^ r_width R) /\
    gives_option value (r_from_u64_array_opt R l) (if words_value l <? 2 ^ r_width R then Some (words_value l) else None) /\
    gives_option value (r_from_u64_slice_opt R l) (if words_value l <? 2 ^ r_width R then Some (words_value l) else None)
}.

(** [T] is an implementation of [EnumSetType], by the derive macro or by hand,
    for the enum of [inp] on a lawful storage. *)
Record Implements (pw : N) (inp : derive_input) (T : EnumTy) (value : r_t (et_repr T) -> N) : Prop := {
  im_pw : pw = 16 \/ pw = 32 \/ pw = 64;
  im_et_pw : et_pw T = pw;
  im_storage : Lawful pw (et_repr T) value;
  im_width : r_width (et_repr T) <= 2 ^ pw;
  im_discrs : et_discrs T = discrs inp;
  im_variants : map snd (et_variants T) = discrs inp;
  im_distinct : NoDup (discrs inp);
  im_fits : forall v, variant inp v -> discr inp v < r_width (et_repr T) /\ discr inp v < 2 ^ pw /\ discr inp v <= 0xFFFFFFBF;
  im_count : N.of_nat (length (in_variants inp)) < 2 ^ pw;
  im_all : r_ok (et_repr T) (et_all_bits T) /\
    (forall i, N.testbit (value (et_all_bits T)) i = true <-> exists v, variant inp v /\ discr inp v = i) /\
    (forall lit, et_all_lit T = Some lit -> lit = value (et_all_bits T));
  im_const_only : forall v, variant inp v -> gives value (et_const_only T (discr inp v)) (fun i => i =? discr inp v);
  im_const : forall x y, r_ok (et_repr T) x -> r_ok (et_repr T) y -> let bit z i := N.testbit (value z) i in
    gives value (et_const_union T x y) (fun i => bit x i || bit y i) /\
    gives value (et_const_intersection T x y) (fun i => bit x i && bit y i) /\
    gives value (et_const_symmetric_difference T x y) (fun i => xorb (bit x i) (bit y i)) /\
    gives value (et_const_complement T x) (fun i => bit (et_all_bits T) i && negb (bit x i))
}.
(** A value of the storage that is a set of variants: no bit is set but those of
    variants. *)
Definition proper {T} (inp : derive_input) (value : r_t (et_repr T) -> N) (s : eset T) : Prop :=
  r_ok (et_repr T) s /\ only_variant_bits inp (value s).
(** [m] returns the set of the variants in [A]. *)
Definition makes {T} (inp : derive_input) (value : r_t (et_repr T) -> N) (m : M (eset T)) (A : vset) : Prop :=
  exists s, m = Ret s /\ proper inp value s /\
    forall v, variant inp v -> N.testbit (value s) (discr inp v) = A v.

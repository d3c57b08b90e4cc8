(** * The interface between storages and sets

    [ReprLaws pw R wf val irel] says that the storage [R] behaves like an integer
    of [r_width R] bits: well-formed values [x] denote the integer [val x], every
    operation returns (no panic, no UB) and acts on the denoted integers as
    expected, and its iterator is a double-ended queue over the ascending list of
    set bits ([irel it l]: the iterator [it] has the bits [l] still to yield). *)
From Verif Require Import Base BaseFacts LimbFacts Repr.

Definition yields {A} (wf : A -> Prop) (val : A -> N) (m : M A) (v : N) : Prop :=
  exists z, m = Ret z /\ wf z /\ val z = v.
Definition yields_opt {A} (wf : A -> Prop) (val : A -> N) (m : M (option A)) (o : option N) : Prop :=
  match o with
  | Some v => exists z, m = Ret (Some z) /\ wf z /\ val z = v
  | None => m = Ret None
  end.

Record ReprLaws (pw : N) (R : ReprTrait) (wf : r_t R -> Prop) (val : r_t R -> N)
       (irel : r_iter_t R -> list N -> Prop) : Prop := MkReprLaws {
  rl_width_pos : 0 < r_width R;
  rl_width_u32 : r_width R < 2 ^ 32;
  rl_pref_len : r_width R <= 64 * N.of_nat (r_preferred_array_len R);
  rl_pref_pos : (0 < r_preferred_array_len R)%nat;
  rl_val_lt : forall x, wf x -> val x < 2 ^ r_width R;
  rl_inj : forall x y, wf x -> wf y -> val x = val y -> x = y;
  rl_eqb : forall x y, wf x -> wf y -> r_eqb R x y = (val x =? val y);
  rl_empty : wf (r_empty R) /\ val (r_empty R) = 0;
  rl_bitand : forall x y, wf x -> wf y -> yields wf val (r_bitand R x y) (N.land (val x) (val y));
  rl_bitor : forall x y, wf x -> wf y -> yields wf val (r_bitor R x y) (N.lor (val x) (val y));
  rl_bitxor : forall x y, wf x -> wf y -> yields wf val (r_bitxor R x y) (N.lxor (val x) (val y));
  rl_not : forall x, wf x -> yields wf val (r_not R x) (bnot (r_width R) (val x));
  rl_and_not : forall x y, wf x -> wf y -> yields wf val (r_and_not R x y) (N.ldiff (val x) (val y));
  rl_is_empty : forall x, wf x -> r_is_empty R x = (val x =? 0);
  rl_add_bit : forall x b, wf x -> b < r_width R -> b < 2 ^ pw ->
    yields wf val (r_add_bit R x b) (N.setbit (val x) b);
  rl_remove_bit : forall x b, wf x -> b < r_width R -> b < 2 ^ pw ->
    yields wf val (r_remove_bit R x b) (N.clearbit (val x) b);
  rl_has_bit : forall x b, wf x -> b < r_width R -> b < 2 ^ pw ->
    r_has_bit R x b = Ret (N.testbit (val x) b);
  rl_count_ones : forall x, wf x -> r_count_ones R x = Ret (u_count_ones (val x));
  rl_leading_zeros : forall x, wf x -> r_leading_zeros R x = Ret (u_leading_zeros (r_width R) (val x));
  rl_trailing_zeros : forall x, wf x -> r_trailing_zeros R x = Ret (u_trailing_zeros (r_width R) (val x));
  rl_iter : forall x, wf x -> exists it, r_iter R x = Ret it /\ irel it (bits_of (val x));
  rl_next : forall it l, irel it l ->
    exists it', r_iter_next R it = Ret (hd_error l, it') /\ irel it' (tl l);
  rl_next_back : forall it l b, irel it (l ++ [b]) ->
    exists it', r_iter_next_back R it = Ret (Some b, it') /\ irel it' l;
  rl_next_back_nil : forall it, irel it [] ->
    exists it', r_iter_next_back R it = Ret (None, it') /\ irel it' [];
  rl_size_hint : forall it l, irel it l -> N.of_nat (length l) < 2 ^ pw ->
    r_iter_size_hint R it = Ret (N.of_nat (length l), Some (N.of_nat (length l)));
  rl_from : forall t v, v < 2 ^ ity_bits pw t ->
    yields wf val (r_from R t v) (v mod 2 ^ r_width R);
  rl_to : forall t x, wf x -> r_to R t x = Ret (val x mod 2 ^ ity_bits pw t);
  rl_from_opt : forall t v, v < 2 ^ ity_bits pw t ->
    yields_opt wf val (r_from_opt R t v) (if v <? 2 ^ r_width R then Some v else None);
  rl_to_opt : forall t x, wf x ->
    r_to_opt R t x = Ret (if val x <? 2 ^ ity_bits pw t then Some (val x) else None);
  rl_to_array : forall x k, wf x -> r_to_u64_array R x k = Ret (limbs k (val x));
  rl_to_array_opt : forall x k, wf x ->
    r_to_u64_array_opt R x k = Ret (if val x <? 2 ^ (64 * N.of_nat k) then Some (limbs k (val x)) else None);
  rl_from_array : forall v, limbs_ok v -> yields wf val (r_from_u64_array R v) (lval v mod 2 ^ r_width R);
  rl_from_array_opt : forall v, limbs_ok v ->
    yields_opt wf val (r_from_u64_array_opt R v) (if lval v <? 2 ^ r_width R then Some (lval v) else None);
  rl_to_slice : forall x out, wf x -> r_to_u64_slice R x out = Ret (limbs (length out) (val x));
  rl_to_slice_opt : forall x out, wf x ->
    r_to_u64_slice_opt R x out =
      Ret (if val x <? 2 ^ (64 * N.of_nat (length out))
           then (Some tt, limbs (length out) (val x)) else (None, out));
  rl_from_slice : forall v, limbs_ok v -> yields wf val (r_from_u64_slice R v) (lval v mod 2 ^ r_width R);
  rl_from_slice_opt : forall v, limbs_ok v ->
    yields_opt wf val (r_from_u64_slice_opt R v) (if lval v <? 2 ^ r_width R then Some (lval v) else None);
  rl_hash_inj : forall x y, wf x -> wf y -> r_hash R x = r_hash R y -> x = y;
  rl_cmp_eq : forall x y, wf x -> wf y -> (r_cmp R x y = Eq <-> x = y);
  rl_cmp_antisym : forall x y, wf x -> wf y -> r_cmp R y x = CompOpp (r_cmp R x y);
  rl_cmp_trans : forall x y z c, wf x -> wf y -> wf z -> r_cmp R x y = c -> r_cmp R y z = c -> r_cmp R x z = c
}.

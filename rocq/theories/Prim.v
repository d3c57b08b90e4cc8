(** * Model of /repo/enumset/src/repr/primitive.rs

    The macro [prim!($name, $width, $preferred_array_len)] (lines 3-266) is
    instantiated for u8, u16, u32, u64 and u128; here its body is a family of
    functions in [w] (the [$width]) and [pl] (the [$preferred_array_len]).
    A value of type [$name] is an [N] below [2^w]. [pw] is the width of usize. *)
From Verif Require Import Base.

Section Prim.
Context {md : build}.

(** primitive.rs:6-8  [lo]: [v as u64] *)
Definition p_lo (v : N) : N := wrap 64 v.
(** primitive.rs:9-11  [hi]: [((v as u128) >> 64) as u64] *)
Definition p_hi (v : N) : N := wrap 64 (N.shiftr (wrap 128 v) 64).

(** primitive.rs:16  [EMPTY] *)
Definition p_empty : N := 0.

(** primitive.rs:19-21  [is_empty] *)
Definition p_is_empty (self : N) : bool := self =? 0.

(** primitive.rs:24-26  [*self |= 1 << bit as $name]; the shift amount is first
    cast (and thus truncated) to [$name]. *)
Definition p_add_bit (w self bit : N) : M N :=
  m <- shl w 1 (wrap w bit) ;; Ret (N.lor self m).

(** primitive.rs:28-30  [*self &= !(1 << bit as $name)] *)
Definition p_remove_bit (w self bit : N) : M N :=
  m <- shl w 1 (wrap w bit) ;; Ret (N.land self (bnot w m)).

(** primitive.rs:32-34  [(self & (1 << bit as $name)) != 0] *)
Definition p_has_bit (w self bit : N) : M bool :=
  m <- shl w 1 (wrap w bit) ;; Ret (negb (N.land self m =? 0)).

(** primitive.rs:37-47  [count_ones], [leading_zeros], [trailing_zeros] *)
Definition p_count_ones (self : N) : N := u_count_ones self.
Definition p_leading_zeros (w self : N) : N := u_leading_zeros w self.
Definition p_trailing_zeros (w self : N) : N := u_trailing_zeros w self.

(** primitive.rs:50-52  [( *self) & !other] *)
Definition p_and_not (w self other : N) : N := N.land self (bnot w other).

(** The operators [& | ^ !] required by the trait (repr/mod.rs:26-29) are the
    built-in ones of the integer type. *)
Definition p_bitand (a b : N) : N := N.land a b.
Definition p_bitor (a b : N) : N := N.lor a b.
Definition p_bitxor (a b : N) : N := N.lxor a b.
Definition p_bitnot (w a : N) : N := bnot w a.

(** primitive.rs:60-83  [from_u8] .. [from_usize]: all six are [v as $name]. *)
Definition p_from (w v : N) : N := wrap w v.

(** primitive.rs:85-108  [to_u8] .. [to_usize]: all six are [( *self) as uK]. *)
Definition p_to (pw : N) (t : ity) (self : N) : N := wrap (ity_bits pw t) self.

(** primitive.rs:110-133  [from_u8_opt] ..: all six are [v.try_into().ok()]. *)
Definition p_from_opt (w v : N) : option N := try_into w v.

(** primitive.rs:135-158  [to_u8_opt] ..: all six are [( *self).try_into().ok()]. *)
Definition p_to_opt (pw : N) (t : ity) (self : N) : option N := try_into (ity_bits pw t) self.

(** primitive.rs:161-170  [to_u64_array::<O>] *)
Definition p_to_u64_array (pl : nat) (self : N) (O : nat) : M (list N) :=
  let array := repeat 0 O in
  array <- (if Nat.ltb 0 O then set array 0 (p_lo self) else Ret array) ;;
  array <- (if Nat.ltb 1 O && Nat.eqb pl 2 then set array 1 (p_hi self) else Ret array) ;;
  Ret array.

(** primitive.rs:172-180  [to_u64_array_opt::<O>] *)
Definition p_to_u64_array_opt (pl : nat) (self : N) (O : nat) : M (option (list N)) :=
  if Nat.eqb O 0 && negb (self =? 0) then Ret None
  else if Nat.eqb O 1 && negb (p_hi self =? 0) then Ret None
  else a <- p_to_u64_array pl self O ;; Ret (Some a).

(** The expression [v[0] as u128 | ((v[1] as u128) << 64)]
    (primitive.rs:187, 204, 238, 255). *)
Definition p_join (v : list N) : M N :=
  v0 <- get v 0 ;; v1 <- get v 1 ;; h <- shl 128 v1 64 ;; Ret (N.lor v0 h).

(** primitive.rs:183-191  [from_u64_array::<O>] (O is the length of [v]) *)
Definition p_from_u64_array (w : N) (pl : nat) (v : list N) : M N :=
  if Nat.eqb (length v) 0 then Ret 0
  else if Nat.ltb 1 (length v) && Nat.eqb pl 2 then x <- p_join v ;; Ret (p_from w x)
  else v0 <- get v 0 ;; Ret (p_from w v0).

(** primitive.rs:193-206  [from_u64_array_opt::<O>] *)
Definition p_from_u64_array_opt (w : N) (v : list N) : M (option N) :=
  if Nat.eqb (length v) 0 then Ret (Some 0)
  else if Nat.eqb (length v) 1 then v0 <- get v 0 ;; Ret (p_from_opt w v0)
  else
    r <- for_ctrl (range 2 (length v)) tt
           (fun i s => x <- get v i ;;
                       Ret (if negb (x =? 0) then Return None else Next s)) ;;
    match r with
    | inr ret => Ret ret
    | inl _ => x <- p_join v ;; Ret (p_from_opt w x)
    end.

(** primitive.rs:209-219  [to_u64_slice]; returns the new content of [out] *)
Definition p_to_u64_slice (pl : nat) (self : N) (out : list N) : M (list N) :=
  out <- (if Nat.ltb 0 (length out) then set out 0 (p_lo self) else Ret out) ;;
  out <- (if Nat.ltb 1 (length out) && Nat.eqb pl 2 then set out 1 (p_hi self) else Ret out) ;;
  for_each (range pl (length out)) out (fun i out => set out i 0).

(** primitive.rs:222-231  [to_u64_slice_opt]; returns the result and the new
    content of [out] *)
Definition p_to_u64_slice_opt (pl : nat) (self : N) (out : list N) : M (option unit * list N) :=
  if Nat.eqb (length out) 0 && negb (self =? 0) then Ret (None, out)
  else if Nat.eqb (length out) 1 && negb (p_hi self =? 0) then Ret (None, out)
  else out <- p_to_u64_slice pl self out ;; Ret (Some tt, out).

(** primitive.rs:234-242  [from_u64_slice] *)
Definition p_from_u64_slice (w : N) (pl : nat) (v : list N) : M N :=
  if Nat.eqb (length v) 0 then Ret 0
  else if Nat.ltb 1 (length v) && Nat.eqb pl 2 then x <- p_join v ;; Ret (p_from w x)
  else v0 <- get v 0 ;; Ret (p_from w v0).

(** primitive.rs:244-257  [from_u64_slice_opt] *)
Definition p_from_u64_slice_opt (w : N) (v : list N) : M (option N) :=
  if Nat.eqb (length v) 0 then Ret (Some 0)
  else if Nat.eqb (length v) 1 then v0 <- get v 0 ;; Ret (p_from_opt w v0)
  else
    r <- for_ctrl (range 2 (length v)) tt
           (fun i s => x <- get v i ;;
                       Ret (if negb (x =? 0) then Return None else Next s)) ;;
    match r with
    | inr ret => Ret ret
    | inl _ => x <- p_join v ;; Ret (p_from_opt w x)
    end.

(** primitive.rs:268-289  [PrimitiveIter::next]; the iterator state is the
    remaining integer; returns the item and the new state *)
Definition p_iter_next (w self : N) : M (option N * N) :=
  if p_is_empty self then Ret (None, self)
  else
    let bit := p_trailing_zeros w self in
    self' <- p_remove_bit w self bit ;;
    Ret (Some bit, self').

(** primitive.rs:285-288  [PrimitiveIter::size_hint] *)
Definition p_iter_size_hint (pw self : N) : N * option N :=
  let left := wrap pw (p_count_ones self) in (left, Some left).

(** primitive.rs:291-301  [PrimitiveIter::next_back] *)
Definition p_iter_next_back (w self : N) : M (option N * N) :=
  if p_is_empty self then Ret (None, self)
  else
    t <- csub 32 w 1 ;;
    bit <- csub 32 t (p_leading_zeros w self) ;;
    self' <- p_remove_bit w self bit ;;
    Ret (Some bit, self').

End Prim.

(** * Model of /repo/enumset/src/repr/array.rs

    [ArrayRepr<N>] is a list of [n] limbs, each an [N] below [2^64]. [pw] is the
    width of usize; array lengths and loop counters are [nat] (an array length
    always fits in usize, so loop counters cannot overflow). *)
From Verif Require Import Base Prim.

Section Array.
Context {md : build}.

(** array.rs:11-13  [split_bit]: [(bit as usize / 64, bit % 64)]; note that the
    cast truncates on targets with a 16-bit usize *)
Definition a_split_bit (pw bit : N) : nat * N :=
  (N.to_nat (wrap pw bit / 64), bit mod 64).

(** array.rs:16-24  [BitAnd] *)
Definition a_bitand (n : nat) (self rhs : list N) : M (list N) :=
  for_each (range 0 n) self (fun i self =>
    x <- get self i ;; y <- get rhs i ;; set self i (N.land x y)).
(** array.rs:25-33  [BitOr] *)
Definition a_bitor (n : nat) (self rhs : list N) : M (list N) :=
  for_each (range 0 n) self (fun i self =>
    x <- get self i ;; y <- get rhs i ;; set self i (N.lor x y)).
(** array.rs:34-42  [BitXor] *)
Definition a_bitxor (n : nat) (self rhs : list N) : M (list N) :=
  for_each (range 0 n) self (fun i self =>
    x <- get self i ;; y <- get rhs i ;; set self i (N.lxor x y)).
(** array.rs:43-51  [Not] *)
Definition a_bitnot (n : nat) (self : list N) : M (list N) :=
  for_each (range 0 n) self (fun i self =>
    x <- get self i ;; set self i (bnot 64 x)).

(** array.rs:55  [WIDTH = N as u32 * 64], evaluated at compile time; that it
    does not overflow for derived enums is property C29. *)
Definition a_width (n : nat) : N := N.of_nat n * 64.
(** array.rs:56  [EMPTY] *)
Definition a_empty (n : nat) : list N := repeat 0 n.

(** array.rs:58-60  [is_empty] *)
Definition a_is_empty (self : list N) : bool := forallb (fun x => x =? 0) self.

(** array.rs:62-65  [add_bit] *)
Definition a_add_bit (pw : N) (self : list N) (bit : N) : M (list N) :=
  let '(idx, bit) := a_split_bit pw bit in
  x <- get self idx ;; x' <- p_add_bit 64 x bit ;; set self idx x'.
(** array.rs:66-69  [remove_bit] *)
Definition a_remove_bit (pw : N) (self : list N) (bit : N) : M (list N) :=
  let '(idx, bit) := a_split_bit pw bit in
  x <- get self idx ;; x' <- p_remove_bit 64 x bit ;; set self idx x'.
(** array.rs:70-73  [has_bit] *)
Definition a_has_bit (pw : N) (self : list N) (bit : N) : M bool :=
  let '(idx, bit) := a_split_bit pw bit in
  x <- get self idx ;; p_has_bit 64 x bit.

(** array.rs:75-77  [count_ones]: a checked u32 sum *)
Definition a_count_ones (self : list N) : M N :=
  for_each self 0 (fun x sum => cadd 32 sum (p_count_ones x)).

(** array.rs:78-87  [leading_zeros] *)
Definition a_leading_zeros (n : nat) (self : list N) : M N :=
  r <- for_ctrl (rev (range 0 n)) 0 (fun i accum =>
         x <- get self i ;;
         if negb (x =? 0) then r <- cadd 32 accum (p_leading_zeros 64 x) ;; Ret (Return r)
         else a <- cadd 32 accum 64 ;; Ret (Next a)) ;;
  match r with inr v => Ret v | inl _ => Ret (a_width n) end.

(** array.rs:88-97  [trailing_zeros] *)
Definition a_trailing_zeros (n : nat) (self : list N) : M N :=
  r <- for_ctrl (range 0 n) 0 (fun i accum =>
         x <- get self i ;;
         if negb (x =? 0) then r <- cadd 32 accum (p_trailing_zeros 64 x) ;; Ret (Return r)
         else a <- cadd 32 accum 64 ;; Ret (Next a)) ;;
  match r with inr v => Ret v | inl _ => Ret (a_width n) end.

(** array.rs:99-105  [and_not] *)
Definition a_and_not (n : nat) (self other : list N) : M (list N) :=
  for_each (range 0 n) (repeat 0 n) (fun i new =>
    x <- get self i ;; y <- get other i ;; set new i (N.land x (bnot 64 y))).

(** array.rs:121-125  [from_u64] *)
Definition a_from_u64 (n : nat) (v : N) : M (list N) := set (repeat 0 n) 0 v.
(** array.rs:126-133  [from_u128] *)
Definition a_from_u128 (n : nat) (v : N) : M (list N) :=
  new <- set (repeat 0 n) 0 (wrap 64 v) ;;
  if negb (Nat.eqb n 1) then set new 1 (wrap 64 (N.shiftr v 64)) else Ret new.
(** array.rs:112-136  [from_u8] .. [from_usize] *)
Definition a_from (n : nat) (t : ity) (v : N) : M (list N) :=
  match t with
  | U8 | U16 | U32 => a_from_u64 n (wrap 64 v)   (* 112-120: [Self::from_u64(v as u64)] *)
  | U64 => a_from_u64 n v
  | U128 => a_from_u128 n v
  | Usize => a_from_u64 n (wrap 64 v)            (* 134-136 *)
  end.
(** array.rs:138-159  [from_u8_opt] .. [from_usize_opt] *)
Definition a_from_opt (n : nat) (t : ity) (v : N) : M (option (list N)) :=
  match t with
  | U128 =>                                      (* 150-156 *)
      if Nat.eqb n 1 && negb (N.shiftr v 64 =? 0) then Ret None
      else r <- a_from n U128 v ;; Ret (Some r)
  | _ => r <- a_from n t v ;; Ret (Some r)
  end.

(** array.rs:170-172  [to_u64] *)
Definition a_to_u64 (self : list N) : M N := get self 0.
(** array.rs:173-176  [to_u128] *)
Definition a_to_u128 (n : nat) (self : list N) : M N :=
  hi <- (if Nat.eqb n 1 then Ret 0 else x <- get self 1 ;; shl 128 x 64) ;;
  x0 <- get self 0 ;;
  Ret (N.lor x0 hi).
(** array.rs:161-179  [to_u8] .. [to_usize] *)
Definition a_to (pw : N) (n : nat) (t : ity) (self : list N) : M N :=
  match t with
  | U8 | U16 | U32 | Usize => x <- a_to_u64 self ;; Ret (p_to pw t x)
  | U64 => a_to_u64 self
  | U128 => a_to_u128 n self
  end.

(** Common shape of the checks [for i in lo..hi { if l[i] != 0 { return None; } }]
    (array.rs:191-195, 199-203, 218-222, 244-248, 262-266). *)
Definition a_check_zero {B} (l : list N) (lo hi : nat) (k : M (option B)) : M (option B) :=
  r <- for_ctrl (range lo hi) tt (fun i s =>
         x <- get l i ;; Ret (if negb (x =? 0) then Return None else Next s)) ;;
  match r with inr ret => Ret ret | inl _ => k end.

(** array.rs:190-197  [to_u64_opt] *)
Definition a_to_u64_opt (n : nat) (self : list N) : M (option N) :=
  a_check_zero self 1 n (x <- a_to_u64 self ;; Ret (Some x)).
(** array.rs:198-205  [to_u128_opt] *)
Definition a_to_u128_opt (n : nat) (self : list N) : M (option N) :=
  a_check_zero self 2 n (x <- a_to_u128 n self ;; Ret (Some x)).
(** array.rs:181-208  [to_u8_opt] .. [to_usize_opt] *)
Definition a_to_opt (pw : N) (n : nat) (t : ity) (self : list N) : M (option N) :=
  match t with
  | U8 | U16 | U32 | Usize =>
      o <- a_to_u64_opt n self ;;
      Ret (match o with Some x => p_to_opt pw t x | None => None end)
  | U64 => a_to_u64_opt n self
  | U128 => a_to_u128_opt n self
  end.

(** array.rs:210-215  [to_u64_array::<O>] *)
Definition a_to_u64_array (n : nat) (self : list N) (O : nat) : M (list N) :=
  let array := repeat 0 O in
  let copy_len := if Nat.ltb n O then n else O in
  copy_prefix array copy_len self.
(** array.rs:216-225  [to_u64_array_opt::<O>] *)
Definition a_to_u64_array_opt (n : nat) (self : list N) (O : nat) : M (option (list N)) :=
  let k := (a <- a_to_u64_array n self O ;; Ret (Some a)) in
  if Nat.ltb O n then a_check_zero self O n k else k.

(** array.rs:227-229  [from_u64_array::<O>] *)
Definition a_from_u64_array (n : nat) (v : list N) : M (list N) :=
  a_to_u64_array (length v) v n.
(** array.rs:230-232  [from_u64_array_opt::<O>] *)
Definition a_from_u64_array_opt (n : nat) (v : list N) : M (option (list N)) :=
  a_to_u64_array_opt (length v) v n.

(** array.rs:234-240  [to_u64_slice] *)
Definition a_to_u64_slice (n : nat) (self out : list N) : M (list N) :=
  let copy_len := if Nat.ltb n (length out) then n else length out in
  out <- copy_prefix out copy_len self ;;
  for_each (range copy_len (length out)) out (fun i out => set out i 0).
(** array.rs:242-252  [to_u64_slice_opt] *)
Definition a_to_u64_slice_opt (n : nat) (self out : list N) : M (option unit * list N) :=
  let k := (out' <- a_to_u64_slice n self out ;; Ret (Some out')) in
  r <- (if Nat.ltb (length out) n then a_check_zero self (length out) n k else k) ;;
  Ret (match r with Some out' => (Some tt, out') | None => (None, out) end).

(** array.rs:254-259  [from_u64_slice] *)
Definition a_from_u64_slice (n : nat) (v : list N) : M (list N) :=
  let new := repeat 0 n in
  let copy_len := if Nat.ltb n (length v) then n else length v in
  copy_prefix new copy_len v.
(** array.rs:260-269  [from_u64_slice_opt] *)
Definition a_from_u64_slice_opt (n : nat) (v : list N) : M (option (list N)) :=
  let k := (r <- a_from_u64_slice n v ;; Ret (Some r)) in
  if Nat.ltb n (length v) then a_check_zero v n (length v) k else k.

(** array.rs:272-278  [ArrayIter] *)
Record a_iter : Type := MkAIter { ai_data : list N; ai_done : bool; ai_f : nat; ai_r : nat }.

(** array.rs:281-287  [ArrayIter::new]; [N - 1] overflows for an empty array,
    which is never derived (C29); we answer a panic whatever the build *)
Definition a_iter_new (n : nat) (array : list N) : M a_iter :=
  new <- for_each (range 0 n) (repeat 0 n) (fun i new => x <- get array i ;; set new i x) ;;
  if Nat.ltb 0 n then Ret (MkAIter new false 0 (n - 1)) else Panic POverflow.

(** The item [idx as u32 * 64 + x] (array.rs:299, 324). *)
Definition a_item (idx : nat) (x : N) : M N :=
  y <- cmul 32 (wrap 32 (N.of_nat idx)) 64 ;; cadd 32 y x.

(** array.rs:297-305  the [while] loop of [next] *)
Fixpoint a_next_loop (fuel : nat) (it : a_iter) : M (option N * a_iter) :=
  match fuel with
  | O => OutOfFuel
  | S fuel =>
      if Nat.leb (ai_f it) (ai_r it) then
        w <- get (ai_data it) (ai_f it) ;;
        '(o, w') <- p_iter_next 64 w ;;
        data <- set (ai_data it) (ai_f it) w' ;;
        match o with
        | Some x => r <- a_item (ai_f it) x ;;
                    Ret (Some r, MkAIter data (ai_done it) (ai_f it) (ai_r it))
        | None => a_next_loop fuel (MkAIter data (ai_done it) (S (ai_f it)) (ai_r it))
        end
      else Ret (None, MkAIter (ai_data it) true (ai_f it) (ai_r it))
  end.
(** array.rs:293-306  [next], with fuel for the loop and with enough fuel *)
Definition a_iter_next_fuel (fuel : nat) (it : a_iter) : M (option N * a_iter) :=
  if ai_done it then Ret (None, it) else a_next_loop fuel it.
Definition a_iter_next (it : a_iter) : M (option N * a_iter) := a_iter_next_fuel (S (S (ai_r it))) it.

(** array.rs:308-314  [size_hint]; [sum] is a checked usize *)
Definition a_iter_size_hint (pw : N) (it : a_iter) : M (N * option N) :=
  sum <- for_each (range (ai_f it) (S (ai_r it))) 0 (fun i sum =>
           w <- get (ai_data it) i ;; cadd pw sum (wrap pw (p_count_ones w))) ;;
  Ret (sum, Some sum).

(** array.rs:322-333  the [while] loop of [next_back] *)
Fixpoint a_next_back_loop (fuel : nat) (it : a_iter) : M (option N * a_iter) :=
  match fuel with
  | O => OutOfFuel
  | S fuel =>
      if Nat.leb (ai_f it) (ai_r it) then
        w <- get (ai_data it) (ai_r it) ;;
        '(o, w') <- p_iter_next_back 64 w ;;
        data <- set (ai_data it) (ai_r it) w' ;;
        match o with
        | Some x => r <- a_item (ai_r it) x ;;
                    Ret (Some r, MkAIter data (ai_done it) (ai_f it) (ai_r it))
        | None =>
            if Nat.eqb (ai_r it) 0 then Ret (None, MkAIter data true (ai_f it) (ai_r it))
            else a_next_back_loop fuel (MkAIter data (ai_done it) (ai_f it) (ai_r it - 1))
        end
      else Ret (None, MkAIter (ai_data it) true (ai_f it) (ai_r it))
  end.
(** array.rs:318-334  [next_back], with fuel for the loop and with enough fuel *)
Definition a_iter_next_back_fuel (fuel : nat) (it : a_iter) : M (option N * a_iter) :=
  if ai_done it then Ret (None, it) else a_next_back_loop fuel it.
Definition a_iter_next_back (it : a_iter) : M (option N * a_iter) := a_iter_next_back_fuel (S (S (ai_r it))) it.

(** array.rs:8  [derive(PartialEq, Eq)] on [[u64; N]] *)
Fixpoint a_eqb (a b : list N) : bool :=
  match a, b with
  | [], [] => true
  | x :: a', y :: b' => (x =? y) && a_eqb a' b'
  | _, _ => false
  end.
(** array.rs:8  [derive(Ord, PartialOrd)]: lexicographic order of the limbs *)
Fixpoint a_cmp (a b : list N) : comparison :=
  match a, b with
  | [], [] => Eq
  | [], _ :: _ => Lt
  | _ :: _, [] => Gt
  | x :: a', y :: b' => match x ?= y with Eq => a_cmp a' b' | c => c end
  end.

End Array.

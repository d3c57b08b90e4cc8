(** * Model of the Debug and Display implementations, /repo/enumset/src/set.rs:385-413

    The [Formatter] is an arbitrary sink: [write_str] and the element's own [fmt]
    take the state of the sink and return whether they succeeded ([true] = Ok(()))
    and the new state. *)
From Verif Require Import Base Repr Syntax Derive EnumSet.

(** [for v in iter { body }] with early exit; desugars to calls of [next]. *)
Fixpoint es_for {St B} (T : EnumTy) (fuel : nat) (it : es_iter_t T) (s : St)
         (body : nat -> St -> M (ctrl St B)) : M (St + B) :=
  match fuel with
  | O => OutOfFuel
  | S fuel =>
      '(o, it') <- es_next T it ;;
      match o with
      | None => Ret (inl s)
      | Some v =>
          c <- body v s ;;
          match c with
          | Next s' => es_for T fuel it' s' body
          | Break s' => Ret (inl s')
          | Return b => Ret (inr b)
          end
      end
  end.
(** One call of [next] more than there are variants suffices (proved). *)
Definition es_for_fuel (T : EnumTy) : nat := S (length (et_variants T)).

Section Fmt.
Context (T : EnumTy) {W : Type}.
Context (write_str : string -> W -> bool * W).
Context (fmt_elem : nat -> W -> bool * W).

(** set.rs:390-396 = 404-410: the loop over the elements; the loop state is
    [is_first] and the sink; an error leaves the function with [Err] *)
Definition fmt_loop (self : eset T) (w : W) : M ((bool * W) + W) :=
  it <- es_iter T self ;;
  es_for T (es_for_fuel T) it (true, w) (fun v st =>
    let '(is_first, w) := st in
    let '(ok, w) := if negb is_first then write_str " | " w else (true, w) in
    if negb ok then Ret (Return w)
    else
      let is_first := false in
      let '(ok, w) := fmt_elem v w in
      if negb ok then Ret (Return w) else Ret (Next (is_first, w))).

(** set.rs:386-399  [Debug::fmt]; result: success flag and final sink *)
Definition fmt_debug (self : eset T) (w : W) : M (bool * W) :=
  let '(ok, w) := write_str "EnumSet(" w in
  if negb ok then Ret (false, w)
  else
    r <- fmt_loop self w ;;
    match r with
    | inr w => Ret (false, w)
    | inl (_, w) =>
        let '(ok, w) := write_str ")" w in
        if negb ok then Ret (false, w) else Ret (true, w)
    end.

(** set.rs:402-412  [Display::fmt] *)
Definition fmt_display (self : eset T) (w : W) : M (bool * W) :=
  r <- fmt_loop self w ;;
  match r with
  | inr w => Ret (false, w)
  | inl (_, w) => Ret (true, w)
  end.
End Fmt.

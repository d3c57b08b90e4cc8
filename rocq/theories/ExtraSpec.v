(** * Vocabulary of the claims about enums that change *)
From Verif Require Import Base Syntax Spec.

(** Every variant [v] of [inp] is also a variant of [inp'], there called [f v],
    and has the same discriminant there. *)
Record embeds (inp inp' : derive_input) (f : nat -> nat) : Prop := {
  emb_variant : forall v, variant inp v -> variant inp' (f v);
  emb_discr : forall v, variant inp v -> discr inp' (f v) = discr inp v
}.
(** [u] is a variant of [inp'] that [inp] does not have. *)
Definition newcomer (inp inp' : derive_input) (f : nat -> nat) (u : nat) : Prop :=
  variant inp' u /\ forall v, variant inp v -> f v <> u.

(** The answers of a sequence up to its first [None], and after it. *)
Fixpoint before_end {A E} (l : list (result (option A) E)) : list (result A E) :=
  match l with
  | [] => []
  | Ok None :: _ => []
  | Ok (Some a) :: l => Ok a :: before_end l
  | Err e :: l => Err e :: before_end l
  end.
Fixpoint after_end {A E} (l : list (result (option A) E)) : list (result (option A) E) :=
  match l with
  | [] => []
  | Ok None :: l => l
  | _ :: l => after_end l
  end.
(** The items an iterator delivers before it panics ([None]). *)
Fixpoint delivered {A} (l : list (option A)) : list A :=
  match l with
  | [] => []
  | None :: _ => []
  | Some a :: l => a :: delivered l
  end.
Definition panics {A} (l : list (option A)) : bool := existsb (fun o => match o with None => true | _ => false end) l.

(** The declaration with the deprecated [serialize_as_list], [serialize_as_map]
    replaced as their warnings advise; both together mean [list]. *)
Definition modernised (inp : derive_input) : derive_input :=
  let a := in_attrs inp in
  let repr := if at_as_list a then Some "list"%string else if at_as_map a then Some "map"%string else at_serialize_repr a in
  MkInput (in_generic inp) (in_is_enum inp) (in_rust_reprs inp)
    (MkAttrs (at_repr a) repr (at_deny_unknown a) false false) (in_variants inp).

(** The compiler's check of the discriminants (Rust reference, "Enumerations"):
    they must fit the integer type named in [#[repr(..)]], by default [isize]. *)
Definition int_max (pw : N) (r : string) : option N :=
  (if r =? "u8" then Some (2 ^ 8 - 1) else if r =? "i8" then Some (2 ^ 7 - 1)
   else if r =? "u16" then Some (2 ^ 16 - 1) else if r =? "i16" then Some (2 ^ 15 - 1)
   else if r =? "u32" then Some (2 ^ 32 - 1) else if r =? "i32" then Some (2 ^ 31 - 1)
   else if r =? "u64" then Some (2 ^ 64 - 1) else if r =? "i64" then Some (2 ^ 63 - 1)
   else if r =? "u128" then Some (2 ^ 128 - 1) else if r =? "i128" then Some (2 ^ 127 - 1)
   else if r =? "usize" then Some (2 ^ pw - 1) else if r =? "isize" then Some (2 ^ (pw - 1) - 1)
   else None)%string.
Fixpoint rustc_discr_max (pw : N) (reprs : list (option string)) : N :=
  match reprs with
  | [] => 2 ^ (pw - 1) - 1
  | Some r :: rest => match int_max pw r with Some m => m | None => rustc_discr_max pw rest end
  | None :: rest => rustc_discr_max pw rest
  end.
Definition rustc_accepts (pw : N) (inp : derive_input) : Prop :=
  forall d, In d (discrs inp) -> d <= rustc_discr_max pw (in_rust_reprs inp).

(** The words of two sequences combined position by position. *)
Definition zip_words (f : N -> N -> N) (l l' : list N) : list N := map (fun p => f (fst p) (snd p)) (combine l l').

(** What is left of a list after its first element satisfying [p], and the
    position of that element. *)
Fixpoint after_first {A} (p : A -> bool) (l : list A) : list A :=
  match l with [] => [] | x :: l => if p x then l else after_first p l end.
Fixpoint first_index {A} (p : A -> bool) (l : list A) : option N :=
  match l with
  | [] => None
  | x :: l => if p x then Some 0 else match first_index p l with Some k => Some (k + 1) | None => None end
  end.

(** How the old program sees an item that stands for the variant [u] of the new
    program: as its own variant, or as an error if it has none. *)
Definition seen_as (inp inp' : derive_input) (f : nat -> nat) {X E} (item : nat -> X) (u : nat) (r : result X E) : Prop :=
  (forall v, variant inp v -> f v = u -> r = Ok (item v)) /\
  (newcomer inp inp' f u -> exists e, r = Err e).

(** The variants of [inp'] with the same discriminants as the members of [A]. *)
Definition counterparts (inp inp' : derive_input) (A : vset) : vset :=
  fun v => existsb (fun u => A u && (discr inp u =? discr inp' v)) (variants inp).

(** * Programs over several enums: the commands and the abstract machine

    A program works on sets and iterators of several enums, numbered like the
    variables of each. Panics are caught and the program goes on. *)
From Verif Require Import Base Syntax Spec HistorySpec.

Inductive mcmd : Type :=
| MCall (e : nat) (c : cmd)                 (* a call on the enum [e] *)
(* the set [d] of the enum [e'] is extended by the items of the iterator [i] of
   the enum [e], through a closure that may panic ([None]) *)
| MExtendMap (e i e' d : nat) (f : nat -> option nat).
Inductive mout : Type :=
| MOut (o : output)
| MPanicked (p : panic)                     (* the call panicked *)
| MClosurePanicked.

(** The results of the closure until it panics, whether it does not, and the
    items that were not asked for. *)
Fixpoint map_until (f : nat -> option nat) (l : list nat) : list nat * bool * list nat :=
  match l with
  | [] => ([], true, [])
  | v :: l =>
      match f v with
      | None => ([], false, l)
      | Some u => let '(us, ok, r) := map_until f l in (u :: us, ok, r)
      end
  end.

Section Abstract.
Context (pw : N) (inp : nat -> derive_input).

Definition am_step (x : mcmd) (st : nat -> astate) : M (mout * (nat -> astate)) :=
  match x with
  | MCall e c =>
      match a_step pw (inp e) c (st e) with
      | Ret (o, s) => Ret (MOut o, update st e s)
      | Panic p => Ret (MPanicked p, st)
      | UB => UB
      | OutOfFuel => OutOfFuel
      end
  | MExtendMap e i e' d f =>
      match a_iters (st e) i with
      | None => Ret (MOut ONoIterator, st)
      | Some l =>
          let '(us, ok, r) := map_until f l in
          let A := a_sets (st e') d in
          let st := update st e (a_set_iter (st e) i r) in
          Ret (if ok then MOut OUnit else MClosurePanicked,
               update st e' (a_set (st e') d (fun v => A v || existsb (Nat.eqb v) us)))
      end
  end.

Definition mprogram : Type := list mout -> option mcmd.
Fixpoint am_play (n : nat) (prog : mprogram) (seen : list mout) (st : nat -> astate) : list mout * M unit :=
  match n with
  | O => (seen, Ret tt)
  | S n =>
      match prog seen with
      | None => (seen, Ret tt)
      | Some x =>
          match am_step x st with
          | Ret (o, st) => am_play n prog (seen ++ [o]) st
          | Panic p => (seen, Panic p)
          | UB => (seen, UB)
          | OutOfFuel => (seen, OutOfFuel)
          end
      end
  end.

(** Arguments of the right types: closures answer variants of the target. *)
Definition mcmd_ok (x : mcmd) : Prop :=
  match x with
  | MCall e c => cmd_ok pw (inp e) c
  | MExtendMap e _ e' _ f => forall v u, variant (inp e) v -> f v = Some u -> variant (inp e') u
  end.
Fixpoint am_calls (n : nat) (prog : mprogram) (seen : list mout) (st : nat -> astate) : Prop :=
  match n with
  | O => True
  | S n =>
      match prog seen with
      | None => True
      | Some x => mcmd_ok x /\ match am_step x st with Ret (o, st) => am_calls n prog (seen ++ [o]) st | _ => True end
      end
  end.
(** The first [n] calls of the program have arguments of the right types. *)
Definition mcalls (n : nat) (prog : mprogram) : Prop := am_calls n prog [] (fun _ => a_init).
End Abstract.

(** * How often loops go round *)
From Verif Require Import Base ArrayRepr Syntax Spec StorageSpec.

(** [run fuel] is a computation in which a loop may evaluate its condition at
    most [fuel] times: it does so exactly [k] times. *)
Definition takes {A} (run : nat -> M A) (k : nat) : Prop :=
  run k <> OutOfFuel /\ forall j, (j < k)%nat -> run j = OutOfFuel.

Section Trace.
Context {md : build}.

Definition call_fuel (p : pop) (fuel : nat) (it : a_iter) : M (option N * a_iter) :=
  match p with Front => a_iter_next_fuel fuel it | Back => a_iter_next_back_fuel fuel it end.
Definition call (p : pop) (it : a_iter) : M (option N * a_iter) :=
  match p with Front => a_iter_next it | Back => a_iter_next_back it end.

(** The calls [ps] on the iterator [it] of an array of words: what each of them
    answers, and how often its loop condition is evaluated. *)
Inductive trace : list pop -> a_iter -> list (option N * nat) -> Prop :=
| trace_nil it : trace [] it []
| trace_call p ps it o it' k rest :
    call p it = Ret (o, it') -> takes (fun fuel => call_fuel p fuel it) k -> trace ps it' rest ->
    trace (p :: ps) it ((o, k) :: rest).
End Trace.

(** All evaluations together. *)
Definition total (l : list (option N * nat)) : nat := fold_right (fun x sum => snd x + sum)%nat 0%nat l.

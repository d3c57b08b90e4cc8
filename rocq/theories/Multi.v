(** * Programs over several enums: execution by the modelled code *)
From Coq Require Import Arith.
From Verif Require Import Base Derive EnumSet IterMethods HistorySpec MultiSpec History.

Section Multi.
Context (T : nat -> EnumTy).

Definition mstate : Type := forall e, state (T e).
Definition m_init : mstate := fun e => c_init (T e).
Definition m_put (st : mstate) (e : nat) (s : state (T e)) : mstate :=
  fun e' => match Nat.eq_dec e e' with
            | left E => match E in _ = k return state (T k) with eq_refl => s end
            | right _ => st e'
            end.

(** A call that panics leaves all variables as they were: those that may panic
    take [&self] or no set at all. *)
Definition m_step (x : mcmd) (st : mstate) : M (mout * mstate) :=
  match x with
  | MCall e c =>
      match step (T e) c (st e) with
      | Ret (o, s) => Ret (MOut o, m_put st e s)
      | Panic p => Ret (MPanicked p, st)
      | UB => UB
      | OutOfFuel => OutOfFuel
      end
  | MExtendMap e i e' d f =>
      match c_iters (T e) (st e) i with
      | None => Ret (MOut ONoIterator, st)
      | Some it =>
          '(ok, s, it) <- es_extend_map (T e) (T e') f (c_sets (T e') (st e') d) it ;;
          let st := m_put st e (c_set_iter (T e) (st e) i it) in
          Ret (if ok : bool then MOut OUnit else MClosurePanicked, m_put st e' (c_set (T e') (st e') d s))
      end
  end.

Fixpoint m_play (n : nat) (prog : mprogram) (seen : list mout) (st : mstate) : list mout * M unit :=
  match n with
  | O => (seen, Ret tt)
  | S n =>
      match prog seen with
      | None => (seen, Ret tt)
      | Some x =>
          match m_step x st with
          | Ret (o, st) => m_play n prog (seen ++ [o]) st
          | Panic p => (seen, Panic p)
          | UB => (seen, UB)
          | OutOfFuel => (seen, OutOfFuel)
          end
      end
  end.
End Multi.

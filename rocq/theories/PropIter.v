(** * Properties: iterators, C08-C10 *)
From Coq Require Import Arith.
From Verif Require Import Base Repr Syntax Spec Derive EnumSet Macros Fmt Serde ApiSpec Examples.
From Verif Require IterClaims.

(** C08: forward and backward iteration *)
Theorem C08_iteration pw inp T s A : Supported pw inp T -> Reachable pw inp T s -> Denotes inp T s A ->
  exists l, es_collect T s = Ret l /\ es_collect_rev T s = Ret (rev l) /\ lists_set inp A l.
Proof. exact (IterClaims.iteration pw inp T s A). Qed.
Print Assumptions C08_iteration.
Example C08_iteration_example :
  Supported 64 wide WideT /\
  Reachable 64 wide WideT wide_ac /\
  Denotes wide WideT wide_ac (among [0; 2]%nat) /\
  discrs wide = [200; 3; 70; 71] /\
  es_collect WideT wide_ac = Ret [2; 0]%nat /\
  es_collect_rev WideT wide_ac = Ret [0; 2]%nat.
Proof. example. Qed.

(** C08: whatever is done with an iterator, the bit that the unsafe conversion is applied to next is a variant *)
Theorem C08_conversion_safe pw inp T s : Supported pw inp T -> Reachable pw inp T s ->
  exists it, es_iter T s = Ret it /\
    forall ps os it', es_pops T ps it = Ret (os, it') ->
      (forall b it2, r_iter_next (et_repr T) it' = Ret (Some b, it2) -> exists v, variant inp v /\ discr inp v = b) /\
      (forall b it2, r_iter_next_back (et_repr T) it' = Ret (Some b, it2) -> exists v, variant inp v /\ discr inp v = b).
Proof. exact (IterClaims.conversion_safe pw inp T s). Qed.
Print Assumptions C08_conversion_safe.
Example C08_conversion_safe_example :
  Supported 64 wide WideT /\
  Reachable 64 wide WideT wide_ac.
Proof. example. Qed.

(** C09: every interleaving of [next] and [next_back] *)
Theorem C09_deque pw inp T s A : Supported pw inp T -> Reachable pw inp T s -> Denotes inp T s A ->
  exists it l, es_iter T s = Ret it /\ es_into_iter T s = Ret it /\ lists_set inp A l /\
    forall ps, exists it', es_pops T ps it = Ret (fst (pops ps l), it').
Proof. exact (IterClaims.deque pw inp T s A). Qed.
Print Assumptions C09_deque.
Example C09_deque_example :
  Supported 64 wide WideT /\
  Reachable 64 wide WideT wide_ac /\
  Denotes wide WideT wide_ac (among [0; 2]%nat) /\
  (it <- es_iter WideT wide_ac ;; '(os, _) <- es_pops WideT [Back; Front; Front; Back] it ;; Ret os) = Ret [Some 0%nat; Some 2%nat; None; None].
Proof. example. Qed.

(** C09: once exhausted, both ends keep returning [None] *)
Theorem C09_fused pw inp T s A : Supported pw inp T -> Reachable pw inp T s -> Denotes inp T s A ->
  exists it, es_iter T s = Ret it /\
    forall ps, set_size inp A <= N.of_nat (length ps) ->
      exists os it1, es_pops T ps it = Ret (os, it1) /\
        forall qs, exists it2, es_pops T qs it1 = Ret (repeat None (length qs), it2).
Proof. exact (IterClaims.fused pw inp T s A). Qed.
Print Assumptions C09_fused.
Example C09_fused_example :
  Supported 64 wide WideT /\
  Reachable 64 wide WideT wide_ac /\
  Denotes wide WideT wide_ac (among [0; 2]%nat) /\
  set_size wide (among [0; 2]%nat) <= N.of_nat (length [Front; Back]).
Proof. example. Qed.

(** C10: the size hint after every interleaving *)
Theorem C10_size_hint_exact pw inp T s A : Supported pw inp T -> Reachable pw inp T s -> Denotes inp T s A ->
  exists it l, es_iter T s = Ret it /\ lists_set inp A l /\
    forall ps, exists os it', es_pops T ps it = Ret (os, it') /\
      let k := N.of_nat (length (snd (pops ps l))) in
      es_size_hint T it' = Ret (k, Some k) /\ es_iter_len T it' = Ret k.
Proof. exact (IterClaims.size_hint_exact pw inp T s A). Qed.
Print Assumptions C10_size_hint_exact.
Example C10_size_hint_exact_example :
  Supported 64 wide WideT /\
  Reachable 64 wide WideT wide_ac /\
  Denotes wide WideT wide_ac (among [0; 2]%nat) /\
  (it <- es_iter WideT wide_ac ;; '(_, it) <- es_pops WideT [Back] it ;; es_size_hint WideT it) = Ret (1, Some 1).
Proof. example. Qed.


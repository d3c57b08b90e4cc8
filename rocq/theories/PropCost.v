(** * Properties: how often the loops of iteration go round, C81 *)
From Coq Require Import Arith.
From Verif Require Import Base Repr Syntax Spec Derive EnumSet Macros Fmt Serde ApiSpec Examples ArrayRepr StorageSpec CostSpec.
From Verif Require CostClaims.

(** C81: the iterator of an array of words, any sequence of calls from both ends *)
Theorem C81_iteration_cost md n x ps : (0 < n)%nat -> 64 * N.of_nat n < 2 ^ 32 -> length x = n -> words_ok x ->
  exists it l tr, a_iter_new n x = Ret it /\
    StronglySorted N.lt l /\ (forall i, In i l <-> N.testbit (words_value x) i = true) /\
    @trace md ps it tr /\ map fst tr = fst (pops ps l) /\
    (total tr <= n + 1 + Nat.min (length ps) (length l))%nat /\
    (forall c, In c (map snd tr) -> (c <= n + 1)%nat) /\
    (forall i j c, (i < j)%nat -> nth_error (map fst tr) i = Some None -> nth_error (map snd tr) j = Some c -> c = 0%nat).
Proof. exact (CostClaims.iteration_cost md n x ps). Qed.
Print Assumptions C81_iteration_cost.
Example C81_iteration_cost_example :
  length [2; 0; 0x81] = 3%nat /\
  words_ok [2; 0; 0x81] /\
  (exists it tr, a_iter_new 3 [2; 0; 0x81] = Ret it /\ @trace Debug [Back; Front; Front; Back; Front] it tr /\ tr = [(Some 135, 1%nat); (Some 1, 1%nat); (Some 128, 3%nat); (None, 2%nat); (None, 0%nat)] /\ total tr = 7%nat).
Proof. split; [reflexivity|]. split; [repeat constructor|]. let r := eval vm_compute in (a_iter_new 3 [2; 0; 0x81]) in match r with Ret ?it => exists it end. exists [(Some 135, 1%nat); (Some 1, 1%nat); (Some 128, 3%nat); (None, 2%nat); (None, 0%nat)]. split; [vm_compute; reflexivity|]. split; [|split; reflexivity]. repeat (lazymatch goal with |- trace (?p :: _) ?it _ => let r := eval vm_compute in (@call Debug p it) in lazymatch r with Ret (_, ?next) => apply trace_call with next end end; [vm_compute; reflexivity|split; [vm_compute; discriminate|intros j Hj; repeat (destruct j as [|j]; [vm_compute; reflexivity|]); exfalso; repeat apply le_S_n in Hj; inversion Hj]|]). apply trace_nil. Qed.

(** C81: a loop over a set asks once more than there are elements *)
Theorem C81_loop_cost pw inp T s A : Supported pw inp T -> Reachable pw inp T s -> Denotes inp T s A ->
  exists it l, es_iter T s = Ret it /\ lists_set inp A l /\
    takes (fun asked => es_drain T asked it) (S (length l)) /\
    takes (fun asked => es_drain_back T asked it) (S (length l)).
Proof. exact (CostClaims.loop_cost pw inp T s A). Qed.
Print Assumptions C81_loop_cost.
Example C81_loop_cost_example :
  Supported 64 wide WideT /\
  Reachable 64 wide WideT wide_ac /\
  Denotes wide WideT wide_ac (among [0; 2]%nat) /\
  (it <- es_iter WideT wide_ac ;; es_drain WideT 3 it) = Ret [2; 0]%nat /\
  (it <- es_iter WideT wide_ac ;; es_drain WideT 2 it) = OutOfFuel.
Proof. example. Qed.


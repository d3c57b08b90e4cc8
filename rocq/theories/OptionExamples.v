(** * Concrete programs, used beside the theorems about the serialization options *)
From Verif Require Import Base Repr Syntax Spec Derive EnumSet Serde ApiSpec Examples HistorySpec History HistoryExamples OptionSpec.

(** A program that makes the given calls whatever it sees. *)
Definition straight (cs : list cmd) : program := fun seen => nth_error cs (length seen).
(** [wide] and [listed] differ in the serialization format only. *)
Definition digest : program :=
  straight [CLet 0 (KOnly 2); CInsert 0 0; CHash 0; CToVec 0; CLet 1 KAll; CCmp 0 1; CRemove 1 0; CCollect 1].
Lemma digest_ok : calls 64 wide (fun c => cmd_ok 64 wide c /\ ~ uses_serde c) 20 digest.
Proof. vm_compute. repeat split; auto 10 with arith. Qed.
Definition digest_output : list output :=
  [OUnit; OBool true; OHash [HLen 4; HWords [0; 64; 0; 256]]; OWords [0; 64; 0; 256]; OUnit; OCmp Lt; OBool true;
   OVariants [1; 2; 3]%nat].
(** [small] and [denying] differ in [serialize_deny_unknown] only. *)
Definition save : program := straight [CLet 0 (KOnly 2); CInsert 0 0; CAsRepr 0; CSerialize 0].
Lemma save_ok : calls 64 denying (fun c => cmd_ok 64 denying c /\ ~ deserializes c) 20 save.
Proof.
  vm_compute. repeat split; auto 10 with arith; try (exists 8; now split).
  right. right. split; [discriminate|]. now exists 8.
Qed.

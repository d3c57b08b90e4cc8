(** * Properties: histories of API calls, C37-C39, C45, C59-C61, C69 *)
From Coq Require Import Arith.
From Verif Require Import Base Repr Syntax Spec Derive EnumSet Macros Fmt Serde ApiSpec Examples HistorySpec MultiSpec History Multi HistoryExamples.
From Verif Require HistoryClaims MultiClaims.

(** C37: a history returns from every call, or stops at a documented panic *)
Theorem C37_history_safe pw inp T cs : Supported pw inp T -> Forall (cmd_ok pw inp) cs ->
  let '(outs, fin) := run T cs (c_init T) in
  (fin = Ret tt /\ length outs = length cs) \/
  (exists c p, nth_error cs (length outs) = Some c /\ may_panic inp c /\ fin = Panic p /\ In p documented_panics).
Proof. exact (HistoryClaims.history_safe pw inp T cs). Qed.
Print Assumptions C37_history_safe.
Example C37_history_safe_example :
  Supported 64 small SmallT /\
  Forall (cmd_ok 64 small) small_history /\
  run SmallT small_history (c_init SmallT) =
    ([OUnit; OBool true; OBool false; OUnit; OBool true; OOptVariant (Some 0%nat); OOptVariant (Some 2%nat);
      OOptVariant None; OHint 0 (Some 0); ONoIterator; OUnit; ONum 2; OBool true; OUnit; OVariants [0%nat]; OUnit;
      OText "EnumSet(B)"; OBool true; OVariants [1; 2]%nat; OBool true; OBool false; ONum 97; OOptWords (Some [97; 0]);
      OEvents [EvInt U8 97]; OUnit; OVariants [2%nat];
      OUnit; OUnit; OOptVariant (Some 2%nat); OBool false; ONum 0; OUnit; OBool false; OUnit; OUnit; OVariants [2%nat];
      OOptVariant None; OUnit; OOptVariant (Some 1%nat); OOptVariant None; OUnit; OOptVariant (Some 2%nat); ONoIterator;
      OUnit; OOptNum (Some 1); OVariants [2%nat]; OUnit; OOptVariant (Some 0%nat); ONum 2; OUnit; ONum 7210; OUnit; ONum 7012;
      OUnit; OUnit; OVariants [1%nat]; OVariants [0; 2]%nat; OBool true;
      OHash [HInt 8 64]; OBool true; OUnit; OUnit; OBool true;
      ONum 64; OBool false; OUnit; OUnit; OVariants [0; 1]%nat; OUnit; OVariants [0; 2]%nat; OUnit; OVariants [1%nat]],
     Panic (PExpect "Bitset contains invalid variants.")).
Proof. example. Qed.

(** C37: a history without the panicking conversions returns from every call *)
Theorem C37_history_total pw inp T cs : Supported pw inp T -> Forall (cmd_ok pw inp) cs -> (forall c, In c cs -> ~ may_panic inp c) ->
  exists outs, run T cs (c_init T) = (outs, Ret tt) /\ length outs = length cs.
Proof. exact (HistoryClaims.history_total pw inp T cs). Qed.
Print Assumptions C37_history_total.
Example C37_history_total_example :
  Supported 64 small SmallT /\
  Forall (cmd_ok 64 small) calm /\
  (forall c, In c calm -> ~ may_panic small c).
Proof. example. Qed.

(** C38: a history behaves like the abstract machine *)
Theorem C38_history_refines pw inp T cs : Supported pw inp T -> Forall (cmd_ok pw inp) cs ->
  run T cs (c_init T) = a_run pw inp cs a_init.
Proof. exact (HistoryClaims.history_refines pw inp T cs). Qed.
Print Assumptions C38_history_refines.
Example C38_history_refines_example :
  Supported 64 small SmallT /\
  Forall (cmd_ok 64 small) small_history /\
  run SmallT small_history (c_init SmallT) =
    ([OUnit; OBool true; OBool false; OUnit; OBool true; OOptVariant (Some 0%nat); OOptVariant (Some 2%nat);
      OOptVariant None; OHint 0 (Some 0); ONoIterator; OUnit; ONum 2; OBool true; OUnit; OVariants [0%nat]; OUnit;
      OText "EnumSet(B)"; OBool true; OVariants [1; 2]%nat; OBool true; OBool false; ONum 97; OOptWords (Some [97; 0]);
      OEvents [EvInt U8 97]; OUnit; OVariants [2%nat];
      OUnit; OUnit; OOptVariant (Some 2%nat); OBool false; ONum 0; OUnit; OBool false; OUnit; OUnit; OVariants [2%nat];
      OOptVariant None; OUnit; OOptVariant (Some 1%nat); OOptVariant None; OUnit; OOptVariant (Some 2%nat); ONoIterator;
      OUnit; OOptNum (Some 1); OVariants [2%nat]; OUnit; OOptVariant (Some 0%nat); ONum 2; OUnit; ONum 7210; OUnit; ONum 7012;
      OUnit; OUnit; OVariants [1%nat]; OVariants [0; 2]%nat; OBool true;
      OHash [HInt 8 64]; OBool true; OUnit; OUnit; OBool true;
      ONum 64; OBool false; OUnit; OUnit; OVariants [0; 1]%nat; OUnit; OVariants [0; 2]%nat; OUnit; OVariants [1%nat]],
     Panic (PExpect "Bitset contains invalid variants.")).
Proof. example. Qed.

(** C39: the storage does not matter *)
Theorem C39_storage_irrelevant pw inp T inp' T' cs : Supported pw inp T -> Supported pw inp' T' ->
  discrs inp = discrs inp' -> Forall (cmd_ok pw inp) cs -> Forall portable cs ->
  (Exists uses_serde cs -> same_format inp inp' /\ serde_usable inp') ->
  run T cs (c_init T) = run T' cs (c_init T').
Proof. exact (HistoryClaims.storage_irrelevant pw inp T inp' T' cs). Qed.
Print Assumptions C39_storage_irrelevant.
Example C39_storage_irrelevant_example :
  Supported 64 small SmallT /\
  Supported 64 arrayed ArrayedT /\
  discrs small = discrs arrayed /\
  Forall (cmd_ok 64 small) calm /\
  Forall portable calm /\
  same_format small arrayed /\ serde_usable arrayed /\
  storage_of small = SInt 8 /\
  storage_of arrayed = SWords 1.
Proof. example. Qed.

(** C59: names and the way discriminants are written do not matter *)
Theorem C59_only_discriminants_matter pw inp T inp' T' cs : Supported pw inp T -> Supported pw inp' T' ->
  discrs inp = discrs inp' -> storage_of inp = storage_of inp' ->
  serialize_name inp = serialize_name inp' -> at_deny_unknown (in_attrs inp) = at_deny_unknown (in_attrs inp') ->
  Forall (cmd_ok pw inp) cs -> run T cs (c_init T) = run T' cs (c_init T').
Proof. exact (HistoryClaims.only_discriminants_matter pw inp T inp' T' cs). Qed.
Print Assumptions C59_only_discriminants_matter.
Example C59_only_discriminants_matter_example :
  Supported 64 small SmallT /\
  Supported 64 renamed RenamedT /\
  discrs small = [0; 5; 6] /\ discrs renamed = [0; 5; 6] /\
  storage_of small = SInt 8 /\ storage_of renamed = SInt 8 /\
  serialize_name small = serialize_name renamed /\
  at_deny_unknown (in_attrs small) = at_deny_unknown (in_attrs renamed) /\
  in_variants small <> in_variants renamed /\
  in_attrs small <> in_attrs renamed /\
  Forall (cmd_ok 64 small) small_history.
Proof. example. Qed.

(** C60: the pointer width of the target does not matter *)
Theorem C60_target_irrelevant pw pw' inp T T' cs : Supported pw inp T -> Supported pw' inp T' ->
  Forall (cmd_ok pw inp) cs -> Forall (cmd_ok pw' inp) cs -> Forall (fun c => ~ to_usize c) cs ->
  run T cs (c_init T) = run T' cs (c_init T').
Proof. exact (HistoryClaims.target_irrelevant pw pw' inp T T' cs). Qed.
Print Assumptions C60_target_irrelevant.
Example C60_target_irrelevant_example :
  Supported 64 small SmallT /\
  Supported 32 small (derived (derive Debug 32 small)) /\
  Forall (cmd_ok 64 small) calm /\
  Forall (cmd_ok 32 small) calm /\
  Forall (fun c => ~ to_usize c) calm /\
  run SmallT [CLet 0 (KOnly 2); CAs Usize 0] (c_init SmallT) = ([OUnit; ONum 64], Ret tt).
Proof. example; apply small_supported32. Qed.

(** C61: a program whose calls depend on earlier results behaves like the abstract machine *)
Theorem C61_program_refines pw inp T n prog : Supported pw inp T -> calls pw inp (cmd_ok pw inp) n prog ->
  play T n prog [] (c_init T) = a_play pw inp n prog [] a_init.
Proof. exact (HistoryClaims.program_refines pw inp T n prog). Qed.
Print Assumptions C61_program_refines.
Example C61_program_refines_example :
  Supported 64 small SmallT /\
  calls 64 small (cmd_ok 64 small) 20 prune /\
  play SmallT 20 prune [] (c_init SmallT) =
    ([OUnit; OUnit; OOptVariant (Some 0%nat); OBool true; OOptVariant (Some 1%nat); OBool true;
      OOptVariant (Some 2%nat); OBool true; OOptVariant None; ONum 0], Ret tt).
Proof. example; exact prune_ok1. Qed.

(** C61: it never ends in undefined behaviour or an undocumented panic *)
Theorem C61_program_safe pw inp T n prog : Supported pw inp T -> calls pw inp (cmd_ok pw inp) n prog ->
  let '(outs, fin) := play T n prog [] (c_init T) in
  (fin = Ret tt /\ (prog outs = None \/ length outs = n)) \/
  (exists c p, prog outs = Some c /\ may_panic inp c /\ fin = Panic p /\ In p documented_panics).
Proof. exact (HistoryClaims.program_safe pw inp T n prog). Qed.
Print Assumptions C61_program_safe.
Example C61_program_safe_example :
  Supported 64 small SmallT /\
  calls 64 small (cmd_ok 64 small) 20 prune /\
  prune (fst (play SmallT 20 prune [] (c_init SmallT))) = None.
Proof. example; exact prune_ok1. Qed.

(** C61: names do not matter to it *)
Theorem C61_program_same_storage pw inp T inp' T' n prog : Supported pw inp T -> Supported pw inp' T' ->
  discrs inp = discrs inp' -> storage_of inp = storage_of inp' ->
  serialize_name inp = serialize_name inp' -> at_deny_unknown (in_attrs inp) = at_deny_unknown (in_attrs inp') ->
  calls pw inp (cmd_ok pw inp) n prog -> play T n prog [] (c_init T) = play T' n prog [] (c_init T').
Proof. exact (HistoryClaims.program_same_storage pw inp T inp' T' n prog). Qed.
Print Assumptions C61_program_same_storage.
Example C61_program_same_storage_example :
  Supported 64 small SmallT /\
  Supported 64 renamed RenamedT /\
  discrs small = discrs renamed /\
  storage_of small = storage_of renamed /\
  serialize_name small = serialize_name renamed /\
  at_deny_unknown (in_attrs small) = at_deny_unknown (in_attrs renamed) /\
  calls 64 small (cmd_ok 64 small) 20 prune.
Proof. example; exact prune_ok1. Qed.

(** C61: the storage does not matter to it *)
Theorem C61_program_other_storage pw inp T inp' T' n prog : Supported pw inp T -> Supported pw inp' T' ->
  discrs inp = discrs inp' ->
  calls pw inp (fun c => cmd_ok pw inp c /\ portable c /\ ~ uses_serde c) n prog ->
  play T n prog [] (c_init T) = play T' n prog [] (c_init T').
Proof. exact (HistoryClaims.program_other_storage pw inp T inp' T' n prog). Qed.
Print Assumptions C61_program_other_storage.
Example C61_program_other_storage_example :
  Supported 64 small SmallT /\
  Supported 64 arrayed ArrayedT /\
  discrs small = discrs arrayed /\
  storage_of small <> storage_of arrayed /\
  calls 64 small (fun c => cmd_ok 64 small c /\ portable c /\ ~ uses_serde c) 20 prune.
Proof. example; exact prune_ok2. Qed.

(** C61: the pointer width does not matter to it *)
Theorem C61_program_other_target pw pw' inp T T' n prog : Supported pw inp T -> Supported pw' inp T' ->
  calls pw inp (fun c => cmd_ok pw inp c /\ cmd_ok pw' inp c /\ ~ to_usize c) n prog ->
  play T n prog [] (c_init T) = play T' n prog [] (c_init T').
Proof. exact (HistoryClaims.program_other_target pw pw' inp T T' n prog). Qed.
Print Assumptions C61_program_other_target.
Example C61_program_other_target_example :
  Supported 64 small SmallT /\
  Supported 32 small (derived (derive Debug 32 small)) /\
  calls 64 small (fun c => cmd_ok 64 small c /\ cmd_ok 32 small c /\ ~ to_usize c) 20 prune.
Proof. example; [apply small_supported32|exact prune_ok3]. Qed.

(** C69: programs over several enums that catch panics behave like the abstract machine *)
Theorem C69_multi_refines pw inp T n prog : (forall e, Supported pw (inp e) (T e)) -> mcalls pw inp n prog ->
  m_play T n prog [] (m_init T) = am_play pw inp n prog [] (fun _ => a_init).
Proof. exact (MultiClaims.multi_refines pw inp T n prog). Qed.
Print Assumptions C69_multi_refines.
Example C69_multi_refines_example :
  (forall e, Supported 64 (two e) (TwoT e)) /\
  mcalls 64 two 20 tour /\
  m_play TwoT 20 tour [] (m_init TwoT) =
    ([MOut OUnit; MOut OUnit; MOut (OBool true); MClosurePanicked; MOut (OOptVariant (Some 2%nat)); MOut (OBool true);
      MOut (OVariants [2; 3; 0]%nat); MPanicked (PExpect "Bitset contains invalid variants."); MOut (ONum 3)], Ret tt).
Proof. split; [exact two_supported|]. split; [exact tour_ok|]. vm_compute; reflexivity. Qed.

(** C69: every call is answered; a panic is a documented one or that of the closure *)
Theorem C69_multi_safe pw inp T n prog : (forall e, Supported pw (inp e) (T e)) -> mcalls pw inp n prog ->
  exists outs, m_play T n prog [] (m_init T) = (outs, Ret tt) /\
  (prog outs = None \/ length outs = n) /\
  forall k o, nth_error outs k = Some o ->
    exists x, prog (firstn k outs) = Some x /\
    match o with
    | MPanicked p => In p documented_panics /\ exists e c, x = MCall e c /\ may_panic (inp e) c
    | MClosurePanicked => exists e i e' d f v, x = MExtendMap e i e' d f /\ f v = None
    | MOut _ => True
    end.
Proof. exact (MultiClaims.multi_safe pw inp T n prog). Qed.
Print Assumptions C69_multi_safe.
Example C69_multi_safe_example :
  (forall e, Supported 64 (two e) (TwoT e)) /\
  mcalls 64 two 20 tour /\
  tour (fst (m_play TwoT 20 tour [] (m_init TwoT))) = None /\
  nth_error (fst (m_play TwoT 20 tour [] (m_init TwoT))) 3 = Some MClosurePanicked.
Proof. split; [exact two_supported|]. split; [exact tour_ok|]. split; vm_compute; reflexivity. Qed.

(** C45: the same declarations are accepted and every history ends with the same results *)
Theorem C45_release_equals_debug pw inp :
  (forall e, derive Debug pw inp = Ret (Err e) <-> derive Release pw inp = Ret (Err e)) /\
  (forall T, derive Debug pw inp = Ret (Ok T) -> exists T', derive Release pw inp = Ret (Ok T')) /\
  (forall T T' cs, derive Debug pw inp = Ret (Ok T) -> derive Release pw inp = Ret (Ok T') ->
     Supported pw inp T -> Forall (cmd_ok pw inp) cs -> run T cs (c_init T) = run T' cs (c_init T')).
Proof. exact (HistoryClaims.release_equals_debug pw inp). Qed.
Print Assumptions C45_release_equals_debug.
Example C45_release_equals_debug_example :
  derive Debug 64 small = Ret (Ok SmallT) /\
  derive Release 64 small = Ret (Ok SmallReleaseT) /\
  Supported 64 small SmallT /\
  Forall (cmd_ok 64 small) small_history /\
  @cadd Debug 8 255 1 = Panic POverflow /\
  @cadd Release 8 255 1 = Ret 0 /\
  run SmallReleaseT [CLet 0 (KOnly 0); CInsert 0 2; CCollect 0] (c_init SmallReleaseT) = ([OUnit; OBool true; OVariants [0; 2]%nat], Ret tt).
Proof. example. Qed.


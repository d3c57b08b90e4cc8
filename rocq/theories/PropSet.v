(** * Properties: sets, C01-C07, C11-C14 *)
From Coq Require Import Arith.
From Verif Require Import Base Repr Syntax Spec Derive EnumSet Macros Fmt Serde ApiSpec Examples.
From Verif Require AlgebraClaims SetClaims.

(** C01: the empty constructors and [clear] *)
Theorem C01_empty_members pw inp T : Supported pw inp T ->
  Denotes inp T (es_new T) (fun _ => false) /\
  Denotes inp T (es_empty T) (fun _ => false) /\
  Denotes inp T (es_default T) (fun _ => false) /\
  Denotes inp T (es_EMPTY T) (fun _ => false) /\
  (forall s, Reachable pw inp T s -> Denotes inp T (es_clear T s) (fun _ => false)).
Proof. exact (SetClaims.empty_members pw inp T). Qed.
Print Assumptions C01_empty_members.
Example C01_empty_members_example :
  Supported 64 wide WideT /\
  Reachable 64 wide WideT wide_ac /\
  es_contains WideT wide_ac 2 = Ret true /\
  es_EMPTY WideT = [0; 0; 0; 0] /\
  es_clear WideT wide_ac = [0; 0; 0; 0] /\
  es_contains WideT (es_clear WideT wide_ac) 2 = Ret false.
Proof. example. Qed.

(** C01: the full set *)
Theorem C01_all_members pw inp T : Supported pw inp T ->
  Denotes inp T (es_all T) (fun _ => true) /\
  Denotes inp T (es_ALL T) (fun _ => true).
Proof. exact (SetClaims.all_members pw inp T). Qed.
Print Assumptions C01_all_members.
Example C01_all_members_example :
  Supported 64 wide WideT /\
  es_all WideT = [8; 0xC0; 0; 0x100] /\
  es_contains WideT (es_all WideT) 3 = Ret true.
Proof. example. Qed.

(** C01: singletons *)
Theorem C01_only_members pw inp T t : Supported pw inp T -> variant inp t ->
  Returns inp T (es_only T t) (fun v => (v =? t)%nat) /\
  Returns inp T (es_from T t) (fun v => (v =? t)%nat).
Proof. exact (SetClaims.only_members pw inp T t). Qed.
Print Assumptions C01_only_members.
Example C01_only_members_example :
  Supported 64 wide WideT /\
  variant wide 2 /\
  es_only WideT 2 = Ret [0; 0x40; 0; 0] /\
  es_from WideT 2 = Ret [0; 0x40; 0; 0].
Proof. example. Qed.

(** C02: [insert]; [u] ranges over all variants, so nothing else changes *)
Theorem C02_insert_members pw inp T s A v : Supported pw inp T -> Reachable pw inp T s -> Denotes inp T s A ->
  variant inp v ->
  exists s', es_insert T s v = Ret (negb (A v), s') /\
    Denotes inp T s' (fun u => if (u =? v)%nat then true else A u).
Proof. exact (SetClaims.insert_members pw inp T s A v). Qed.
Print Assumptions C02_insert_members.
Example C02_insert_members_example :
  Supported 64 wide WideT /\
  Reachable 64 wide WideT wide_ac /\
  Denotes wide WideT wide_ac (among [0; 2]%nat) /\
  variant wide 3 /\
  es_insert WideT wide_ac 3 = Ret (true, [0; 0xC0; 0; 0x100]) /\
  es_insert WideT wide_ac 2 = Ret (false, wide_ac).
Proof. example. Qed.

(** C03: [remove] *)
Theorem C03_remove_members pw inp T s A v : Supported pw inp T -> Reachable pw inp T s -> Denotes inp T s A ->
  variant inp v ->
  exists s', es_remove T s v = Ret (A v, s') /\
    Denotes inp T s' (fun u => if (u =? v)%nat then false else A u).
Proof. exact (SetClaims.remove_members pw inp T s A v). Qed.
Print Assumptions C03_remove_members.
Example C03_remove_members_example :
  Supported 64 wide WideT /\
  Reachable 64 wide WideT wide_ac /\
  Denotes wide WideT wide_ac (among [0; 2]%nat) /\
  variant wide 2 /\
  es_remove WideT wide_ac 2 = Ret (true, [0; 0; 0; 0x100]) /\
  es_remove WideT wide_ac 1 = Ret (false, wide_ac).
Proof. example. Qed.

(** C04: the operations as methods *)
Theorem C04_op_members pw inp T a A b B : Supported pw inp T ->
  Reachable pw inp T a -> Denotes inp T a A -> Reachable pw inp T b -> Denotes inp T b B ->
  Returns inp T (es_union T a b) (fun v => A v || B v) /\
  Returns inp T (es_intersection T a b) (fun v => A v && B v) /\
  Returns inp T (es_difference T a b) (fun v => A v && negb (B v)) /\
  Returns inp T (es_symmetrical_difference T a b) (fun v => xorb (A v) (B v)) /\
  Returns inp T (es_complement T a) (fun v => negb (A v)).
Proof. exact (SetClaims.op_members pw inp T a A b B). Qed.
Print Assumptions C04_op_members.
Example C04_op_members_example :
  Supported 64 wide WideT /\
  Reachable 64 wide WideT wide_ac /\
  Denotes wide WideT wide_ac (among [0; 2]%nat) /\
  Reachable 64 wide WideT wide_bc /\
  Denotes wide WideT wide_bc (among [1; 2]%nat) /\
  es_union WideT wide_ac wide_bc = Ret [8; 0x40; 0; 0x100] /\
  es_intersection WideT wide_ac wide_bc = Ret [0; 0x40; 0; 0] /\
  es_difference WideT wide_ac wide_bc = Ret [0; 0; 0; 0x100] /\
  es_symmetrical_difference WideT wide_ac wide_bc = Ret [8; 0; 0; 0x100] /\
  es_complement WideT wide_ac = Ret [8; 0x80; 0; 0].
Proof. example. Qed.

(** C05: no bit outside the variants is ever set, seen bit by bit and in [to_vec] *)
Theorem C05_bits_are_variants pw inp T s : Supported pw inp T -> Reachable pw inp T s ->
  (forall i, i < r_width (et_repr T) -> r_has_bit (et_repr T) s i = Ret true -> exists v, variant inp v /\ discr inp v = i) /\
  (exists ws, es_to_vec T s = Ret ws /\ only_variant_words inp ws).
Proof. exact (SetClaims.bits_are_variants pw inp T s). Qed.
Print Assumptions C05_bits_are_variants.
Example C05_bits_are_variants_example :
  Supported 64 wide WideT /\
  Reachable 64 wide WideT wide_ac /\
  r_width (et_repr WideT) = 256 /\
  r_has_bit (et_repr WideT) wide_ac 70 = Ret true /\
  discr wide 2 = 70 /\
  es_to_vec WideT wide_ac = Ret [0; 0x40; 0; 0x100].
Proof. example. Qed.

(** C06: equality, and uniqueness of the representation *)
Theorem C06_eq_members pw inp T a A b B : Supported pw inp T ->
  Reachable pw inp T a -> Denotes inp T a A -> Reachable pw inp T b -> Denotes inp T b B ->
  (es_eq T a b = true <-> forall v, variant inp v -> A v = B v) /\
  (a = b <-> forall v, variant inp v -> A v = B v).
Proof. exact (SetClaims.eq_members pw inp T a A b B). Qed.
Print Assumptions C06_eq_members.
Example C06_eq_members_example :
  Supported 64 wide WideT /\
  Reachable 64 wide WideT wide_ac /\
  Denotes wide WideT wide_ac (among [0; 2]%nat) /\
  Reachable 64 wide WideT wide_bc /\
  Denotes wide WideT wide_bc (among [1; 2]%nat) /\
  es_eq WideT wide_ac wide_bc = false /\
  es_eq WideT wide_ac wide_ac = true.
Proof. example. Qed.

(** C06: equality with a bare variant *)
Theorem C06_eq_variant_members pw inp T s A t : Supported pw inp T -> Reachable pw inp T s -> Denotes inp T s A ->
  variant inp t ->
  exists b, es_eq_var T s t = Ret b /\ var_eq_set T t s = Ret b /\
    (b = true <-> forall v, variant inp v -> A v = (v =? t)%nat).
Proof. exact (SetClaims.eq_variant_members pw inp T s A t). Qed.
Print Assumptions C06_eq_variant_members.
Example C06_eq_variant_members_example :
  Supported 64 small SmallT /\
  Reachable 64 small SmallT small_b /\
  Denotes small SmallT small_b (among [1]%nat) /\
  variant small 1 /\
  es_eq_var SmallT small_b 1 = Ret true /\
  var_eq_set SmallT 1 small_b = Ret true /\
  es_eq_var SmallT small_ac 1 = Ret false.
Proof. example. Qed.

(** C07: [len] and [is_empty] *)
Theorem C07_len_members pw inp T s A : Supported pw inp T -> Reachable pw inp T s -> Denotes inp T s A ->
  es_len T s = Ret (set_size inp A) /\
  (es_is_empty T s = true <-> forall v, variant inp v -> A v = false) /\
  (es_is_empty T s = true <-> es_len T s = Ret 0).
Proof. exact (SetClaims.len_members pw inp T s A). Qed.
Print Assumptions C07_len_members.
Example C07_len_members_example :
  Supported 64 wide WideT /\
  Reachable 64 wide WideT wide_ac /\
  Denotes wide WideT wide_ac (among [0; 2]%nat) /\
  set_size wide (among [0; 2]%nat) = 2 /\
  es_len WideT wide_ac = Ret 2 /\
  es_is_empty WideT wide_ac = false.
Proof. example. Qed.

(** C07: the full set has [variant_count] elements *)
Theorem C07_all_len pw inp T : Supported pw inp T ->
  es_len T (es_all T) = Ret (es_variant_count T) /\ es_variant_count T = N.of_nat (length (in_variants inp)).
Proof. exact (SetClaims.all_len pw inp T). Qed.
Print Assumptions C07_all_len.
Example C07_all_len_example :
  Supported 64 wide WideT /\
  es_len WideT (es_all WideT) = Ret 4.
Proof. example. Qed.

(** C11: [is_subset], [is_superset], [is_disjoint] *)
Theorem C11_relation_members pw inp T a A b B : Supported pw inp T ->
  Reachable pw inp T a -> Denotes inp T a A -> Reachable pw inp T b -> Denotes inp T b B ->
  (exists r, es_is_subset T a b = Ret r /\ (r = true <-> forall v, variant inp v -> A v = true -> B v = true)) /\
  (exists r, es_is_superset T a b = Ret r /\ (r = true <-> forall v, variant inp v -> B v = true -> A v = true)) /\
  (exists r, es_is_disjoint T a b = Ret r /\ (r = true <-> ~ exists v, variant inp v /\ A v = true /\ B v = true)).
Proof. exact (SetClaims.relation_members pw inp T a A b B). Qed.
Print Assumptions C11_relation_members.
Example C11_relation_members_example :
  Supported 64 wide WideT /\
  Reachable 64 wide WideT wide_ac /\
  Denotes wide WideT wide_ac (among [0; 2]%nat) /\
  Reachable 64 wide WideT wide_bc /\
  Denotes wide WideT wide_bc (among [1; 2]%nat) /\
  es_is_subset WideT wide_ac wide_bc = Ret false /\
  es_is_superset WideT (es_all WideT) wide_bc = Ret true /\
  es_is_disjoint WideT wide_ac wide_bc = Ret false.
Proof. example. Qed.

(** C12: in-place operations and assignment operators *)
Theorem C12_assign_members pw inp T a A b B o O : Supported pw inp T ->
  Reachable pw inp T a -> Denotes inp T a A -> Reachable pw inp T b -> Denotes inp T b B ->
  OpDenotes inp T (Reachable pw inp T) o O ->
  Returns inp T (es_insert_all T a b) (fun v => A v || B v) /\
  Returns inp T (es_remove_all T a b) (fun v => A v && negb (B v)) /\
  Returns inp T (es_bitor_assign T a o) (fun v => A v || O v) /\
  Returns inp T (es_sub_assign T a o) (fun v => A v && negb (O v)) /\
  Returns inp T (es_bitand_assign T a o) (fun v => A v && O v) /\
  Returns inp T (es_bitxor_assign T a o) (fun v => xorb (A v) (O v)).
Proof. exact (AlgebraClaims.assign_members pw inp T a A b B o O). Qed.
Print Assumptions C12_assign_members.
Example C12_assign_members_example :
  Supported 64 wide WideT /\
  Reachable 64 wide WideT wide_ac /\
  Denotes wide WideT wide_ac (among [0; 2]%nat) /\
  Reachable 64 wide WideT wide_bc /\
  Denotes wide WideT wide_bc (among [1; 2]%nat) /\
  OpDenotes wide WideT (Reachable 64 wide WideT) (OSet wide_bc) (among [1; 2]%nat) /\
  es_insert_all WideT wide_ac wide_bc = Ret [8; 0x40; 0; 0x100] /\
  es_bitxor_assign WideT wide_ac (OVar 2) = Ret [0; 0; 0; 0x100].
Proof. example. split; auto with ex. Qed.

(** C12: operators with a set or a variant on the right *)
Theorem C12_operator_members pw inp T a A o O : Supported pw inp T ->
  Reachable pw inp T a -> Denotes inp T a A -> OpDenotes inp T (Reachable pw inp T) o O ->
  Returns inp T (es_bitor T a o) (fun v => A v || O v) /\
  Returns inp T (es_sub T a o) (fun v => A v && negb (O v)) /\
  Returns inp T (es_bitand T a o) (fun v => A v && O v) /\
  Returns inp T (es_bitxor T a o) (fun v => xorb (A v) (O v)) /\
  Returns inp T (es_not T a) (fun v => negb (A v)).
Proof. exact (AlgebraClaims.operator_members pw inp T a A o O). Qed.
Print Assumptions C12_operator_members.
Example C12_operator_members_example :
  Supported 64 wide WideT /\
  Reachable 64 wide WideT wide_ac /\
  Denotes wide WideT wide_ac (among [0; 2]%nat) /\
  OpDenotes wide WideT (Reachable 64 wide WideT) (OVar 2%nat) (among [2]%nat) /\
  es_sub WideT wide_ac (OVar 2) = Ret [0; 0; 0; 0x100] /\
  es_not WideT wide_ac = Ret [8; 0x80; 0; 0].
Proof. example. split; [vm_compute; lia|all_variants]. Qed.

(** C13: operators on bare variants *)
Theorem C13_variant_operators pw inp T t o O : Supported pw inp T -> variant inp t ->
  OpDenotes inp T (Reachable pw inp T) o O ->
  Returns inp T (var_bitor T t o) (fun v => (v =? t)%nat || O v) /\
  Returns inp T (var_bitand T t o) (fun v => (v =? t)%nat && O v) /\
  Returns inp T (var_bitxor T t o) (fun v => xorb (v =? t)%nat (O v)) /\
  Returns inp T (var_sub T t o) (fun v => (v =? t)%nat && negb (O v)) /\
  Returns inp T (var_not T t) (fun v => negb (v =? t)%nat).
Proof. exact (AlgebraClaims.variant_operators pw inp T t o O). Qed.
Print Assumptions C13_variant_operators.
Example C13_variant_operators_example :
  Supported 64 wide WideT /\
  variant wide 3 /\
  OpDenotes wide WideT (Reachable 64 wide WideT) (OSet wide_bc) (among [1; 2]%nat) /\
  var_bitor WideT 3 (OSet wide_bc) = Ret [8; 0xC0; 0; 0] /\
  var_not WideT 3 = Ret [8; 0x40; 0; 0x100].
Proof. example. split; auto with ex. Qed.

(** C13: equality of variants *)
Theorem C13_variant_eq pw inp T u v : Supported pw inp T -> variant inp u -> variant inp v ->
  exists b, enum_eq T u v = Ret b /\ (b = true <-> u = v).
Proof. exact (AlgebraClaims.variant_eq pw inp T u v). Qed.
Print Assumptions C13_variant_eq.
Example C13_variant_eq_example :
  Supported 64 wide WideT /\
  variant wide 3 /\
  variant wide 2 /\
  enum_eq WideT 3 2 = Ret false /\
  enum_eq WideT 3 3 = Ret true.
Proof. example. Qed.

(** C14: every identity that holds for Boolean operations holds for sets; two expressions evaluate to the same set *)
Theorem C14_boolean_identities pw inp T env e e' : Supported pw inp T ->
  (forall i, Reachable pw inp T (env i)) ->
  (forall b, bool_eval b e = bool_eval b e') ->
  Agree T (es_eval T env e) (es_eval T env e').
Proof. exact (AlgebraClaims.boolean_identities pw inp T env e e'). Qed.
Print Assumptions C14_boolean_identities.
Example C14_boolean_identities_example :
  Supported 64 wide WideT /\
  (forall i, Reachable 64 wide WideT (if Nat.eqb i 0 then wide_ac else wide_bc)) /\
  (forall b, bool_eval b (SNot (SSub (SVar 0) (SVar 1))) = bool_eval b (SOr (SNot (SVar 0)) (SVar 1))) /\
  es_eval WideT (fun i => if Nat.eqb i 0 then wide_ac else wide_bc) (SNot (SSub (SVar 0) (SVar 1))) = Ret [8; 0xC0; 0; 0].
Proof. example; [intros i; destruct (Nat.eqb i 0); auto with ex|]. intros b; cbn; destruct (b 0%nat), (b 1%nat); reflexivity. Qed.

(** C14: the laws one by one *)
Theorem C14_boolean_laws pw inp T a b c : Supported pw inp T ->
  Reachable pw inp T a -> Reachable pw inp T b -> Reachable pw inp T c ->
  (* commutativity *)
  Agree T (es_bitor T a (OSet b)) (es_bitor T b (OSet a)) /\
  Agree T (es_bitand T a (OSet b)) (es_bitand T b (OSet a)) /\
  (* associativity *)
  Agree T (x <- es_bitor T a (OSet b) ;; es_bitor T x (OSet c)) (y <- es_bitor T b (OSet c) ;; es_bitor T a (OSet y)) /\
  Agree T (x <- es_bitand T a (OSet b) ;; es_bitand T x (OSet c)) (y <- es_bitand T b (OSet c) ;; es_bitand T a (OSet y)) /\
  (* distributivity *)
  Agree T (x <- es_bitor T b (OSet c) ;; es_bitand T a (OSet x))
          (x <- es_bitand T a (OSet b) ;; y <- es_bitand T a (OSet c) ;; es_bitor T x (OSet y)) /\
  Agree T (x <- es_bitand T b (OSet c) ;; es_bitor T a (OSet x))
          (x <- es_bitor T a (OSet b) ;; y <- es_bitor T a (OSet c) ;; es_bitand T x (OSet y)) /\
  (* absorption *)
  Agree T (x <- es_bitand T a (OSet b) ;; es_bitor T a (OSet x)) (Ret a) /\
  Agree T (x <- es_bitor T a (OSet b) ;; es_bitand T a (OSet x)) (Ret a) /\
  (* identity *)
  Agree T (es_bitor T a (OSet (es_empty T))) (Ret a) /\
  Agree T (es_bitand T a (OSet (es_all T))) (Ret a) /\
  (* complement *)
  Agree T (x <- es_not T a ;; es_bitor T a (OSet x)) (Ret (es_all T)) /\
  Agree T (x <- es_not T a ;; es_bitand T a (OSet x)) (Ret (es_empty T)) /\
  Agree T (x <- es_not T a ;; es_not T x) (Ret a) /\
  (* De Morgan *)
  Agree T (x <- es_bitor T a (OSet b) ;; es_not T x) (x <- es_not T a ;; y <- es_not T b ;; es_bitand T x (OSet y)) /\
  Agree T (x <- es_bitand T a (OSet b) ;; es_not T x) (x <- es_not T a ;; y <- es_not T b ;; es_bitor T x (OSet y)) /\
  (* difference and symmetric difference *)
  Agree T (es_sub T a (OSet b)) (x <- es_not T b ;; es_bitand T a (OSet x)) /\
  Agree T (es_bitxor T a (OSet b)) (x <- es_sub T a (OSet b) ;; y <- es_sub T b (OSet a) ;; es_bitor T x (OSet y)).
Proof. exact (AlgebraClaims.boolean_laws pw inp T a b c). Qed.
Print Assumptions C14_boolean_laws.
Example C14_boolean_laws_example :
  Supported 64 wide WideT /\
  Reachable 64 wide WideT wide_ac /\
  Reachable 64 wide WideT wide_bc /\
  Reachable 64 wide WideT (es_all WideT).
Proof. example. apply R_all. Qed.


(** * Properties: order, hashing, collecting, printing and macros, C23-C26, C31 *)
From Coq Require Import Arith.
From Verif Require Import Base Repr Syntax Spec Derive EnumSet Macros Fmt Serde ApiSpec Examples.
From Verif Require MiscClaims Refutations.

(** C23: a total order consistent with equality *)
Theorem C23_cmp_total pw inp T a A b B : Supported pw inp T -> 
  Reachable pw inp T a -> Denotes inp T a A -> Reachable pw inp T b -> Denotes inp T b B ->
  (es_cmp T a b = Eq <-> forall v, variant inp v -> A v = B v) /\
  (es_cmp T a b = Eq <-> es_eq T a b = true) /\
  es_cmp T b a = CompOpp (es_cmp T a b) /\
  es_partial_cmp T a b = Some (es_cmp T a b) /\
  (forall c r, Reachable pw inp T c -> es_cmp T a b = r -> es_cmp T b c = r -> es_cmp T a c = r).
Proof. exact (MiscClaims.cmp_total pw inp T a A b B). Qed.
Print Assumptions C23_cmp_total.
Example C23_cmp_total_example :
  Supported 64 wide WideT /\
  Reachable 64 wide WideT wide_ac /\
  Denotes wide WideT wide_ac (among [0; 2]%nat) /\
  Reachable 64 wide WideT wide_bc /\
  Denotes wide WideT wide_bc (among [1; 2]%nat) /\
  es_cmp WideT wide_ac wide_bc = Lt.
Proof. example. Qed.

(** C23: which order it is *)
Theorem C23_cmp_order pw inp T a A b B : Supported pw inp T -> 
  Reachable pw inp T a -> Denotes inp T a A -> Reachable pw inp T b -> Denotes inp T b B ->
  match storage_of inp with
  | SInt _ => es_cmp T a b = (set_value inp A ?= set_value inp B)
  | SWords n => forall ws ws', length ws = N.to_nat n -> length ws' = N.to_nat n ->
      words_hold inp ws A (64 * n) -> words_hold inp ws' B (64 * n) ->
      es_cmp T a b = lex_compare ws ws'
  end.
Proof. exact (MiscClaims.cmp_order pw inp T a A b B). Qed.
Print Assumptions C23_cmp_order.
Example C23_cmp_order_example :
  Supported 64 wide WideT /\
  Reachable 64 wide WideT wide_ac /\
  Denotes wide WideT wide_ac (among [0; 2]%nat) /\
  Reachable 64 wide WideT wide_bc /\
  Denotes wide WideT wide_bc (among [1; 2]%nat) /\
  storage_of wide = SWords 4 /\
  storage_of small = SInt 8 /\
  es_cmp SmallT small_ac small_b = Gt.
Proof. example. Qed.

(** C23: in array storage it is not the numeric order *)
Theorem C23_array_order_not_numeric :
  exists pw inp T a A b B, Supported pw inp T /\
    Reachable pw inp T a /\ Denotes inp T a A /\ Reachable pw inp T b /\ Denotes inp T b B /\
    (set_value inp A ?= set_value inp B) = Gt /\ es_cmp T a b = Lt.
Proof. exact Refutations.array_order_not_numeric. Qed.
Print Assumptions C23_array_order_not_numeric.

(** C24: hashing *)
Theorem C24_hash_eq pw inp T a A b B : Supported pw inp T -> 
  Reachable pw inp T a -> Denotes inp T a A -> Reachable pw inp T b -> Denotes inp T b B ->
  (es_hash T a = es_hash T b <-> forall v, variant inp v -> A v = B v) /\
  (es_hash T a = es_hash T b <-> es_eq T a b = true).
Proof. exact (MiscClaims.hash_eq pw inp T a A b B). Qed.
Print Assumptions C24_hash_eq.
Example C24_hash_eq_example :
  Supported 64 wide WideT /\
  Reachable 64 wide WideT wide_ac /\
  Denotes wide WideT wide_ac (among [0; 2]%nat) /\
  Reachable 64 wide WideT wide_bc /\
  Denotes wide WideT wide_bc (among [1; 2]%nat) /\
  es_hash WideT wide_ac = [HLen 4; HWords [0; 0x40; 0; 0x100]] /\
  es_hash SmallT small_ac = [HInt 8 0x41].
Proof. example. Qed.

(** C25: collecting variants *)
Theorem C25_collect_variants pw inp T s A items : Supported pw inp T -> Reachable pw inp T s -> Denotes inp T s A ->
  (forall v, In v items -> variant inp v) ->
  Returns inp T (es_extend T s items) (fun v => A v || existsb (Nat.eqb v) items) /\
  Returns inp T (es_from_iter T items) (fun v => existsb (Nat.eqb v) items) /\
  Returns inp T (es_sum T items) (fun v => existsb (Nat.eqb v) items).
Proof. exact (MiscClaims.collect_variants pw inp T s A items). Qed.
Print Assumptions C25_collect_variants.
Example C25_collect_variants_example :
  Supported 64 wide WideT /\
  Reachable 64 wide WideT wide_ac /\
  Denotes wide WideT wide_ac (among [0; 2]%nat) /\
  (forall v, In v [3; 3; 2]%nat -> variant wide v) /\
  es_extend WideT wide_ac [3; 3; 2]%nat = Ret [0; 0xC0; 0; 0x100].
Proof. example. Qed.

(** C25: collecting sets *)
Theorem C25_collect_sets pw inp T s A items Bs : Supported pw inp T -> Reachable pw inp T s -> Denotes inp T s A ->
  Forall2 (fun x B => Reachable pw inp T x /\ Denotes inp T x B) items Bs ->
  Returns inp T (es_extend_sets T s items) (fun v => A v || existsb (fun B => B v) Bs) /\
  Returns inp T (es_from_iter_sets T items) (fun v => existsb (fun B => B v) Bs) /\
  Returns inp T (es_sum_sets T items) (fun v => existsb (fun B => B v) Bs).
Proof. exact (MiscClaims.collect_sets pw inp T s A items Bs). Qed.
Print Assumptions C25_collect_sets.
Example C25_collect_sets_example :
  Supported 64 wide WideT /\
  Reachable 64 wide WideT wide_ac /\
  Denotes wide WideT wide_ac (among [0; 2]%nat) /\
  Forall2 (fun x B => Reachable 64 wide WideT x /\ Denotes wide WideT x B) [wide_bc; wide_ac] [among [1; 2]; among [0; 2]]%nat /\
  es_sum_sets WideT [wide_bc; wide_ac] = Ret [8; 0x40; 0; 0x100].
Proof. example. Qed.

(** C26: exactly these pieces are written, one after the other, until one of them fails *)
Theorem C26_printing pw inp T s A : Supported pw inp T -> Reachable pw inp T s -> Denotes inp T s A ->
  exists l, lists_set inp A l /\
  forall (W : Type) (write_str : string -> W -> bool * W) (fmt_elem : nat -> W -> bool * W) (w : W),
    let put p := match p with PText t => write_str t | PElem v => fmt_elem v end in
    fmt_display T write_str fmt_elem s w = Ret (perform put (display_pieces l) w) /\
    fmt_debug T write_str fmt_elem s w = Ret (perform put (debug_pieces l) w).
Proof. exact (MiscClaims.printing pw inp T s A). Qed.
Print Assumptions C26_printing.
Example C26_printing_example :
  Supported 64 wide WideT /\
  Reachable 64 wide WideT wide_ac /\
  Denotes wide WideT wide_ac (among [0; 2]%nat) /\
  fmt_debug WideT put_limited (fun v => put_limited (names wide_variants v)) wide_ac (9%nat, ""%string) = Ret (true, (4%nat, "EnumSet(C | A)"%string)) /\
  fmt_debug WideT put_limited (fun v => put_limited (names wide_variants v)) wide_ac (3%nat, ""%string) = Ret (false, (0%nat, "EnumSet(C | "%string)).
Proof. example. Qed.

(** C26: so the whole text or, after a failure, a prefix of it is written *)
Theorem C26_printed_text pw inp T s A W (text : W -> string) elem write_str fmt_elem :
  Supported pw inp T -> Reachable pw inp T s -> Denotes inp T s A ->
  (forall t, appends text t (write_str t)) -> (forall v, variant inp v -> appends text (elem v) (fmt_elem v)) ->
  exists l f g, lists_set inp A l /\
    (forall w, fmt_display T write_str fmt_elem s w = Ret (f w)) /\ appends text (display_text elem l) f /\
    (forall w, fmt_debug T write_str fmt_elem s w = Ret (g w)) /\ appends text (debug_text elem l) g.
Proof. exact (MiscClaims.printed_text pw inp T s A W text elem write_str fmt_elem). Qed.
Print Assumptions C26_printed_text.
Example C26_printed_text_example :
  Supported 64 wide WideT /\
  Reachable 64 wide WideT wide_ac /\
  Denotes wide WideT wide_ac (among [0; 2]%nat) /\
  (forall t, appends (fun w => w) t (put_text t)) /\
  fmt_display WideT put_text (fun v => put_text (names wide_variants v)) wide_ac ""%string = Ret (true, "C | A"%string).
Proof. example. intros t w. reflexivity. Qed.

(** C31: the macros against the run-time operators *)
Theorem C31_macros_agree pw inp T o ops : Supported pw inp T ->
  (forall p, In p (o :: ops) -> exists O, OpDenotes inp T (Reachable pw inp T) p O) ->
  let run op := s <- es_into T o ;; for_each ops s (fun p s => op s p) in
  Agree T (mc_enum_set T (o :: ops)) (run (es_bitor T)) /\
  Agree T (mc_union T o ops) (run (es_bitor T)) /\
  Agree T (mc_intersection T o ops) (run (es_bitand T)) /\
  Agree T (mc_difference T o ops) (run (es_sub T)) /\
  Agree T (mc_symmetric_difference T o ops) (run (es_bitxor T)) /\
  Agree T (mc_complement T o) (s <- es_into T o ;; es_not T s) /\
  mc_enum_set T [] = Ret (es_empty T).
Proof. exact (MiscClaims.macros_agree pw inp T o ops). Qed.
Print Assumptions C31_macros_agree.
Example C31_macros_agree_example :
  Supported 64 wide WideT /\
  OpDenotes wide WideT (Reachable 64 wide WideT) (OVar 2%nat) (among [2]%nat) /\
  OpDenotes wide WideT (Reachable 64 wide WideT) (OSet wide_bc) (among [1; 2]%nat) /\
  mc_union WideT (OVar 2) [OSet wide_bc; OVar 0] = Ret [8; 0x40; 0; 0x100] /\
  mc_difference WideT (OSet wide_bc) [OVar 2] = Ret [8; 0; 0; 0].
Proof. example; [split; [vm_compute; lia|all_variants]|split; auto with ex]. Qed.

(** C31: the members of the results of the macros *)
Theorem C31_macro_members pw inp T o O ops Os : Supported pw inp T ->
  OpDenotes inp T (Reachable pw inp T) o O -> Forall2 (OpDenotes inp T (Reachable pw inp T)) ops Os ->
  Returns inp T (mc_enum_set T (o :: ops)) (fun v => fold_left (fun b O => b || O v) Os (O v)) /\
  Returns inp T (mc_union T o ops) (fun v => fold_left (fun b O => b || O v) Os (O v)) /\
  Returns inp T (mc_intersection T o ops) (fun v => fold_left (fun b O => b && O v) Os (O v)) /\
  Returns inp T (mc_difference T o ops) (fun v => fold_left (fun b O => b && negb (O v)) Os (O v)) /\
  Returns inp T (mc_symmetric_difference T o ops) (fun v => fold_left (fun b O => xorb b (O v)) Os (O v)) /\
  Returns inp T (mc_complement T o) (fun v => negb (O v)).
Proof. exact (MiscClaims.macro_members pw inp T o O ops Os). Qed.
Print Assumptions C31_macro_members.
Example C31_macro_members_example :
  Supported 64 wide WideT /\
  OpDenotes wide WideT (Reachable 64 wide WideT) (OSet wide_bc) (among [1; 2]%nat) /\
  mc_symmetric_difference WideT (OSet wide_bc) [OVar 2; OVar 2] = Ret wide_bc /\
  mc_complement WideT (OSet wide_bc) = Ret [0; 0x80; 0; 0x100].
Proof. example. split; auto with ex. Qed.


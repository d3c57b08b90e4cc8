(** * Properties: counting, bitwise arithmetic, iterator methods, comparison operators, elements, other enums, C25, C56-C58, C65-C67 *)
From Coq Require Import Arith.
From Verif Require Import Base Repr Syntax Spec Derive EnumSet Macros Fmt Serde ApiSpec Examples ExtraSpec IterMethods CmpMethods ExtraExamples.
From Verif Require ElementClaims IterMethodClaims LawClaims OrderClaims TransferClaims.

(** C56: sizes of unions, intersections, differences and complements *)
Theorem C56_counting pw inp T a b : Supported pw inp T -> Reachable pw inp T a -> Reachable pw inp T b ->
  exists na nb nu ni nd nx nc,
    es_len T a = Ret na /\ es_len T b = Ret nb /\
    (s <- es_union T a b ;; es_len T s) = Ret nu /\
    (s <- es_intersection T a b ;; es_len T s) = Ret ni /\
    (s <- es_difference T a b ;; es_len T s) = Ret nd /\
    (s <- es_symmetrical_difference T a b ;; es_len T s) = Ret nx /\
    (s <- es_complement T a ;; es_len T s) = Ret nc /\
    nu + ni = na + nb /\ nd + ni = na /\ nx + 2 * ni = na + nb /\ nc + na = es_variant_count T /\
    (es_is_disjoint T a b = Ret true <-> nu = na + nb) /\
    (es_is_subset T a b = Ret true <-> ni = na) /\
    (es_is_superset T a b = Ret true <-> ni = nb) /\
    (a = b <-> nx = 0).
Proof. exact (LawClaims.counting pw inp T a b). Qed.
Print Assumptions C56_counting.
Example C56_counting_example :
  Supported 64 wide WideT /\
  Reachable 64 wide WideT wide_ac /\
  Reachable 64 wide WideT wide_bc /\
  es_len WideT wide_ac = Ret 2 /\
  es_len WideT wide_bc = Ret 2 /\
  (s <- es_union WideT wide_ac wide_bc ;; es_len WideT s) = Ret 3 /\
  (s <- es_intersection WideT wide_ac wide_bc ;; es_len WideT s) = Ret 1 /\
  (s <- es_symmetrical_difference WideT wide_ac wide_bc ;; es_len WideT s) = Ret 2 /\
  (s <- es_complement WideT wide_ac ;; es_len WideT s) = Ret 2.
Proof. example. Qed.

(** C57: set operations are bitwise operations on the integers *)
Theorem C57_to_integer_bitwise pw inp T a b t : Supported pw inp T -> Reachable pw inp T a -> Reachable pw inp T b ->
  exists x y m,
    es_as_truncated T t a = Ret x /\ es_as_truncated T t b = Ret y /\ es_as_truncated T t (es_all T) = Ret m /\
    (s <- es_union T a b ;; es_as_truncated T t s) = Ret (N.lor x y) /\
    (s <- es_intersection T a b ;; es_as_truncated T t s) = Ret (N.land x y) /\
    (s <- es_difference T a b ;; es_as_truncated T t s) = Ret (N.ldiff x y) /\
    (s <- es_symmetrical_difference T a b ;; es_as_truncated T t s) = Ret (N.lxor x y) /\
    (s <- es_complement T a ;; es_as_truncated T t s) = Ret (N.ldiff m x).
Proof. exact (LawClaims.to_integer_bitwise pw inp T a b t). Qed.
Print Assumptions C57_to_integer_bitwise.
Example C57_to_integer_bitwise_example :
  Supported 64 wide WideT /\
  Reachable 64 wide WideT wide_ac /\
  Reachable 64 wide WideT wide_bc /\
  es_as_truncated WideT U128 wide_ac = Ret 0x400000000000000000 /\
  es_as_truncated WideT U128 wide_bc = Ret 0x400000000000000008 /\
  (s <- es_symmetrical_difference WideT wide_ac wide_bc ;; es_as_truncated WideT U128 s) = Ret 8 /\
  (s <- es_complement WideT wide_ac ;; es_as_truncated WideT U128 s) = Ret 0x800000000000000008.
Proof. example. Qed.

(** C57: bitwise operations on integers are set operations *)
Theorem C57_from_integer_bitwise pw inp T t x y : Supported pw inp T -> x < 2 ^ ity_bits pw t -> y < 2 ^ ity_bits pw t ->
  exists a b, es_from_truncated T t x = Ret a /\ es_from_truncated T t y = Ret b /\
    Agree T (es_from_truncated T t (N.lor x y)) (es_union T a b) /\
    Agree T (es_from_truncated T t (N.land x y)) (es_intersection T a b) /\
    Agree T (es_from_truncated T t (N.ldiff x y)) (es_difference T a b) /\
    Agree T (es_from_truncated T t (N.lxor x y)) (es_symmetrical_difference T a b).
Proof. exact (LawClaims.from_integer_bitwise pw inp T t x y). Qed.
Print Assumptions C57_from_integer_bitwise.
Example C57_from_integer_bitwise_example :
  Supported 64 wide WideT /\
  0xFF < 2 ^ ity_bits 64 U128 /\
  0x400000000000000009 < 2 ^ ity_bits 64 U128 /\
  es_from_truncated WideT U128 0xFF = Ret [8; 0; 0; 0] /\
  es_from_truncated WideT U128 0x400000000000000009 = Ret wide_bc /\
  es_from_truncated WideT U128 (N.lxor 0xFF 0x400000000000000009) = Ret [0; 0x40; 0; 0] /\
  es_symmetrical_difference WideT [8; 0; 0; 0] wide_bc = Ret [0; 0x40; 0; 0].
Proof. example. Qed.

(** C57: set operations are word by word operations on the arrays *)
Theorem C57_to_words_bitwise pw inp T a b k : Supported pw inp T -> Reachable pw inp T a -> Reachable pw inp T b ->
  exists x y m,
    es_as_array_truncated T a k = Ret x /\ es_as_array_truncated T b k = Ret y /\ es_as_array_truncated T (es_all T) k = Ret m /\
    (s <- es_union T a b ;; es_as_array_truncated T s k) = Ret (zip_words N.lor x y) /\
    (s <- es_intersection T a b ;; es_as_array_truncated T s k) = Ret (zip_words N.land x y) /\
    (s <- es_difference T a b ;; es_as_array_truncated T s k) = Ret (zip_words N.ldiff x y) /\
    (s <- es_symmetrical_difference T a b ;; es_as_array_truncated T s k) = Ret (zip_words N.lxor x y) /\
    (s <- es_complement T a ;; es_as_array_truncated T s k) = Ret (zip_words N.ldiff m x).
Proof. exact (LawClaims.to_words_bitwise pw inp T a b k). Qed.
Print Assumptions C57_to_words_bitwise.
Example C57_to_words_bitwise_example :
  Supported 64 wide WideT /\
  Reachable 64 wide WideT wide_ac /\
  Reachable 64 wide WideT wide_bc /\
  es_as_array_truncated WideT wide_ac 2 = Ret [0; 0x40] /\
  es_as_array_truncated WideT wide_bc 2 = Ret [8; 0x40] /\
  (s <- es_symmetrical_difference WideT wide_ac wide_bc ;; es_as_array_truncated WideT s 2) = Ret [8; 0] /\
  (s <- es_complement WideT wide_ac ;; es_as_array_truncated WideT s 2) = Ret [8; 0x80].
Proof. example. Qed.

(** C58: [count], [last], [fold], [nth], [find], [position], [any], [all] after any number of calls at both ends *)
Theorem C58_iterator_methods md pw inp T s A : Supported pw inp T -> Reachable pw inp T s -> Denotes inp T s A ->
  exists it l, es_iter T s = Ret it /\ lists_set inp A l /\
  forall ps, exists os it', es_pops T ps it = Ret (os, it') /\
    let r := snd (pops ps l) in
    @es_count md T (es_next T) it' = Ret (N.of_nat (length r)) /\
    es_last T (es_next T) it' = Ret (hd_error (rev r)) /\
    (forall B (f : B -> nat -> M B) b,
       es_fold T (es_next T) it' b f = for_each r b (fun x b => f b x) /\
       es_fold T (es_next_back T) it' b f = for_each (rev r) b (fun x b => f b x)) /\
    (forall n,
       (exists it2, es_nth T (es_next T) n it' = Ret (nth_error r n, it2) /\ it_yields T it2 (skipn (S n) r)) /\
       (exists it2, es_nth T (es_next_back T) n it' = Ret (nth_error (rev r) n, it2) /\
                    it_yields T it2 (rev (skipn (S n) (rev r))))) /\
    (forall p,
       (exists it2, es_find T (es_next T) p it' = Ret (find p r, it2) /\ it_yields T it2 (after_first p r)) /\
       (exists it2, es_find T (es_next_back T) p it' = Ret (find p (rev r), it2) /\
                    it_yields T it2 (rev (after_first p (rev r)))) /\
       (exists it2, @es_position md T (es_next T) p it' = Ret (first_index p r, it2) /\ it_yields T it2 (after_first p r)) /\
       (exists it2, es_any T (es_next T) p it' = Ret (existsb p r, it2) /\ it_yields T it2 (after_first p r)) /\
       (exists it2, es_all_items T (es_next T) p it' = Ret (forallb p r, it2) /\
                    it_yields T it2 (after_first (fun x => negb (p x)) r))).
Proof. exact (IterMethodClaims.iterator_methods md pw inp T s A). Qed.
Print Assumptions C58_iterator_methods.
Example C58_iterator_methods_example :
  Supported 64 wide WideT /\
  Reachable 64 wide WideT (es_all WideT) /\
  Denotes wide WideT (es_all WideT) (fun _ => true) /\
  (it <- es_iter WideT (es_all WideT) ;; @es_count Debug WideT (es_next WideT) it) = Ret 4 /\
  (it <- es_iter WideT (es_all WideT) ;; es_last WideT (es_next WideT) it) = Ret (Some 0%nat) /\
  (it <- es_iter WideT (es_all WideT) ;; '(o, it) <- es_nth WideT (es_next WideT) 1 it ;; l <- es_drain WideT 5 it ;; Ret (o, l)) = Ret (Some 2, [3; 0])%nat /\
  (it <- es_iter WideT (es_all WideT) ;; '(o, it) <- es_find WideT (es_next_back WideT) (Nat.eqb 3) it ;; l <- es_drain WideT 5 it ;; Ret (o, l)) = Ret (Some 3, [1; 2])%nat /\
  (it <- es_iter WideT (es_all WideT) ;; '(o, _) <- @es_position Debug WideT (es_next WideT) (Nat.eqb 3) it ;; Ret o) = Ret (Some 2).
Proof. example; [apply R_all|apply (SetClaims.all_members 64); auto with ex]. Qed.

(** C25: extending by an iterator over another set, after any number of calls at its ends *)
Theorem C25_extend_from_iter pw inp T s A b B : Supported pw inp T -> Reachable pw inp T s -> Denotes inp T s A ->
  Reachable pw inp T b -> Denotes inp T b B ->
  exists it l, es_iter T b = Ret it /\ lists_set inp B l /\
  forall ps, exists os it1 s' it2, es_pops T ps it = Ret (os, it1) /\
    es_extend_iter T s it1 = Ret (s', it2) /\ Reachable pw inp T s' /\
    Denotes inp T s' (fun v => A v || existsb (Nat.eqb v) (snd (pops ps l))) /\
    it_yields T it2 [].
Proof. exact (ElementClaims.extend_from_iter pw inp T s A b B). Qed.
Print Assumptions C25_extend_from_iter.
Example C25_extend_from_iter_example :
  Supported 64 wide WideT /\
  Reachable 64 wide WideT wide_ac /\
  Denotes wide WideT wide_ac (among [0; 2]%nat) /\
  Reachable 64 wide WideT wide_bc /\
  Denotes wide WideT wide_bc (among [1; 2]%nat) /\
  (it <- es_iter WideT wide_bc ;; '(_, it) <- es_pops WideT [Front] it ;; '(s, it) <- es_extend_iter WideT wide_ac it ;; Ret s) = Ret wide_ac /\
  (it <- es_iter WideT wide_bc ;; '(_, it) <- es_pops WideT [Back] it ;; '(s, it) <- es_extend_iter WideT wide_ac it ;; Ret s) = Ret [8; 0x40; 0; 0x100].
Proof. example. Qed.

(** C66: a set is rebuilt from its elements in any order and with repetitions *)
Theorem C66_rebuild pw inp T s A : Supported pw inp T -> Reachable pw inp T s -> Denotes inp T s A ->
  exists l, es_collect T s = Ret l /\
  (forall items, (forall v, In v items <-> In v l) ->
     es_from_iter T items = Ret s /\ es_sum T items = Ret s /\
     (forall b, Reachable pw inp T b -> es_extend T b items = es_union T b s)) /\
  (forall p, Returns inp T (es_from_iter T (filter p l)) (fun v => A v && p v)).
Proof. exact (ElementClaims.rebuild pw inp T s A). Qed.
Print Assumptions C66_rebuild.
Example C66_rebuild_example :
  Supported 64 wide WideT /\
  Reachable 64 wide WideT wide_ac /\
  Denotes wide WideT wide_ac (among [0; 2]%nat) /\
  es_collect WideT wide_ac = Ret [2; 0]%nat /\
  (forall v, In v [0; 2; 0]%nat <-> In v [2; 0]%nat) /\
  es_from_iter WideT [0; 2; 0]%nat = Ret wide_ac /\
  es_from_iter WideT (filter (Nat.ltb 1) [2; 0]%nat) = Ret [0; 0x40; 0; 0].
Proof. example. cbn; tauto. Qed.

(** C66: [partition] splits a set into two parts *)
Theorem C66_partitioned pw inp T s A p : Supported pw inp T -> Reachable pw inp T s -> Denotes inp T s A ->
  exists it a b, es_iter T s = Ret it /\ es_partition T p it = Ret (a, b) /\
    Reachable pw inp T a /\ Denotes inp T a (fun v => A v && p v) /\
    Reachable pw inp T b /\ Denotes inp T b (fun v => A v && negb (p v)) /\
    es_union T a b = Ret s /\ es_is_disjoint T a b = Ret true /\
    es_difference T s a = Ret b /\ es_difference T s b = Ret a.
Proof. exact (ElementClaims.partitioned pw inp T s A p). Qed.
Print Assumptions C66_partitioned.
Example C66_partitioned_example :
  Supported 64 wide WideT /\
  Reachable 64 wide WideT wide_ac /\
  Denotes wide WideT wide_ac (among [0; 2]%nat) /\
  (it <- es_iter WideT wide_ac ;; es_partition WideT (Nat.ltb 1) it) = Ret ([0; 0x40; 0; 0], [0; 0; 0; 0x100]).
Proof. example. Qed.

(** C67: sets of one enum converted to sets of another through integers *)
Theorem C67_transfer_integer pw inp T pw' inp' T' s A t : Supported pw inp T -> Supported pw' inp' T' ->
  ity_bits pw t = ity_bits pw' t -> Reachable pw inp T s -> Denotes inp T s A ->
  (forall u, variant inp u -> A u = true -> discr inp u < ity_bits pw t) ->
  exists x, es_as T t s = Ret x /\
    Returns inp' T' (es_from_truncated T' t x) (counterparts inp inp' A) /\
    ((forall u, variant inp u -> A u = true -> exists v, variant inp' v /\ discr inp' v = discr inp u) ->
       exists s', es_from_num T' t x = Ret s' /\ es_try_from T' t x = Ret (Some s') /\
         Denotes inp' T' s' (counterparts inp inp' A) /\
         (y <- es_as T' t s' ;; es_from_num T t y) = Ret s) /\
    ((exists u, variant inp u /\ A u = true /\ forall v, variant inp' v -> discr inp' v <> discr inp u) ->
       es_try_from T' t x = Ret None).
Proof. exact (TransferClaims.transfer_integer pw inp T pw' inp' T' s A t). Qed.
Print Assumptions C67_transfer_integer.
Example C67_transfer_integer_example :
  Supported 64 small SmallT /\
  Supported 64 grown GrownT /\
  ity_bits 64 U8 = ity_bits 64 U8 /\
  Reachable 64 small SmallT small_ac /\
  Denotes small SmallT small_ac (among [0; 2]%nat) /\
  es_as SmallT U8 small_ac = Ret 0x41 /\
  es_from_num GrownT U8 0x41 = Ret 0x41 /\
  map (counterparts small grown (among [0; 2]%nat)) [0; 1; 2; 3]%nat = [false; true; false; true] /\
  es_as GrownT U8 grown_d = Ret 0x44 /\
  es_try_from SmallT U8 0x44 = Ret None /\
  es_from_truncated SmallT U8 0x44 = Ret 0x40.
Proof. example. Qed.

(** C67: and through vectors of words *)
Theorem C67_transfer_words pw inp T pw' inp' T' s A : Supported pw inp T -> Supported pw' inp' T' ->
  Reachable pw inp T s -> Denotes inp T s A ->
  exists ws, es_to_vec T s = Ret ws /\
    Returns inp' T' (es_from_slice_truncated T' ws) (counterparts inp inp' A) /\
    ((forall u, variant inp u -> A u = true -> exists v, variant inp' v /\ discr inp' v = discr inp u) ->
       exists s', es_from_slice T' ws = Ret s' /\ es_try_from_slice T' ws = Ret (Some s') /\
         Denotes inp' T' s' (counterparts inp inp' A) /\
         (ws' <- es_to_vec T' s' ;; es_from_slice T ws') = Ret s) /\
    ((exists u, variant inp u /\ A u = true /\ forall v, variant inp' v -> discr inp' v <> discr inp u) ->
       es_try_from_slice T' ws = Ret None).
Proof. exact (TransferClaims.transfer_words pw inp T pw' inp' T' s A). Qed.
Print Assumptions C67_transfer_words.
Example C67_transfer_words_example :
  Supported 64 wide WideT /\
  Supported 32 wider WiderT /\
  Reachable 64 wide WideT wide_ac /\
  Denotes wide WideT wide_ac (among [0; 2]%nat) /\
  es_to_vec WideT wide_ac = Ret [0; 0x40; 0; 0x100] /\
  (s <- es_from_slice WiderT [0; 0x40; 0; 0x100] ;; es_to_vec WiderT s) = Ret [0; 0x40; 0; 0x100] /\
  es_from_slice WideT [0; 0x40; 0; 0x100; 0] = Ret wide_ac /\
  (s <- es_only WiderT 0 ;; ws <- es_to_vec WiderT s ;; es_try_from_slice WideT ws) = Ret None.
Proof. example. Qed.

(** C65: the comparison operators *)
Theorem C65_order_operators pw inp T a b : Supported pw inp T -> Reachable pw inp T a -> Reachable pw inp T b ->
  (es_lt T a b = true <-> es_cmp T a b = Lt) /\
  (es_ne T a b = true <-> a <> b) /\
  (es_le T a b = true <-> es_lt T a b = true \/ a = b) /\
  es_gt T a b = es_lt T b a /\ es_ge T a b = es_le T b a /\ es_le T a b = negb (es_lt T b a) /\
  (es_le T a b = true -> es_le T b a = true -> a = b) /\
  (forall c, Reachable pw inp T c -> es_le T a b = true -> es_le T b c = true -> es_le T a c = true) /\
  (es_is_subset T a b = Ret true -> es_le T a b = true).
Proof. exact (OrderClaims.order_operators pw inp T a b). Qed.
Print Assumptions C65_order_operators.
Example C65_order_operators_example :
  Supported 64 wide WideT /\
  Reachable 64 wide WideT wide_ac /\
  Reachable 64 wide WideT wide_bc /\
  es_lt WideT wide_ac wide_bc = true /\
  es_ge WideT wide_ac wide_bc = false /\
  es_ne WideT wide_ac wide_bc = true /\
  es_is_subset WideT [0; 0x40; 0; 0] wide_ac = Ret true /\
  es_le WideT [0; 0x40; 0; 0] wide_ac = true.
Proof. example. Qed.

(** C65: [max] and [min] *)
Theorem C65_max_min pw inp T a b : Supported pw inp T -> Reachable pw inp T a -> Reachable pw inp T b ->
  (es_max T a b = a \/ es_max T a b = b) /\ es_le T a (es_max T a b) = true /\ es_le T b (es_max T a b) = true /\
  (es_min T a b = a \/ es_min T a b = b) /\ es_le T (es_min T a b) a = true /\ es_le T (es_min T a b) b = true /\
  es_max T a b = es_max T b a /\ es_min T a b = es_min T b a /\
  (es_is_subset T a b = Ret true -> es_min T a b = a /\ es_max T a b = b).
Proof. exact (OrderClaims.max_min pw inp T a b). Qed.
Print Assumptions C65_max_min.
Example C65_max_min_example :
  Supported 64 wide WideT /\
  Reachable 64 wide WideT wide_ac /\
  Reachable 64 wide WideT wide_bc /\
  es_max WideT wide_ac wide_bc = wide_bc /\
  es_min WideT wide_ac wide_bc = wide_ac.
Proof. example. Qed.

(** C65: [clamp] *)
Theorem C65_clamp_between pw inp T x lo hi : Supported pw inp T ->
  Reachable pw inp T x -> Reachable pw inp T lo -> Reachable pw inp T hi ->
  (es_le T lo hi = false -> es_clamp T x lo hi = Panic (PExplicit "assertion failed: min <= max")) /\
  (es_le T lo hi = true -> exists c, es_clamp T x lo hi = Ret c /\
     es_le T lo c = true /\ es_le T c hi = true /\
     (es_le T lo x = true -> es_le T x hi = true -> c = x) /\
     (es_lt T x lo = true -> c = lo) /\ (es_lt T hi x = true -> c = hi)).
Proof. exact (OrderClaims.clamp_between pw inp T x lo hi). Qed.
Print Assumptions C65_clamp_between.
Example C65_clamp_between_example :
  Supported 64 wide WideT /\
  Reachable 64 wide WideT wide_ac /\
  Reachable 64 wide WideT wide_bc /\
  es_clamp WideT (es_all WideT) wide_ac wide_bc = Ret wide_bc /\
  es_clamp WideT (es_EMPTY WideT) wide_ac wide_bc = Ret wide_ac /\
  es_clamp WideT (es_all WideT) wide_bc wide_ac = Panic (PExplicit "assertion failed: min <= max").
Proof. example. Qed.


(** * Properties: the storages themselves and what is asked of them, C55, C68 *)
From Coq Require Import Arith.
From Verif Require Import Base Repr Syntax Spec Derive EnumSet Macros Fmt Serde ApiSpec Examples StorageSpec ListStorage.
From Verif Require LawfulClaims StorageClaims.

(** C55: logical operations, single bits, equality *)
Theorem C55_storage_bits pw R value x y : pw = 16 \/ pw = 32 \/ pw = 64 -> Storage pw R value -> r_ok R x -> r_ok R y ->
  let bit z i := N.testbit (value z) i in
  r_ok R (r_empty R) /\ value (r_empty R) = 0 /\ value x < 2 ^ r_width R /\
  gives value (r_bitand R x y) (fun i => bit x i && bit y i) /\
  gives value (r_bitor R x y) (fun i => bit x i || bit y i) /\
  gives value (r_bitxor R x y) (fun i => xorb (bit x i) (bit y i)) /\
  gives value (r_and_not R x y) (fun i => bit x i && negb (bit y i)) /\
  gives value (r_not R x) (fun i => (i <? r_width R) && negb (bit x i)) /\
  (forall b, b < r_width R -> b < 2 ^ pw ->
     r_has_bit R x b = Ret (bit x b) /\
     gives value (r_add_bit R x b) (fun i => (i =? b) || bit x i) /\
     gives value (r_remove_bit R x b) (fun i => negb (i =? b) && bit x i)) /\
  (r_is_empty R x = true <-> forall i, bit x i = false) /\
  (r_eqb R x y = true <-> x = y) /\ (value x = value y <-> x = y) /\ (r_hash R x = r_hash R y <-> x = y).
Proof. exact (StorageClaims.storage_bits pw R value x y). Qed.
Print Assumptions C55_storage_bits.
Example C55_storage_bits_example :
  Storage 64 (prim_repr Debug 64 8 1) (fun x => x) /\
  r_ok (prim_repr Debug 64 8 1) 0x35 /\
  r_not (prim_repr Debug 64 8 1) 0x35 = Ret 0xCA /\
  Storage 16 (array_repr Release 16 2) words_value /\
  r_ok (array_repr Release 16 2) [5; 0xF0] /\
  r_ok (array_repr Release 16 2) [4; 0x0F] /\
  r_and_not (array_repr Release 16 2) [5; 0xF0] [4; 0x0F] = Ret [1; 0xF0] /\
  r_add_bit (array_repr Release 16 2) [5; 0xF0] 64 = Ret [5; 0xF1].
Proof. repeat split; try reflexivity; try (apply Storage_int; cbn; auto 6); try (apply Storage_words; lia); repeat constructor. Qed.

(** C55: counting set bits and zeros at both ends *)
Theorem C55_storage_counts pw R value x : pw = 16 \/ pw = 32 \/ pw = 64 -> Storage pw R value -> r_ok R x ->
  let bit i := N.testbit (value x) i in
  (exists n, r_count_ones R x = Ret n /\
     n = N.of_nat (length (filter (fun k => bit (N.of_nat k)) (seq 0 (N.to_nat (r_width R)))))) /\
  (exists n, r_leading_zeros R x = Ret n /\ n <= r_width R /\
     (forall i, r_width R - n <= i -> bit i = false) /\ (n = r_width R \/ bit (r_width R - n - 1) = true)) /\
  (exists n, r_trailing_zeros R x = Ret n /\ n <= r_width R /\
     (forall i, i < n -> bit i = false) /\ (n = r_width R \/ bit n = true)).
Proof. exact (StorageClaims.storage_counts pw R value x). Qed.
Print Assumptions C55_storage_counts.
Example C55_storage_counts_example :
  Storage 64 (prim_repr Debug 64 8 1) (fun x => x) /\
  r_ok (prim_repr Debug 64 8 1) 0x34 /\
  r_leading_zeros (prim_repr Debug 64 8 1) 0x34 = Ret 2 /\
  Storage 16 (array_repr Release 16 3) words_value /\
  r_ok (array_repr Release 16 3) [0; 0xF0; 0] /\
  r_count_ones (array_repr Release 16 3) [0; 0xF0; 0] = Ret 4 /\
  r_leading_zeros (array_repr Release 16 3) [0; 0xF0; 0] = Ret 120 /\
  r_trailing_zeros (array_repr Release 16 3) [0; 0xF0; 0] = Ret 68 /\
  r_trailing_zeros (array_repr Release 16 3) [0; 0; 0] = Ret 192.
Proof. repeat split; try reflexivity; try (apply Storage_int; cbn; auto 6); try (apply Storage_words; lia); repeat constructor. Qed.

(** C55: every interleaving of the calls on the iterator *)
Theorem C55_storage_iter pw R value x : pw = 16 \/ pw = 32 \/ pw = 64 -> Storage pw R value -> r_ok R x ->
  exists it l, r_iter R x = Ret it /\ StronglySorted N.lt l /\ (forall i, In i l <-> N.testbit (value x) i = true) /\
    forall ps, exists it', r_pops R ps it = Ret (fst (pops ps l), it') /\
      let k := N.of_nat (length (snd (pops ps l))) in
      (k < 2 ^ pw -> r_iter_size_hint R it' = Ret (k, Some k)).
Proof. exact (StorageClaims.storage_iter pw R value x). Qed.
Print Assumptions C55_storage_iter.
Example C55_storage_iter_example :
  Storage 16 (array_repr Release 16 3) words_value /\
  r_ok (array_repr Release 16 3) [2; 0; 0x81] /\
  (it <- r_iter (array_repr Release 16 3) [2; 0; 0x81] ;; '(os, _) <- r_pops (array_repr Release 16 3) [Back; Front; Front; Back] it ;; Ret os) = Ret [Some 135; Some 1; Some 128; None].
Proof. repeat split; try reflexivity; try (apply Storage_int; cbn; auto 6); try (apply Storage_words; lia); repeat constructor. Qed.

(** C55: conversions to and from integers and words *)
Theorem C55_storage_numbers pw R value x : pw = 16 \/ pw = 32 \/ pw = 64 -> Storage pw R value -> r_ok R x ->
  (forall t, let w := ity_bits pw t in
     r_to R t x = Ret (value x mod 2 ^ w) /\
     r_to_opt R t x = Ret (if value x <? 2 ^ w then Some (value x) else None) /\
     forall v, v < 2 ^ w ->
       gives_value value (r_from R t v) (v mod 2 ^ r_width R) /\
       gives_option value (r_from_opt R t v) (if v <? 2 ^ r_width R then Some v else None)) /\
  (forall k, exists l, length l = k /\ words_ok l /\ words_value l = value x mod 2 ^ (64 * N.of_nat k) /\
     let fits := value x <? 2 ^ (64 * N.of_nat k) in
     r_to_u64_array R x k = Ret l /\
     r_to_u64_array_opt R x k = Ret (if fits then Some l else None) /\
     forall out, length out = k ->
       r_to_u64_slice R x out = Ret l /\
       r_to_u64_slice_opt R x out = Ret (if fits then (Some tt, l) else (None, out))) /\
  (forall l, words_ok l ->
     gives_value value (r_from_u64_array R l) (words_value l mod 2 ^ r_width R) /\
     gives_value value (r_from_u64_slice R l) (words_value l mod 2 ^ r_width R) /\
     gives_option value (r_from_u64_array_opt R l) (if words_value l <? 2 ^ r_width R then Some (words_value l) else None) /\
     gives_option value (r_from_u64_slice_opt R l) (if words_value l <? 2 ^ r_width R then Some (words_value l) else None)).
Proof. exact (StorageClaims.storage_numbers pw R value x). Qed.
Print Assumptions C55_storage_numbers.
Example C55_storage_numbers_example :
  Storage 32 (prim_repr Debug 32 128 2) (fun x => x) /\
  r_ok (prim_repr Debug 32 128 2) 0x30000000000000001 /\
  r_to_u64_array (prim_repr Debug 32 128 2) 0x30000000000000001 3 = Ret [1; 3; 0] /\
  r_from_u64_slice_opt (prim_repr Debug 32 128 2) [1; 3; 0; 1] = Ret None /\
  words_ok [1; 3; 0; 1] /\
  Storage 16 (array_repr Release 16 2) words_value /\
  r_from (array_repr Release 16 2) U128 0x30000000000000001 = Ret [1; 3] /\
  r_to_u64_slice_opt (array_repr Release 16 2) [1; 3] [7] = Ret (None, [7]).
Proof. repeat split; try reflexivity; try (apply Storage_int; cbn; auto 6); try (apply Storage_words; lia); repeat constructor. Qed.

(** C68: the integers and the arrays of words meet the contract *)
Theorem C68_storages_lawful pw R value : pw = 16 \/ pw = 32 \/ pw = 64 -> Storage pw R value -> Lawful pw R value.
Proof. exact (LawfulClaims.storages_lawful pw R value). Qed.
Print Assumptions C68_storages_lawful.
Example C68_storages_lawful_example :
  Storage 64 (prim_repr Debug 64 8 1) (fun x => x) /\
  Storage 16 (array_repr Release 16 2) words_value.
Proof. split; [apply Storage_int; cbn; auto 6|apply Storage_words; lia]. Qed.

(** C68: the derive implements the trait, and sets made through the API only have bits of variants *)
Theorem C68_derive_implements pw inp T : Supported pw inp T ->
  exists value, Implements pw inp T value /\ forall s, Reachable pw inp T s -> proper inp value s.
Proof. exact (LawfulClaims.derive_implements pw inp T). Qed.
Print Assumptions C68_derive_implements.
Example C68_derive_implements_example :
  Supported 64 wide WideT /\
  Reachable 64 wide WideT wide_ac /\
  es_contains WideT wide_ac 2 = Ret true.
Proof. example. Qed.

(** C68: sets on any storage that meets the contract; the example stores the ascending list of the set bits *)
Theorem C68_any_storage_sets pw inp T value a b u : Implements pw inp T value -> proper inp value a -> proper inp value b -> variant inp u ->
  let has s v := N.testbit (value s) (discr inp v) in
  makes inp value (Ret (es_new T)) (fun _ => false) /\
  makes inp value (Ret (es_all T)) (fun _ => true) /\
  makes inp value (es_only T u) (fun v => (v =? u)%nat) /\
  es_contains T a u = Ret (has a u) /\
  (exists s, es_insert T a u = Ret (negb (has a u), s) /\ makes inp value (Ret s) (fun v => (v =? u)%nat || has a v)) /\
  (exists s, es_remove T a u = Ret (has a u, s) /\ makes inp value (Ret s) (fun v => negb (v =? u)%nat && has a v)) /\
  makes inp value (es_union T a b) (fun v => has a v || has b v) /\
  makes inp value (es_intersection T a b) (fun v => has a v && has b v) /\
  makes inp value (es_difference T a b) (fun v => has a v && negb (has b v)) /\
  makes inp value (es_symmetrical_difference T a b) (fun v => xorb (has a v) (has b v)) /\
  makes inp value (es_complement T a) (fun v => negb (has a v)) /\
  es_len T a = Ret (set_size inp (has a)) /\
  (es_is_empty T a = true <-> forall v, variant inp v -> has a v = false) /\
  (es_eq T a b = true <-> forall v, variant inp v -> has a v = has b v) /\
  (a = b <-> forall v, variant inp v -> has a v = has b v) /\
  (exists r, es_is_subset T a b = Ret r /\ (r = true <-> forall v, variant inp v -> has a v = true -> has b v = true)) /\
  (exists r, es_is_superset T a b = Ret r /\ (r = true <-> forall v, variant inp v -> has b v = true -> has a v = true)) /\
  (exists r, es_is_disjoint T a b = Ret r /\ (r = true <-> forall v, variant inp v -> has a v = true -> has b v = false)).
Proof. exact (LawfulClaims.any_storage_sets pw inp T value a b u). Qed.
Print Assumptions C68_any_storage_sets.
Example C68_any_storage_sets_example :
  Implements 64 wide SparseT list_value /\
  proper (T := SparseT) wide list_value sparse_ac /\
  proper (T := SparseT) wide list_value sparse_bc /\
  variant wide 3 /\
  es_insert SparseT sparse_ac 3 = Ret (true, [70; 71; 200]) /\
  es_union SparseT sparse_ac sparse_bc = Ret [3; 70; 200] /\
  es_symmetrical_difference SparseT sparse_ac sparse_bc = Ret [3; 200] /\
  es_complement SparseT sparse_ac = Ret [3; 71] /\
  es_len SparseT sparse_ac = Ret 2.
Proof. split; [exact sparse_implements|]. split; [exact sparse_ac_proper|]. split; [exact sparse_bc_proper|]. split; [vm_compute; lia|]. repeat split; vm_compute; reflexivity. Qed.

(** C68: iteration and conversions on any such storage *)
Theorem C68_any_storage_moves pw inp T value a : Implements pw inp T value -> proper inp value a ->
  let has s v := N.testbit (value s) (discr inp v) in
  (exists it l, es_iter T a = Ret it /\ lists_set inp (has a) l /\
     forall ps, exists it', es_pops T ps it = Ret (fst (pops ps l), it') /\
       let k := N.of_nat (length (snd (pops ps l))) in
       es_size_hint T it' = Ret (k, Some k) /\ es_iter_len T it' = Ret k) /\
  (forall t, es_try_as T t a = Ret (if value a <? 2 ^ ity_bits pw t then Some (value a) else None)) /\
  (forall t x, x < 2 ^ ity_bits pw t ->
     (only_variant_bits inp x -> exists s, es_try_from T t x = Ret (Some s) /\ makes inp value (Ret s) (bits_set inp x)) /\
     (~ only_variant_bits inp x -> es_try_from T t x = Ret None) /\
     makes inp value (es_from_truncated T t x) (bits_set inp x)) /\
  (exists l, es_to_vec T a = Ret l /\ words_ok l /\ words_value l = value a /\ es_try_from_slice T l = Ret (Some a)).
Proof. exact (LawfulClaims.any_storage_moves pw inp T value a). Qed.
Print Assumptions C68_any_storage_moves.
Example C68_any_storage_moves_example :
  Implements 64 wide SparseT list_value /\
  proper (T := SparseT) wide list_value sparse_ac /\
  es_collect SparseT sparse_ac = Ret [2; 0]%nat /\
  es_try_as SparseT U128 sparse_bc = Ret (Some 0x400000000000000008) /\
  es_try_as SparseT U128 sparse_ac = Ret None /\
  es_try_from SparseT U128 0x400000000000000008 = Ret (Some sparse_bc) /\
  es_try_from SparseT U8 1 = Ret None /\
  es_to_vec SparseT sparse_ac = Ret [0; 0x40; 0; 0x100].
Proof. split; [exact sparse_implements|]. split; [exact sparse_ac_proper|]. repeat split; vm_compute; reflexivity. Qed.


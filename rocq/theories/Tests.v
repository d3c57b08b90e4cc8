(** * The crate's own test suite, run on the model

    Every test of /repo/enumset/tests (ops.rs, conversions.rs, repr.rs, serde.rs)
    as a computation on the model. These are tests of the model against the
    expectations of the authors of the crate, not proofs of anything else. Not
    included: the two tests that only concern the Rust type system
    ([match_const_test]; the shadowed types in serde.rs). *)
From Verif Require Import Base Repr Syntax Derive EnumSet Macros Fmt Serde Bincode Json Examples.

(** The test passes: it neither panics nor fails an assertion. *)
Definition passes (m : M bool) : bool := match m with Ret true => true | _ => false end.
(** [#[should_panic]] *)
Definition panics {A} (m : M A) : bool := match m with Panic _ => true | _ => false end.
Notation "m ;;& f" := (b <- m ;; if b then f else Ret false) (at level 61, right associativity).

Definition option_eqb {A} (eqb : A -> A -> bool) (a b : option A) : bool :=
  match a, b with Some x, Some y => eqb x y | None, None => true | _, _ => false end.
Fixpoint list_eqb {A} (eqb : A -> A -> bool) (a b : list A) : bool :=
  match a, b with
  | [], [] => true
  | x :: a, y :: b => eqb x y && list_eqb eqb a b
  | _, _ => false
  end.

Section Generic.
Context (T : EnumTy).

(** [a | b | c]: an operator on variants and then on sets *)
Definition or_all (l : list nat) : M (eset T) :=
  match l with
  | [] => Ret (es_new T)
  | [u] => es_from T u
  | u :: v :: rest => s <- var_bitor T u (OVar v) ;; for_each rest s (fun v s => es_bitor T s (OVar v))
  end.
(** [assert_eq!(s, a | b | c)] *)
Definition is_set (s : eset T) (l : list nat) : M bool := x <- or_all l ;; Ret (es_eq T s x).
Definition gives (m : M (eset T)) (l : list nat) : M bool := s <- m ;; is_set s l.
Definition some_is (m : M (option (eset T))) (l : list nat) : M bool :=
  o <- m ;; match o with Some s => is_set s l | None => Ret false end.
Definition is_none {A} (m : M (option A)) : M bool := o <- m ;; Ret (match o with None => true | _ => false end).
Definition insert_ (s : eset T) (v : nat) : M (eset T) := '(_, s) <- es_insert T s v ;; Ret s.
Definition remove_ (s : eset T) (v : nat) : M (eset T) := '(_, s) <- es_remove T s v ;; Ret s.
End Generic.

(** ** ops.rs *)
Section Ops.
Context (T : EnumTy) (name : nat -> string) (mem_size : N).
(** The variants A .. H of the tested enum. *)
Context (A B C D E F G H : nat).
Notation set_of := (or_all T).
Notation "s == l" := (is_set T s l) (at level 50).

(** ops.rs:104-118  [test_variants!], for all variants *)
Definition t_all_empty : M bool :=
  for_each (seq 0 (length (et_variants T))) true (fun v b =>
    e <- es_contains T (es_empty T) v ;; a <- es_contains T (es_all T) v ;; Ret (b && negb e && a)).

Definition const_set := mc_enum_set T [OVar A; OVar C].
Definition const_set_chain := s <- const_set ;; mc_enum_set T [OSet s; OVar D].
Definition const_set_chain_2 := s <- const_set ;; mc_enum_set T [OVar E; OSet s].

(** ops.rs:140-170 *)
Definition t_const_set : M bool :=
  s <- const_set ;; c <- const_set_chain ;; c2 <- const_set_chain_2 ;;
  s == [A; C] ;;&
  gives T (mc_enum_set T [OVar A]) [A] ;;&
  c == [A; C; D] ;;&
  c2 == [A; C; E] ;;&
  gives T (mc_enum_set T [OSet c; OSet c2]) [A; C; D; E] ;;&
  gives T (mc_union T (OSet c) [OSet c2]) [A; C; D; E] ;;&
  gives T (mc_intersection T (OSet c) [OSet c2]) [A; C] ;;&
  (x <- mc_complement T (OSet s) ;; ac <- set_of [A; C] ;; y <- es_not T ac ;; Ret (es_eq T x y)) ;;&
  gives T (mc_symmetric_difference T (OSet c) [OSet c2]) [D; E] ;;&
  Ret (es_is_empty T (es_empty T)) ;;&
  (n <- es_len T (es_all T) ;; Ret (n =? es_variant_count T)) ;;&
  Ret (es_eq T (es_all T) (es_all T)).

(** ops.rs:172-190 *)
Definition t_basic_add_remove : M bool :=
  s <- insert_ T (es_new T) A ;; s <- insert_ T s B ;; s <- insert_ T s C ;;
  s == [A; B; C] ;;&
  s <- remove_ T s B ;;
  s == [A; C] ;;&
  s <- insert_ T s D ;;
  s == [A; C; D] ;;&
  x <- set_of [F; E; G] ;; s <- es_insert_all T s x ;;
  s == [A; C; D; F; E; G] ;;&
  x <- set_of [A; D; G] ;; s <- es_remove_all T s x ;;
  s == [C; F; E] ;;&
  Ret (negb (es_is_empty T s)) ;;&
  Ret (es_is_empty T (es_clear T s)).

(** ops.rs:192-199 *)
Definition t_already_present : M bool :=
  '(b, s) <- es_insert T (es_new T) A ;; '(c, s) <- es_insert T s A ;; s <- remove_ T s A ;;
  '(d, _) <- es_insert T s A ;; Ret (b && negb c && d).

(** ops.rs:201-209 *)
Definition t_lens : M bool :=
  n <- es_len T (es_empty T) ;; m <- es_len T (es_all T) ;; Ret ((n =? 0) && (m =? es_variant_count T)).

(** ops.rs:211-248: the loops [for val in .. { assert!(!s.contains(val)); s.insert(val) }] *)
Definition rebuild (vs : list nat) : M (bool * eset T) :=
  for_each vs (true, es_new T) (fun v '(b, s) => c <- es_contains T s v ;; s <- insert_ T s v ;; Ret (b && negb c, s)).
Definition rebuilt (s : eset T) (vs : list nat) : M bool := '(b, s') <- rebuild vs ;; Ret (b && es_eq T s s').
Definition t_iter : M bool :=
  s <- insert_ T (es_new T) A ;; s <- insert_ T s B ;;
  x <- set_of [C; E] ;; items <- es_collect T x ;; s <- es_extend T s items ;;
  vs <- es_collect T s ;;
  rebuilt s vs ;;&
  singles <- for_each vs [] (fun v l => o <- es_only T v ;; Ret (l ++ [o])) ;;
  s4 <- es_from_iter_sets T singles ;; vs4 <- es_collect T s4 ;;
  rebuilt s vs4 ;;&
  s5 <- es_from_iter T vs ;; vs5 <- es_collect T s5 ;;
  rebuilt s vs5.

(** ops.rs:250-255 *)
Definition t_empty_iter : M bool := vs <- es_collect T (es_new T) ;; Ret (list_eqb Nat.eqb vs []).

(** ops.rs:257-270 *)
Definition t_iter_ordering : M bool :=
  s <- set_of [A; B; E] ;; v <- es_collect T s ;; r <- es_collect_rev T s ;;
  s' <- set_of [B; C; D; G] ;; v' <- es_collect T s' ;; r' <- es_collect_rev T s' ;;
  Ret (list_eqb Nat.eqb v [A; B; E] && list_eqb Nat.eqb r [E; B; A] &&
       list_eqb Nat.eqb v' [B; C; D; G] && list_eqb Nat.eqb r' [G; D; C; B]).

(** ops.rs:272-308 *)
Definition check_hint (it : es_iter_t T) (n : N) : M bool :=
  '(lo, hi) <- es_size_hint T it ;; l <- es_iter_len T it ;; Ret ((lo =? n) && option_eqb N.eqb hi (Some n) && (l =? n)).
Definition check_size_hint (next : es_iter_t T -> M (option nat * es_iter_t T)) (s : eset T) : M bool :=
  count <- es_len T s ;; it <- es_iter T s ;;
  '(b, it) <- for_each (seq 0 (N.to_nat count)) (true, it) (fun idx '(b, it) =>
     h <- check_hint it (count - N.of_nat idx) ;; '(o, it) <- next it ;;
     Ret (b && h && (match o with Some _ => true | None => false end), it)) ;;
  h <- check_hint it 0 ;; Ret (b && h).
Definition t_size_hint : M bool :=
  s <- set_of [A; C; E] ;;
  check_size_hint (es_next T) (es_new T) ;;& check_size_hint (es_next_back T) (es_new T) ;;&
  check_size_hint (es_next T) (es_all T) ;;& check_size_hint (es_next_back T) (es_all T) ;;&
  check_size_hint (es_next T) s ;;& check_size_hint (es_next_back T) s.

(** ops.rs:310-315 *)
Definition t_iter_ops : M bool :=
  s <- set_of [A; B; C; E] ;; vs <- es_collect T s ;;
  kept <- for_each vs [] (fun v l => b <- enum_eq T v B ;; Ret (if b then l else l ++ [v])) ;;
  gives T (es_from_iter T kept) [A; C; E].

(** ops.rs:317-324 *)
Definition t_basic_ops : M bool :=
  ab <- set_of [A; B] ;; bc <- set_of [B; C] ;;
  gives T (es_bitor T ab (OSet bc)) [A; B; C] ;;&
  gives T (es_bitand T ab (OSet bc)) [B] ;;&
  gives T (es_bitxor T ab (OSet bc)) [A; C] ;;&
  gives T (es_sub T ab (OSet bc)) [A] ;;&
  na <- var_not T A ;; x <- var_bitor T A (OSet na) ;; Ret (es_eq T x (es_all T)).

(** ops.rs:326-338 *)
Definition t_mutable_ops : M bool :=
  s <- set_of [A; B] ;;
  s == [A; B] ;;&
  cd <- set_of [C; D] ;; s <- es_bitor_assign T s (OSet cd) ;;
  s == [A; B; C; D] ;;&
  s <- es_sub_assign T s (OVar C) ;;
  s == [A; B; D] ;;&
  be <- set_of [B; E] ;; s <- es_bitxor_assign T s (OSet be) ;;
  s == [A; D; E] ;;&
  aef <- set_of [A; E; F] ;; s <- es_bitand_assign T s (OSet aef) ;;
  s == [A; E].

(** ops.rs:340-346 *)
Definition t_status : M bool :=
  abc <- set_of [A; B; C] ;; def <- set_of [D; E; F] ;; abcd <- set_of [A; B; C; D] ;; ab <- set_of [A; B] ;;
  ad <- set_of [A; D] ;;
  w <- es_is_disjoint T abc def ;; x <- es_is_disjoint T abcd def ;;
  y <- es_is_subset T ab abc ;; z <- es_is_subset T ad abc ;;
  Ret (w && negb x && y && negb z).

(** ops.rs:348-351 *)
Definition t_debug : M bool :=
  s <- set_of [A; B; D] ;;
  '(ok, w) <- fmt_debug T put_text (fun v => put_text (name v)) s ""%string ;;
  Ret (ok && (w =? "EnumSet(A | B | D)")%string).

(** ops.rs:353-371 *)
Definition t_to_from_bits : M bool :=
  s <- set_of [A; C; D; F; E; G] ;;
  let trip t := x <- es_as T t s ;; s' <- es_from_num T t x ;; Ret (es_eq T s s') in
  let within t n : M bool := if es_bit_width T <? n then trip t else Ret true in
  within U128 128 ;;& within U64 64 ;;& within U32 32 ;;& within U16 16 ;;& within U8 8.

(** ops.rs:373-380  [from_u128(!0)] panics unless there are 128 variants *)
Definition t_too_many_bits : bool :=
  (es_variant_count T =? 128) || panics (es_from_num T U128 (2 ^ 128 - 1)).

(** ops.rs:390-433: two sets are the same key of a hash or tree set exactly when
    they are equal; the tests need the five constants to be told apart by [Eq],
    by what they feed to the hasher, and by [Ord]. *)
Definition t_set_test : M bool :=
  consts <- for_each [C; D; E; F; G] [] (fun v l => s <- mc_enum_set T [OVar A; OVar B; OVar v] ;; Ret (l ++ [s])) ;;
  Ret (forallb (fun i => forallb (fun j =>
         let x := nth i consts (es_new T) in let y := nth j consts (es_new T) in
         let same := Nat.eqb i j in
         Bool.eqb (es_eq T x y) same &&
         Bool.eqb (match es_cmp T x y with Eq => true | _ => false end) same &&
         Bool.eqb (match es_partial_cmp T x y with Some Eq => true | _ => false end) same)
       (seq 0 5)) (seq 0 5)).

(** ops.rs:435-450 *)
Definition t_sum : M bool :=
  ab <- set_of [A; B] ;; de <- set_of [D; E] ;; gh <- set_of [G; H] ;;
  gives T (es_sum_sets T [ab; de; gh]) [A; B; D; E; G; H] ;;&
  gives T (es_sum T [A; B; D; E; G; H]) [A; B; D; E; G; H].

(** ops.rs:452-455 *)
Definition t_check_size : M bool := Ret (r_width (et_repr T) / 8 =? mem_size).

(** ops.rs:139-457  [test_enum!] *)
Definition test_enum : list bool :=
  map passes [t_const_set; t_basic_add_remove; t_already_present; t_lens; t_iter; t_empty_iter; t_iter_ordering;
              t_size_hint; t_iter_ops; t_basic_ops; t_mutable_ops; t_status; t_debug; t_to_from_bits; t_set_test;
              t_sum; t_check_size; t_all_empty] ++ [t_too_many_bits].
End Ops.

(** ** The enums of ops.rs *)
Definition letters : list string :=
  ["A"; "B"; "C"; "D"; "E"; "F"; "G"; "H"; "I"; "J"; "K"; "L"; "M"; "N"; "O"; "P"; "Q"; "R"; "S"; "T"; "U"; "V";
   "W"; "X"; "Y"; "Z"]%string.
Definition implicit (l : list string) : list (string * option N) := map (fun s => (s, None)) l.
(** Distinct names for the numbered variants. *)
Fixpoint marks (k : nat) : string := match k with O => "_" | S k => String.append "_" (marks k) end%string.
Definition numbered (k n : nat) : list string := map marks (seq k n).
Definition repr_attr (s : string) : attrs := MkAttrs (Some s) None false false false.
Definition ser_attr (s : string) (deny : bool) : attrs := MkAttrs None (Some s) deny false false.
Definition with_rust_repr (r : string) (i : derive_input) : derive_input :=
  MkInput (in_generic i) (in_is_enum i) [Some r] (in_attrs i) (in_variants i).

Definition a_to_h : list string := firstn 8 letters.
Definition e_small : list (string * option N) := implicit letters.
Definition e_large : list (string * option N) := implicit (numbered 0 64 ++ letters).
Definition e_8 : list (string * option N) := implicit a_to_h.
Definition e_128 : list (string * option N) := implicit (a_to_h ++ numbered 0 120).
Definition spread (l : list N) : list (string * option N) := combine a_to_h (map Some l).
Definition e_sparse : list (string * option N) := spread [0xA; 20; 30; 40; 50; 60; 70; 80].
Definition e_giant : list (string * option N) := spread [100; 200; 300; 400; 500; 600; 700; 800].
Definition marginal (l : list (string * option N)) (n : N) : list (string * option N) := l ++ [("Marginal"%string, Some n)].
Definition from_64 : list (string * option N) := ("A"%string, Some 64) :: implicit (tl a_to_h).

(** The tests with the eight variants from number [k] on. *)
Definition run_tests (md : build) (i : derive_input) (vs : list (string * option N)) (k : nat) (size : N) : bool :=
  succeeds (derive md 64 i) &&
  forallb (fun b => b)
    (test_enum (derived (derive md 64 i)) (names vs) size k (k + 1) (k + 2) (k + 3) (k + 4) (k + 5) (k + 6) (k + 7))%nat.

Definition ops_rs (md : build) : list bool :=
  [ run_tests md (enum_of plain_attrs e_small) e_small 0 4;
    run_tests md (enum_of (repr_attr "u128") e_large) e_large 64 16;
    run_tests md (enum_of plain_attrs e_8) e_8 0 1;
    run_tests md (enum_of plain_attrs e_128) e_128 0 16;
    run_tests md (enum_of plain_attrs e_sparse) e_sparse 0 16;
    run_tests md (with_rust_repr "u32" (enum_of plain_attrs e_small)) e_small 0 4;
    run_tests md (with_rust_repr "u64" (enum_of plain_attrs e_small)) e_small 0 4;
    run_tests md (with_rust_repr "isize" (enum_of plain_attrs e_small)) e_small 0 4;
    run_tests md (with_rust_repr "C" (enum_of plain_attrs e_small)) e_small 0 4;
    run_tests md (enum_of plain_attrs e_giant) e_giant 0 104;
    run_tests md (enum_of (repr_attr "array") e_8) e_8 0 8;
    run_tests md (enum_of (repr_attr "array") (marginal e_8 64)) (marginal e_8 64) 0 16;
    run_tests md (enum_of (repr_attr "array") (marginal from_64 127)) (marginal from_64 127) 0 16;
    run_tests md (enum_of (repr_attr "array") (marginal e_8 128)) (marginal e_8 128) 0 24 ]%nat.
Example ops_rs_pass : forall md, ops_rs md = repeat true 14.
Proof. intros []; vm_compute; reflexivity. Qed.

(** *** ops.rs:478-550  [ThresholdEnum]: A = 1, B, C, D, U8 = 0, U16 = 8, .. *)
Definition threshold : derive_input :=
  enum_of plain_attrs [("A", Some 1); ("B", None); ("C", None); ("D", None); ("U8", Some 0); ("U16", Some 8);
                       ("U32", Some 16); ("U64", Some 32); ("U128", Some 64)]%string.
Definition bits_tests (md : build) (t : ity) (limit : nat) (too_big : list nat) : bool :=
  let T := derived (derive md 64 threshold) in
  let basic l := s <- or_all T l ;; x <- es_as T t s ;; s' <- es_from_num T t x ;; y <- es_as_truncated T t s ;;
                 z <- es_try_as T t s ;; Ret (es_eq T s s' && (x =? y) && option_eqb N.eqb z (Some x)) in
  passes (basic [limit; 1; 2; 3]%nat) && passes (basic [limit; 0; 3]%nat) && passes (basic [limit; 1; 2]%nat) &&
  panics (es_from_num T t 0x80) &&
  passes (is_none (es_try_from T t 0xFF)) &&
  forallb (fun v => passes (s <- es_from T v ;; is_none (es_try_as T t s))) too_big &&
  passes (gives T (es_from_truncated T t 0xFE) [0; 1; 2; 3]%nat) &&
  forallb (fun v => passes (s <- or_all T [v; 0]%nat ;; x <- es_as_truncated T t s ;; Ret (x =? 2))) too_big.
Example bits_tests_pass : forall md,
  [ bits_tests md U8 4 [5]; bits_tests md U16 5 [6]; bits_tests md U32 6 [7]; bits_tests md U64 7 [8];
    bits_tests md U128 8 []; bits_tests md Usize 6 [8] ]%nat = repeat true 6.
Proof. intros []; vm_compute; reflexivity. Qed.

(** ops.rs:552-561 *)
Example display_test : forall md,
  let T := derived (derive md 64 (enum_of plain_attrs e_8)) in
  (s <- or_all T [0; 3; 7]%nat ;; fmt_display T put_text (fun v => put_text (names e_8 v)) s ""%string)
  = Ret (true, "A | D | H"%string).
Proof. intros []; vm_compute; reflexivity. Qed.

(** ** repr.rs *)
Example repr_rs_pass : forall md,
  let T := derived (derive md 64 (enum_of (repr_attr "u16") e_8)) in
  et_with_repr T = true /\
  passes (x <- es_as_truncated T U16 (es_as_repr T (es_all T)) ;; Ret (x =? 255)) = true /\
  passes (s <- or_all T [1; 5]%nat ;; x <- es_as_truncated T U16 (es_as_repr T s) ;;
          Ret ((x =? 0x22) && es_eq T s (es_from_repr_unchecked T (es_as_repr T s)))) = true.
Proof. intros []; vm_compute; auto. Qed.

(** ** conversions.rs *)
Section Conversions.
Context (T : EnumTy).
Notation abc := (or_all T [0; 1; 2]%nat).
Notation efg := (or_all T [4; 5; 6]%nat).
Definition all_ity : list ity := [U8; U16; U32; U64; U128; Usize].
(** The invalid bit used for each type: the highest one, bit 31 for usize. *)
Definition bad (t : ity) : N :=
  N.lor 7 (2 ^ (match t with U8 => 7 | U16 => 15 | U32 => 31 | U64 => 63 | U128 => 127 | Usize => 31 end)).
Definition words_are (m : M (list N)) (l : list N) : M bool := x <- m ;; Ret (list_eqb N.eqb x l).
Definition pad (k : nat) : list N := 7 :: repeat 0 (k - 1).

(** conversions.rs:67-302  [check_simple_conversion!] *)
Definition simple_conversions : list bool :=
  map (fun t => passes (s <- abc ;; x <- es_as T t s ;; Ret (x =? 7))) all_ity ++
  [passes (some_is T (es_try_from T U8 7) [0; 1; 2]%nat)] ++
  map (fun t => passes (is_none (es_try_from T t (bad t)))) all_ity ++
  [passes (gives T (es_from_truncated T U8 7) [0; 1; 2]%nat)] ++
  map (fun t => passes (gives T (es_from_truncated T t (bad t)) [0; 1; 2]%nat)) all_ity ++
  [passes (s <- abc ;; words_are (es_as_array_truncated T s 0) []);
   passes (words_are (es_as_array_truncated T (es_empty T) 0) [])] ++
  map (fun k => passes (s <- abc ;; words_are (es_as_array T s k) (pad k))) [1; 2; 3; 4; 5]%nat ++
  map (fun k => passes (s <- abc ;; words_are (es_copy_into_slice T s (repeat 0 k)) (pad k))) [1; 2; 3; 4; 5]%nat ++
  map (fun k => passes (s <- abc ;; words_are (es_copy_into_slice_truncated T s (repeat 0 k)) (pad k))) [1; 2; 3; 4; 5]%nat ++
  [passes (gives T (es_from_array T []) []); passes (gives T (es_from_slice T []) [])] ++
  map (fun k => passes (gives T (es_from_array T (pad k)) [0; 1; 2]%nat)) [1; 3; 4; 5]%nat ++
  map (fun k => passes (gives T (es_from_slice T (pad k)) [0; 1; 2]%nat)) [1; 3; 4; 5]%nat ++
  [passes (gives T (es_from_array_truncated T []) []); passes (gives T (es_from_slice_truncated T []) [])] ++
  map (fun l => passes (gives T (es_from_array_truncated T l) [0; 1; 2]%nat) &&
                passes (gives T (es_from_slice_truncated T l) [0; 1; 2]%nat))
      [[N.lor 7 (2 ^ 31)]; [7; 0; 16]; [7; 0; 0; 16]; [7; 0; 0; 0; 16]] ++
  map (fun t => panics (es_from_num T t (bad t))) all_ity ++
  [panics (s <- abc ;; es_as_array T s 0); panics (s <- abc ;; es_copy_into_slice T s [])] ++
  map (fun l => panics (es_from_array T l) && panics (es_from_slice T l))
      [[N.lor 7 (2 ^ 63); 0; 0; 0]; [7; 0; 0; 0; 1]].

(** conversions.rs:304-338  [check_oversized_64!] *)
Definition oversized_64 : list bool :=
  [passes (s <- abc ;; x <- es_try_as T U64 s ;; Ret (option_eqb N.eqb x (Some 7)));
   passes (s <- abc ;; x <- es_try_as_array T s 1 ;; Ret (option_eqb (list_eqb N.eqb) x (Some [7])));
   passes (s <- abc ;; '(o, l) <- es_try_copy_into_slice T s [0] ;;
           Ret (match o with Some _ => list_eqb N.eqb l [7] | None => false end));
   passes (s <- efg ;; is_none (es_try_as T U64 s));
   passes (s <- efg ;; is_none (es_try_as_array T s 1));
   passes (s <- efg ;; '(o, _) <- es_try_copy_into_slice T s [0] ;; Ret (match o with None => true | _ => false end));
   passes (s <- efg ;; x <- es_as_truncated T U64 s ;; Ret (x =? 0));
   passes (s <- efg ;; words_are (es_as_array_truncated T s 1) [0]);
   passes (s <- efg ;; words_are (es_copy_into_slice_truncated T s [0]) [0]);
   panics (s <- efg ;; es_as T U64 s)].

(** conversions.rs:340-362  [check_oversized_128!] *)
Definition oversized_128 : list bool :=
  [passes (s <- abc ;; x <- es_try_as T U128 s ;; Ret (option_eqb N.eqb x (Some 7)));
   passes (s <- efg ;; is_none (es_try_as T U128 s));
   passes (s <- efg ;; x <- es_as_truncated T U128 s ;; Ret (x =? 0));
   panics (s <- efg ;; es_as T U128 s)].
End Conversions.

Definition gap_enum (n : N) : derive_input :=
  enum_of plain_attrs [("A", None); ("B", None); ("C", None); ("D", None); ("E", Some n); ("F", None); ("G", None);
                       ("H", None)]%string.
Definition gap_ty (md : build) (n : N) : EnumTy := derived (derive md 64 (gap_enum n)).
Definition passed (l : list bool) : bool := forallb (fun b => b) l.
Example conversions_rs_pass : forall md,
  passed (simple_conversions (derived (derive md 64 (enum_of plain_attrs (implicit (firstn 7 letters)))))) = true /\
  map (fun n => passed (simple_conversions (gap_ty md n))) [8; 16; 32; 64; 128; 192] = repeat true 6 /\
  map (fun n => passed (oversized_64 (gap_ty md n))) [64; 128; 192] = repeat true 3 /\
  map (fun n => passed (oversized_128 (gap_ty md n))) [128; 192] = repeat true 2.
Proof. intros []; vm_compute; auto. Qed.

(** ** serde.rs *)

(** What reading back the recorded events hands out. *)
Definition ev_ints (es : list sevent) (t : ity) : result N de_error :=
  match es with [EvInt _ x] => Ok x | _ => Err (DeInput 0) end.
Definition ev_elems (es : list sevent) : list (result nat de_error) :=
  fold_right (fun e l => match e with EvElem v => Ok v :: l | _ => l end) [] es.
Definition ev_entries (es : list sevent) : list (result (nat * bool) de_error) :=
  fold_right (fun e l => match e with EvEntry v b => Ok (v, b) :: l | _ => l end) [] es.
Definition ev_limbs (es : list sevent) : list (result N de_error) :=
  fold_right (fun e l => match e with EvLimb x => Ok x :: l | _ => l end) [] es.
Definition replay (es : list sevent) : de_source :=
  Build_de_source (ev_ints es) (Ok (ev_elems es)) (Ok (ev_entries es)) (Ok (ev_limbs es)).

(** serde.rs:50-85  [serde_test_simple!], for the values listed there *)
Definition serde_simple (T : EnumTy) : bool :=
  forallb (fun l =>
    passes (v <- mc_enum_set T (map OVar l) ;;
            '(ok, es) <- es_serialize T record_event v [] ;;
            r <- es_deserialize T (replay es) ;;
            Ret (ok && match r with Ok v' => es_eq T v v' | Err _ => false end)))
    [[]; [0; 2; 3; 5; 4; 6]; [0]; [7]; [0; 1]; [0; 1; 2; 3]; [0; 1; 2; 3; 5; 6; 7]; [6; 7]; [4; 5; 6; 7]]%nat.
(** [serialize_deserialize_test_bincode], with the size of the bytes if it is given *)
Definition bincode_simple (T : EnumTy) (size : option nat) : bool :=
  forallb (fun l =>
    passes (v <- mc_enum_set T (map OVar l) ;;
            '(ok, bytes) <- bin_serialize T v ;;
            r <- bin_deserialize T bytes ;;
            Ret (ok && match r with Ok v' => es_eq T v v' | Err _ => false end &&
                 match size with Some n => Nat.eqb (length bytes) n | None => true end)))
    [[]; [0; 2; 3; 5; 4; 6]; [0]; [7]; [0; 1]; [0; 1; 2; 3]; [0; 1; 2; 3; 5; 6; 7]; [6; 7]; [4; 5; 6; 7]]%nat.
Definition from_str (T : EnumTy) (text : string) : M (result (eset T) de_error) := json_deserialize a_to_h Some T text.
(** [serialize_deserialize_test_json] *)
Definition json_simple (T : EnumTy) : bool :=
  forallb (fun l =>
    passes (v <- mc_enum_set T (map OVar l) ;;
            '(ok, text) <- json_serialize a_to_h T v ;;
            r <- from_str T text ;;
            Ret (ok && match r with Ok v' => es_eq T v v' | Err _ => false end)))
    [[]; [0; 2; 3; 5; 4; 6]; [0]; [7]; [0; 1]; [0; 1; 2; 3]; [0; 1; 2; 3; 5; 6; 7]; [6; 7]; [4; 5; 6; 7]]%nat.
Definition json (T : EnumTy) (l : list nat) : M (bool * string) :=
  s <- or_all T l ;; json_serialize a_to_h T s.
Definition json_reads (T : EnumTy) (text : string) (l : list nat) : bool :=
  passes (r <- from_str T text ;; match r with Ok s => is_set T s l | Err _ => Ret false end).
Definition ser_enum (a : attrs) : derive_input := enum_of a e_8.
Definition ser_ty (md : build) (s : string) (deny : bool) : EnumTy := derived (derive md 64 (ser_enum (ser_attr s deny))).
Definition reads (T : EnumTy) (src : de_source) (l : list nat) : bool :=
  passes (r <- es_deserialize T src ;; match r with Ok s => is_set T s l | Err _ => Ret false end).
Definition writes (T : EnumTy) (l : list nat) (es : list sevent) : Prop :=
  (s <- or_all T l ;; es_serialize T record_event s []) = Ret (true, es).
Example serde_rs_pass : forall md,
  (* serialize_deserialize_test *)
  passed [serde_simple (ser_ty md "list" false); serde_simple (ser_ty md "map" false);
          serde_simple (ser_ty md "array" false); serde_simple (gap_ty md 200);
          serde_simple (ser_ty md "u128" false); serde_simple (ser_ty md "u128" true)] = true /\
  passed [bincode_simple (ser_ty md "list" false) None; bincode_simple (ser_ty md "map" false) None;
          bincode_simple (ser_ty md "array" false) None; bincode_simple (gap_ty md 200) None;
          bincode_simple (ser_ty md "u128" false) (Some 16%nat); bincode_simple (ser_ty md "u128" true) (Some 16%nat)] = true /\
  passed [json_simple (ser_ty md "list" false); json_simple (ser_ty md "map" false);
          json_simple (ser_ty md "array" false); json_simple (gap_ty md 200);
          json_simple (ser_ty md "u128" false); json_simple (ser_ty md "u128" true)] = true /\
  (* deserialize_all_test *)
  reads (ser_ty md "u128" false) (bin_source (ser_ty md "u128" false) (repeat 255 16%nat)) [0; 1; 2; 3; 4; 5; 6; 7]%nat = true /\
  reads (ser_ty md "u128" false) (Build_de_source (fun _ => Ok (2 ^ 128 - 1)) (Ok []) (Ok []) (Ok []))
        [0; 1; 2; 3; 4; 5; 6; 7]%nat = true /\
  (* test_deny_unknown *)
  es_deserialize (ser_ty md "u128" true) (Build_de_source (fun _ => Ok (2 ^ 128 - 1)) (Ok []) (Ok []) (Ok []))
    = Ret (Err (DeCustom "enumset contains unknown bits")) /\
  es_deserialize (ser_ty md "u128" true) (bin_source (ser_ty md "u128" true) (repeat 255 16%nat))
    = Ret (Err (DeCustom "enumset contains unknown bits")) /\
  (* test_json_reprs_basic *)
  json_reads (ser_ty md "list" false) "[""A"",""C"",""F""]" [0; 2; 5]%nat = true /\
  json_reads (ser_ty md "map" false) "{""A"":true,""C"":true,""F"":true}" [0; 2; 5]%nat = true /\
  json_reads (ser_ty md "u128" false) "13" [0; 2; 3]%nat = true /\
  writes (ser_ty md "list" false) [0; 2; 5]%nat [EvSeq 3; EvElem 0; EvElem 2; EvElem 5; EvSeqEnd] /\
  writes (ser_ty md "map" false) [0; 2; 5]%nat [EvMap 3; EvEntry 0 true; EvEntry 2 true; EvEntry 5 true; EvMapEnd] /\
  writes (ser_ty md "u128" false) [0; 2; 3]%nat [EvInt U128 13] /\
  json (ser_ty md "list" false) [0; 2; 5]%nat = Ret (true, "[""A"",""C"",""F""]"%string) /\
  json (ser_ty md "map" false) [0; 2; 5]%nat = Ret (true, "{""A"":true,""C"":true,""F"":true}"%string) /\
  json (ser_ty md "u128" false) [0; 2; 3]%nat = Ret (true, "13"%string) /\
  (* test_json_reprs_edge_cases *)
  json_reads (ser_ty md "map" false) "{""D"":false,""A"":true,""E"":false,""C"":true,""F"":true}" [0; 2; 5]%nat = true /\
  json_reads (gap_ty md 200) "[15]" [0; 1; 2; 3]%nat = true.
Proof. intros []; vm_compute; repeat split; reflexivity. Qed.

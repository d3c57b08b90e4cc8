(** * The examples in the crate's documentation, run on the model

    lib.rs:23-87 and 169-196, macros.rs:27-197, set.rs:87-113. Like Tests.v these
    test the model against the expectations of the authors of the crate. Not
    included: the example that must not compile because of a type error. *)
From Verif Require Import Base Repr Syntax Derive EnumSet Macros Examples Tests.

Definition letters_enum (md : build) (n : nat) : EnumTy :=
  derived (derive md 64 (enum_of plain_attrs (implicit (firstn n letters)))).

(** lib.rs:23-87 *)
Definition lib_rs (T : EnumTy) : list bool :=
  let A := 0%nat in let B := 1%nat in let C := 2%nat in let D := 3%nat in let E := 4%nat in let F := 5%nat in let G := 6%nat in
  [ passes (s <- or_all T [A; C; G] ;; n <- es_len T s ;; Ret (n =? 3));
    passes (gives T (s <- or_all T [A; B] ;; es_bitand T s (OVar C)) []);
    passes (gives T (s <- or_all T [A; B] ;; es_bitand T s (OVar A)) [A]);
    passes (gives T (var_bitand T A (OVar B)) []);
    passes (gives T (s <- or_all T [A; B] ;; s' <- or_all T [B; C] ;; es_bitxor T s (OSet s')) [A; C]);
    passes (gives T (var_bitxor T A (OVar C)) [A; C]);
    passes (gives T (s <- or_all T [A; B; C] ;; es_sub T s (OVar B)) [A; C]);
    passes (gives T (s <- or_all T [E; G] ;; es_not T s) [A; B; C; D; F]);
    passes (gives T (mc_enum_set T [OVar A; OVar B]) [A; B]);
    passes (s <- insert_ T (es_new T) A ;; eg <- or_all T [E; G] ;; s <- es_insert_all T s eg ;;
            a <- es_contains T s A ;; b <- es_contains T s B ;; ok <- is_set T s [A; E; G] ;; Ret (a && negb b && ok)) ].
Example lib_rs_pass : forall md, lib_rs (letters_enum md 7) = repeat true 10.
Proof. intros []; vm_compute; reflexivity. Qed.

(** macros.rs:27-197; the examples of [enum_set_difference!] and
    [enum_set_symmetric_difference!] use each other's macro *)
Definition macros_rs (T : EnumTy) : list bool :=
  let A := 0%nat in let B := 1%nat in let C := 2%nat in let D := 3%nat in
  [ passes (gives T (mc_enum_set T [OVar A; OVar B]) [A; B]);
    passes (gives T (mc_union T (OVar A) [OVar B]) [A; B]);
    passes (gives T (a <- mc_enum_set T [OVar A; OVar B] ;; b <- mc_enum_set T [OVar B; OVar C] ;;
                     mc_intersection T (OSet a) [OSet b]) [B]);
    passes (gives T (s <- mc_enum_set T [OVar B; OVar C] ;; mc_complement T (OSet s)) [A; D]);
    passes (gives T (a <- mc_enum_set T [OVar A; OVar B; OVar D] ;; b <- mc_enum_set T [OVar B; OVar C] ;;
                     mc_symmetric_difference T (OSet a) [OSet b]) [A; C; D]);
    passes (gives T (b <- mc_enum_set T [OVar B; OVar C] ;; mc_difference T (OSet (es_all T)) [OSet b]) [A; D]) ].
Example macros_rs_pass : forall md, macros_rs (letters_enum md 4) = repeat true 6.
Proof. intros []; vm_compute; reflexivity. Qed.

(** set.rs:87-113: a set of an enum with [repr = "u32"] goes through a foreign
    function [set & 0b100] *)
Definition my_enum (md : build) : EnumTy := derived (derive md 64 (enum_of (repr_attr "u32") (implicit (firstn 3 letters)))).
Example ffi_example : forall md,
  (s <- mc_enum_set (my_enum md) [OVar 0; OVar 2]%nat ;; Ret (es_as_repr (my_enum md) s)) = Ret (5 : N) /\
  mc_enum_set (my_enum md) [OVar 2%nat] = Ret (es_from_repr_unchecked (my_enum md) (N.land 5 4 : N)).
Proof. intros []; vm_compute; split; reflexivity. Qed.

(** lib.rs:169-196: plain and sparse; the third one, without operators, differs in its impls only (Impls.v) *)
Example derive_examples : forall md,
  map (fun i => succeeds (derive md 64 i))
    [ enum_of plain_attrs (implicit (firstn 7 letters));
      enum_of plain_attrs [("A", Some 10); ("B", Some 20); ("C", Some 30); ("D", Some 127)]%string ] = repeat true 2.
Proof. intros []; vm_compute; reflexivity. Qed.

(** * Concrete enums and sets, used beside the property theorems

    Every hypothesis of the theorems ([Supported], [Reachable], [Denotes], ..) is
    shown here to hold of concrete enums with gaps in their discriminants, in an
    integer and in an array storage. *)
From Verif Require Import Base Repr Syntax Spec Derive EnumSet Macros Fmt Serde ApiSpec.

(** The generated implementation; [no_impl] if the derive fails. *)
Definition no_impl : EnumTy :=
  MkEnumTy (prim_repr Debug 64 8 1) 0 None 0 0 [] [] (fun _ => UB) (fun _ _ => UB) (fun _ _ => UB) (fun _ _ => UB)
           (fun _ => UB) false SU8 false 64.
Definition derived (r : M (result EnumTy (derive_error * span))) : EnumTy :=
  match r with Ret (Ok T) => T | _ => no_impl end.
Definition succeeds (r : M (result EnumTy (derive_error * span))) : bool :=
  match r with Ret (Ok _) => true | _ => false end.
Lemma derived_ok r : succeeds r = true -> r = Ret (Ok (derived r)).
Proof. destruct r as [[T|e]| | |]; cbn; congruence. Qed.

Definition plain_attrs : attrs := MkAttrs None None false false false.
Definition enum_of (a : attrs) (vs : list (string * option N)) : derive_input :=
  MkInput false true [] a
    (map (fun v => MkVariant (fst v) true (match snd v with Some n => Some (DInt n) | None => None end)) vs).

(** [enum Small { A, B = 5, C }]: discriminants 0, 5, 6; stored in a u8 *)
Definition small_variants : list (string * option N) := [("A", None); ("B", Some 5); ("C", None)]%string.
Definition small : derive_input := enum_of plain_attrs small_variants.
Definition SmallT : EnumTy := derived (derive Debug 64 small).
(** [enum Wide { A = 200, B = 3, C = 70, D }]: discriminants 200, 3, 70, 71;
    stored in four words; the declaration order is not the discriminant order *)
Definition wide_variants : list (string * option N) :=
  [("A", Some 200); ("B", Some 3); ("C", Some 70); ("D", None)]%string.
Definition wide : derive_input := enum_of plain_attrs wide_variants.
Definition WideT : EnumTy := derived (derive Debug 64 wide).
Definition Wide16T : EnumTy := derived (derive Debug 16 wide).

(** A declaration with several faults:
    [#[enumset(repr = "u8")] enum E { A, B(u8) = -1, A, D = 9 }] *)
Definition many_faults : derive_input :=
  MkInput false true [] (MkAttrs (Some "u8") None false false false)%string
    [MkVariant "A" true None; MkVariant "B" false (Some DNeg); MkVariant "A" true None;
     MkVariant "D" true (Some (DInt 9))]%string.

(** Tactics for closed goals *)
Ltac all_variants :=
  let v := fresh "v" in let Hv := fresh "Hv" in
  intros v Hv; unfold variant in Hv; cbn in Hv;
  repeat (destruct v as [|v]; [vm_compute; reflexivity|try (exfalso; lia)]).
Ltac supported :=
  constructor;
  [ auto
  | eexists; apply derived_ok; vm_compute; reflexivity
  | let d := fresh "d" in let Hd := fresh "Hd" in
    intros d Hd; vm_compute in Hd; repeat destruct Hd as [<-|Hd]; [..|contradiction]; reflexivity
  | reflexivity ].

Lemma small_supported : Supported 64 small SmallT. Proof. supported. Qed.
Lemma wide_supported : Supported 64 wide WideT. Proof. supported. Qed.
Lemma small_supported32 : Supported 32 small (derived (derive Debug 32 small)). Proof. supported. Qed.
Lemma wide_supported16 : Supported 16 wide (derived (derive Debug 16 wide)). Proof. supported. Qed.

Ltac items := let v := fresh "v" in let H := fresh "H" in
  intros v H; repeat destruct H as [<-|H]; [..|contradiction]; vm_compute; lia.

(** Some sets *)
Definition small_ac : eset SmallT := 0x41.              (* {A, C} *)
Definition small_b : eset SmallT := 0x20.               (* {B} *)
Definition wide_ac : eset WideT := [0; 0x40; 0; 0x100]. (* {A, C} *)
Definition wide_bc : eset WideT := [8; 0x40; 0; 0].     (* {B, C} *)

Lemma small_ac_reachable : Reachable 64 small SmallT small_ac.
Proof. apply R_from_iter with (items := [0; 2]%nat); [items|reflexivity]. Qed.
Lemma small_b_reachable : Reachable 64 small SmallT small_b.
Proof. apply R_only with (v := 1%nat); [vm_compute; lia|reflexivity]. Qed.
Lemma wide_ac_reachable : Reachable 64 wide WideT wide_ac.
Proof. apply R_from_iter with (items := [2; 0; 2]%nat); [items|reflexivity]. Qed.
Lemma wide_bc_reachable : Reachable 64 wide WideT wide_bc.
Proof. apply R_from_iter with (items := [2; 1]%nat); [items|reflexivity]. Qed.

(** Membership lists *)
Definition among (l : list nat) : vset := fun v => existsb (Nat.eqb v) l.
Lemma small_ac_denotes : Denotes small SmallT small_ac (among [0; 2]%nat). Proof. all_variants. Qed.
Lemma small_b_denotes : Denotes small SmallT small_b (among [1]%nat). Proof. all_variants. Qed.
Lemma wide_ac_denotes : Denotes wide WideT wide_ac (among [0; 2]%nat). Proof. all_variants. Qed.
Lemma wide_bc_denotes : Denotes wide WideT wide_bc (among [1; 2]%nat). Proof. all_variants. Qed.

(** ** Enums with attributes *)
Definition with_attrs (a : attrs) : derive_input := enum_of a small_variants.
(** [#[enumset(repr = "u16")]] *)
Definition sixteen : derive_input := with_attrs (MkAttrs (Some "u16"%string) None false false false).
Definition SixteenT : EnumTy := derived (derive Debug 64 sixteen).
(** [#[enumset(serialize_repr = "list")]], [.. "map"], [#[enumset(serialize_deny_unknown)]] *)
Definition listed : derive_input := enum_of (MkAttrs None (Some "list"%string) false false false) wide_variants.
Definition ListedT : EnumTy := derived (derive Debug 64 listed).
Definition mapped : derive_input := enum_of (MkAttrs None (Some "map"%string) false false false) wide_variants.
Definition MappedT : EnumTy := derived (derive Debug 64 mapped).
Definition denying : derive_input := with_attrs (MkAttrs None None true false false).
Definition DenyingT : EnumTy := derived (derive Debug 64 denying).
(** All legacy attributes at once *)
Definition legacy : derive_input := with_attrs (MkAttrs None (Some "u8"%string) false true true).
Definition LegacyT : EnumTy := derived (derive Debug 64 legacy).
(** [enum Never {}] and [enum Unit { A = 9 }] *)
Definition never : derive_input := enum_of plain_attrs [].
Definition NeverT : EnumTy := derived (derive Debug 64 never).
Definition single : derive_input := enum_of plain_attrs [("A"%string, Some 9)].
Definition SingleT : EnumTy := derived (derive Debug 64 single).

Lemma sixteen_supported : Supported 64 sixteen SixteenT. Proof. supported. Qed.
Lemma listed_supported : Supported 64 listed ListedT. Proof. supported. Qed.
Lemma mapped_supported : Supported 64 mapped MappedT. Proof. supported. Qed.
Lemma denying_supported : Supported 64 denying DenyingT. Proof. supported. Qed.
Lemma never_supported : Supported 64 never NeverT. Proof. supported. Qed.
Lemma single_supported : Supported 64 single SingleT. Proof. supported. Qed.

Definition sixteen_ac : eset SixteenT := 0x41.
Definition denying_ac : eset DenyingT := 0x41.
Definition listed_ac : eset ListedT := [0; 0x40; 0; 0x100].
Definition mapped_ac : eset MappedT := [0; 0x40; 0; 0x100].
Lemma sixteen_ac_reachable : Reachable 64 sixteen SixteenT sixteen_ac.
Proof. apply R_from_iter with (items := [0; 2]%nat); [items|reflexivity]. Qed.
Lemma denying_ac_reachable : Reachable 64 denying DenyingT denying_ac.
Proof. apply R_from_iter with (items := [0; 2]%nat); [items|reflexivity]. Qed.
Lemma listed_ac_reachable : Reachable 64 listed ListedT listed_ac.
Proof. apply R_from_iter with (items := [0; 2]%nat); [items|reflexivity]. Qed.
Lemma mapped_ac_reachable : Reachable 64 mapped MappedT mapped_ac.
Proof. apply R_from_iter with (items := [0; 2]%nat); [items|reflexivity]. Qed.
Lemma sixteen_ac_denotes : Denotes sixteen SixteenT sixteen_ac (among [0; 2]%nat). Proof. all_variants. Qed.
Lemma denying_ac_denotes : Denotes denying DenyingT denying_ac (among [0; 2]%nat). Proof. all_variants. Qed.
Lemma listed_ac_denotes : Denotes listed ListedT listed_ac (among [0; 2]%nat). Proof. all_variants. Qed.
Lemma mapped_ac_denotes : Denotes mapped MappedT mapped_ac (among [0; 2]%nat). Proof. all_variants. Qed.

(** ** 16-bit targets: discriminants 0 and 65536 *)
Definition huge : derive_input :=
  MkInput false true [Some "u32"%string] plain_attrs
    [MkVariant "A" true (Some (DInt 0)); MkVariant "B" true (Some (DInt 65536))].
Definition HugeT : EnumTy := derived (derive Debug 16 huge).

(** ** Sinks and deserializer input *)

(** A text sink that accepts everything; one that fails after [fst w] writes. *)
Definition put_text (t w : string) : bool * string := (true, (w ++ t)%string).
Definition put_limited (t : string) (w : nat * string) : bool * (nat * string) :=
  match w with (O, s) => (false, (O, s)) | (S n, s) => (true, (n, (s ++ t)%string)) end.
Definition names (l : list (string * option N)) (v : nat) : string := nth v (map fst l) ""%string.
(** A serializer that records the events. *)
Definition record_event (e : sevent) (w : list sevent) : bool * list sevent := (true, w ++ [e]).
(** A deserializer: integer, variants, entries, words *)
Definition source (x : N) (l : list (result nat de_error)) (m : list (result (nat * bool) de_error))
  (ws : list (result N de_error)) : de_source :=
  Build_de_source (fun t => Ok (x mod 2 ^ ity_bits 16 t)) (Ok l) (Ok m) (Ok ws).

Definition wide_source : de_source :=
  source 8 [Ok 2%nat; Err (DeInput 1)] [Ok (1%nat, true)] [Ok 8; Ok 0x40].
Lemma source_int_ok pw t x l m ws y : 16 <= pw -> src_int (source x l m ws) t = Ok y -> y < 2 ^ ity_bits pw t.
Proof.
  intros Hp [= <-]. apply N.lt_le_trans with (2 ^ ity_bits 16 t).
  - apply N.mod_lt. destruct t; discriminate.
  - apply N.pow_le_mono_r; [discriminate|]. destruct t; cbn [ity_bits]; try lia.
Qed.
Lemma wide_source_ok : SourceOk 64 wide wide_source.
Proof.
  constructor.
  - intros t x. apply source_int_ok. discriminate.
  - intros ? v [= <-] [[= <-]|[H|[]]]; [vm_compute; lia|discriminate].
  - intros ? v b [= <-] [[= <- <-]|[]]. vm_compute. lia.
  - intros ? x [= <-] [[= <-]|[[= <-]|[]]]; reflexivity.
Qed.

(** ** Closing the examples *)
Create HintDb ex.
#[export] Hint Resolve small_supported wide_supported small_ac_reachable small_b_reachable wide_ac_reachable
  wide_bc_reachable small_ac_denotes small_b_denotes wide_ac_denotes wide_bc_denotes
  sixteen_supported listed_supported mapped_supported denying_supported never_supported single_supported
  sixteen_ac_reachable denying_ac_reachable listed_ac_reachable mapped_ac_reachable
  sixteen_ac_denotes denying_ac_denotes listed_ac_denotes mapped_ac_denotes wide_source_ok : ex.
Ltac example :=
  repeat match goal with |- _ /\ _ => split end;
  match goal with
  | |- derive _ _ _ = Ret (Ok _) => apply derived_ok; vm_compute; reflexivity
  | |- _ = _ => vm_compute; reflexivity
  | |- variant _ _ => vm_compute; lia
  | |- _ <> _ => vm_compute; discriminate
  | |- _ < _ => reflexivity
  | |- _ <= _ => discriminate
  | |- forall v, In v _ -> variant _ v => items
  | |- _ => try solve [auto with ex]
  end.

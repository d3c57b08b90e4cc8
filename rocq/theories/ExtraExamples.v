(** * Concrete enums for the claims about macro syntax, all sets, and enums that change *)
From Verif Require Import Base Repr Syntax Spec Derive EnumSet Macros Fmt Serde ApiSpec Examples MacroRules MacroRulesSpec ExtraSpec WireSpec JsonSpec.
From Verif Require BincodeFacts.

(** [Small] with a new first variant [D = 2] *)
Definition grown : derive_input := enum_of plain_attrs [("D", Some 2); ("A", Some 0); ("B", Some 5); ("C", None)]%string.
Definition GrownT : EnumTy := derived (derive Debug 64 grown).
(** [Wide] with a new first variant [E = 150] *)
Definition wider : derive_input :=
  enum_of plain_attrs [("E", Some 150); ("A", Some 200); ("B", Some 3); ("C", Some 70); ("D", None)]%string.
Definition WiderT : EnumTy := derived (derive Debug 32 wider).
(** [Listed] with a new first variant *)
Definition listed_grown : derive_input :=
  enum_of (MkAttrs None (Some "list"%string) false false false)
          [("E", Some 150); ("A", Some 200); ("B", Some 3); ("C", Some 70); ("D", None)]%string.
Definition ListedGrownT : EnumTy := derived (derive Debug 64 listed_grown).

Lemma grown_supported : Supported 64 grown GrownT. Proof. supported. Qed.
Lemma wider_supported : Supported 32 wider WiderT. Proof. supported. Qed.
Lemma listed_grown_supported : Supported 64 listed_grown ListedGrownT. Proof. supported. Qed.
Ltac embedding := constructor; let v := fresh "v" in let H := fresh "H" in
  intros v H; unfold variant in *; cbn in H |- *;
  repeat (destruct v as [|v]; [first [vm_compute; lia|vm_compute; reflexivity]|try (exfalso; lia)]).
Lemma small_grown : embeds small grown S. Proof. embedding. Qed.
Lemma wide_wider : embeds wide wider S. Proof. embedding. Qed.
Lemma listed_embeds : embeds listed listed_grown S. Proof. embedding. Qed.
Definition grown_d : eset GrownT := 0x44.                (* {C, D} *)
Lemma grown_d_reachable : Reachable 64 grown GrownT grown_d.
Proof. apply R_from_iter with (items := [0; 3]%nat); [items|reflexivity]. Qed.
Lemma grown_d_denotes : Denotes grown GrownT grown_d (among [0; 3]%nat). Proof. all_variants. Qed.
Lemma grown_newcomer : newcomer small grown S 0. Proof. split; [vm_compute; lia|discriminate]. Qed.
Lemma wider_newcomer : newcomer wide wider S 0. Proof. split; [vm_compute; lia|discriminate]. Qed.
Definition listed_grown_ce : eset ListedGrownT := [0; 0x40; 0x400000; 0].   (* {C, E} *)
Lemma listed_grown_ce_reachable : Reachable 64 listed_grown ListedGrownT listed_grown_ce.
Proof. apply R_from_iter with (items := [0; 3]%nat); [items|reflexivity]. Qed.
Lemma listed_grown_ce_denotes : Denotes listed_grown ListedGrownT listed_grown_ce (among [0; 3]%nat). Proof. all_variants. Qed.
Lemma listed_newcomer : newcomer listed listed_grown S 0. Proof. split; [vm_compute; lia|discriminate]. Qed.
Lemma listed_seen : Forall2 (seen_as listed listed_grown S (fun v => v)) [3; 0]%nat [Ok 2%nat; Err (DeInput 1)].
Proof.
  repeat constructor; try discriminate.
  - intros v _ [= ->]. reflexivity.
  - intros [_ H]. exfalso. apply (H 2%nat); [vm_compute; lia|reflexivity].
  - eauto.
Qed.
#[export] Hint Resolve listed_grown_ce_reachable listed_grown_ce_denotes listed_newcomer listed_seen : ex.
#[export] Hint Resolve grown_supported wider_supported listed_grown_supported small_grown wide_wider listed_embeds
  grown_d_reachable grown_d_denotes grown_newcomer wider_newcomer : ex.

(** The paths [0], [1], [2], .. of the macro examples are the variants *)
Definition variant_paths (T : EnumTy) (p : nat) : operand T := OVar p.

(** [Wide] declared in the order of its discriminants *)
Definition sorted : derive_input :=
  enum_of plain_attrs [("B", Some 3); ("C", Some 70); ("D", None); ("A", Some 200)]%string.
Definition SortedT : EnumTy := derived (derive Debug 64 sorted).
Definition place (v : nat) : nat := nth v [3; 0; 1; 2]%nat v.
Lemma sorted_supported : Supported 64 sorted SortedT. Proof. supported. Qed.
Lemma wide_sorted : embeds wide sorted place. Proof. embedding. Qed.
Definition sorted_ac : eset SortedT := [0; 0x40; 0; 0x100].
Definition sorted_bc : eset SortedT := [8; 0x40; 0; 0].
Lemma sorted_ac_reachable : Reachable 64 sorted SortedT sorted_ac.
Proof. apply R_from_iter with (items := [3; 1]%nat); [items|reflexivity]. Qed.
Lemma sorted_bc_reachable : Reachable 64 sorted SortedT sorted_bc.
Proof. apply R_from_iter with (items := [0; 1]%nat); [items|reflexivity]. Qed.
Lemma sorted_ac_denotes : Denotes sorted SortedT sorted_ac (among [1; 3]%nat). Proof. all_variants. Qed.
Lemma sorted_bc_denotes : Denotes sorted SortedT sorted_bc (among [0; 1]%nat). Proof. all_variants. Qed.
Lemma wide_ac_place : Denotes wide WideT wide_ac (fun v => among [1; 3]%nat (place v)). Proof. all_variants. Qed.
Lemma wide_bc_place : Denotes wide WideT wide_bc (fun v => among [0; 1]%nat (place v)). Proof. all_variants. Qed.
#[export] Hint Resolve sorted_supported wide_sorted sorted_ac_reachable sorted_bc_reachable sorted_ac_denotes sorted_bc_denotes
  wide_ac_place wide_bc_place : ex.
(** [#[enumset(serialize_as_map, serialize_as_list)]] *)
Definition legacy_both : derive_input := enum_of (MkAttrs None None false true true) wide_variants.

(** The identifiers made of ASCII characters. *)
Definition ident_char (first : bool) (c : Ascii.ascii) : bool :=
  let n := Ascii.N_of_ascii c in
  (n =? 95) || ((65 <=? n) && (n <=? 90)) || ((97 <=? n) && (n <=? 122)) ||
  (negb first && (48 <=? n) && (n <=? 57)).
Fixpoint ident_chars (first : bool) (s : string) : bool :=
  match s with
  | EmptyString => negb first
  | String c s => ident_char first c && ident_chars false s
  end.
Definition ascii_ident (s : string) : bool := ident_chars true s.

(** Names for JSON, and a reader of the escape sequences for characters below 256 *)
Definition abc : list string := ["A"; "B"; "C"]%string.
Definition abcd : list string := ["A"; "B"; "C"; "D"]%string.
Definition hex_digit (c : Ascii.ascii) : option N :=
  let n := Ascii.N_of_ascii c in
  if (48 <=? n) && (n <=? 57) then Some (n - 48)
  else if (65 <=? n) && (n <=? 70) then Some (n - 55)
  else if (97 <=? n) && (n <=? 102) then Some (n - 87)
  else None.
Definition put (c : N) (r : option string) : option string :=
  match r with Some s => Some (String (Ascii.ascii_of_N c) s) | None => None end.
Fixpoint escapes (s : string) : option string :=
  match s with
  | EmptyString => Some EmptyString
  | String c s =>
      if Ascii.N_of_ascii c =? 92 then
        match s with
        | EmptyString => None
        | String c s =>
            match Ascii.N_of_ascii c with
            | 34 => put 34 (escapes s)
            | 47 => put 47 (escapes s)
            | 92 => put 92 (escapes s)
            | 98 => put 8 (escapes s)
            | 102 => put 12 (escapes s)
            | 110 => put 10 (escapes s)
            | 114 => put 13 (escapes s)
            | 116 => put 9 (escapes s)
            | 117 =>
                match s with
                | String z (String z' (String a (String b s))) =>
                    match hex_digit z, hex_digit z', hex_digit a, hex_digit b with
                    | Some 0, Some 0, Some x, Some y => put (16 * x + y) (escapes s)
                    | _, _, _, _ => None
                    end
                | _ => None
                end
            | _ => None
            end
        end
      else match escapes s with Some s => Some (String c s) | None => None end
  end.
Ltac names :=
  split; [reflexivity|
          repeat constructor; cbn; intuition discriminate|
          let s := fresh in let H := fresh in let c := fresh in
          intros s H c; cbn [In] in H; repeat destruct H as [<-|H]; try destruct H; cbn [list_ascii_of_string In];
          intros [<-|[]]; cbn; lia].
Lemma small_names : Names small abc. Proof. names. Qed.
Lemma wide_names : Names wide abcd. Proof. names. Qed.
Lemma listed_names : Names listed abcd. Proof. names. Qed.
Lemma mapped_names : Names mapped abcd. Proof. names. Qed.
Lemma denying_names : Names denying abc. Proof. names. Qed.
Lemma escapes_char c s : Ascii.N_of_ascii c <> 92 -> escapes (String c s) = match escapes s with Some s => Some (String c s) | None => None end.
Proof. intros H. cbn [escapes]. destruct (N.eqb_spec (Ascii.N_of_ascii c) 92); [contradiction|reflexivity]. Qed.
Lemma escapes_ok : Unescapes escapes.
Proof.
  intros s. induction s as [|c s IH]; intros Hp; [reflexivity|].
  rewrite escapes_char by apply (Hp c (or_introl eq_refl)). rewrite IH; [reflexivity|]. intros d Hd. apply Hp. now right.
Qed.
#[export] Hint Resolve small_names wide_names listed_names mapped_names denying_names escapes_ok : ex.
(** [  ["C", {"\u0041" : null}, "C"]] *)
Definition c_a_c : string := "  [""C"", {""\u0041"" : null},""C""]"%string.
Lemma white_blank n : white (String.concat "" (repeat " "%string n)).
Proof. induction n as [|[|n] IH]; [intros c []|intros c [<-|[]]; cbn; auto|]. intros c [<-|H]; [cbn; auto|apply IH; exact H]. Qed.
Ltac spaced_text :=
  repeat match goal with
  | |- spaced (?t :: ?ts) ?text =>
      first [ refine (spaced_token "" t ts _ (white_blank 0) _)
            | refine (spaced_token " " t ts _ (white_blank 1) _)
            | refine (spaced_token "  " t ts _ (white_blank 2) _) ]
  | |- spaced [] ?text => first [ exact (spaced_end "" (white_blank 0)) | exact (spaced_end " " (white_blank 1)) ]
  end.
Definition c_a_c_items : list (list string) :=
  [[name_text abcd 2]; ["{"; """\u0041"""; ":"; "null"; "}"]; [name_text abcd 2]]%string.
Lemma c_a_c_spaced : spaced (array_tokens c_a_c_items) c_a_c.
Proof. unfold array_tokens, c_a_c_items, c_a_c. cbn [joined app]. spaced_text. Qed.
Lemma plain_word s : forallb (fun c => (32 <=? Ascii.N_of_ascii c) && negb (Ascii.N_of_ascii c =? 34) && negb (Ascii.N_of_ascii c =? 92)) (list_ascii_of_string s) = true ->
  plain s.
Proof.
  intros H c Hc. rewrite forallb_forall in H. specialize (H c Hc). rewrite !andb_true_iff, !negb_true_iff, N.leb_le, !N.eqb_neq in H. tauto.
Qed.
Lemma plain_literal s : plain s -> literal escapes s (quoted s).
Proof.
  intros H. exists s. split; [reflexivity|]. split; [|now apply escapes_ok].
  induction s as [|c s IH]; [constructor|]. destruct (H c (or_introl eq_refl)) as (H1 & H2 & H3). apply body_char; auto.
  apply IH. intros d Hd. apply H. now right.
Qed.
Lemma literal_a : literal escapes "A" """\u0041"""%string.
Proof. exists "\u0041"%string. split; [reflexivity|]. split; [|reflexivity]. apply (body_escape (Ascii.ascii_of_N 117) "0041"). repeat (apply body_char; [cbn; lia..|]). constructor. Qed.
Lemma c_a_c_elements : Forall2 (fun v ts => variant listed v /\ element_text escapes abcd v ts) [2; 0; 2]%nat c_a_c_items.
Proof.
  constructor; [|constructor; [|constructor; [|constructor]]]; (split; [vm_compute; lia|]).
  - apply element_string. now apply plain_literal, plain_word.
  - apply element_object, literal_a.
  - apply element_string. now apply plain_literal, plain_word.
Qed.
Definition a_not_c : string := "{""\u0041"":true , ""C"":false}"%string.
Definition a_not_c_items : list (list string) := [["""\u0041"""; ":"; "true"]; ["""C"""; ":"; "false"]]%string.
Lemma a_not_c_spaced : spaced (object_tokens a_not_c_items) a_not_c.
Proof. unfold object_tokens, a_not_c_items, a_not_c. cbn [joined app]. spaced_text. Qed.
Lemma a_not_c_entries : Forall2 (fun e ts => variant mapped (fst e) /\ entry_text escapes abcd e ts) [(0, true); (2, false)]%nat a_not_c_items.
Proof.
  constructor; [|constructor; [|constructor]]; (split; [vm_compute; lia|]).
  - apply (entry_string escapes abcd 0 true), literal_a.
  - apply (entry_string escapes abcd 2 false). now apply plain_literal, plain_word.
Qed.
Lemma c_a_c_stands : json_stands 64 listed abcd escapes SList false c_a_c (among [0; 2]%nat).
Proof.
  exists [2; 0; 2]%nat, c_a_c_items. split; [exact c_a_c_elements|]. split; [exact c_a_c_spaced|].
  intros v. unfold among. cbn [existsb In]. rewrite !orb_true_iff, !PeanoNat.Nat.eqb_eq. intuition (try discriminate; auto).
Qed.
Definition words_8_64 : string := "[8, 64]"%string.
Lemma words_8_64_spaced : spaced (array_tokens (map (fun w => [decimal w]) [8; 64])) words_8_64.
Proof. unfold array_tokens, words_8_64. cbn [joined map app]. spaced_text. Qed.
Lemma words_8_64_only : only_variant_words wide [8; 64].
Proof.
  intros i. unfold word_bit. pose proof (N.div_mod i 64 ltac:(discriminate)) as E.
  destruct (N.to_nat (i / 64)) as [|[|k]] eqn:Ek; cbn [nth].
  - change 8 with (2 ^ 3). rewrite N.pow2_bits_eqb. intros H. apply N.eqb_eq in H. exists 1%nat. split; [vm_compute; lia|]. cbn. lia.
  - change 64 with (2 ^ 6) at 1. rewrite N.pow2_bits_eqb. intros H. apply N.eqb_eq in H. exists 2%nat. split; [vm_compute; lia|]. cbn. lia.
  - destruct k; rewrite N.bits_0; discriminate.
Qed.
#[export] Hint Resolve c_a_c_stands c_a_c_spaced c_a_c_elements a_not_c_spaced a_not_c_entries words_8_64_spaced words_8_64_only : ex.
Definition number_65 : string := " 65 "%string.
Lemma number_65_spaced : spaced [decimal 65] number_65.
Proof. unfold number_65. spaced_text. Qed.
#[export] Hint Resolve number_65_spaced : ex.
Definition words_1 : string := "[1]"%string.
Lemma words_1_spaced : spaced (array_tokens (map (fun w => [decimal w]) [1])) words_1.
Proof. unfold array_tokens, words_1. cbn [joined map app]. spaced_text. Qed.
Lemma words_1_unknown : ~ only_variant_words wide (firstn (N.to_nat (storage_words (storage_of wide))) [1]).
Proof.
  change (firstn _ [1]) with [1]. intros H. destruct (H 0 eq_refl) as (v & Hv & E). unfold variant in Hv. cbn in Hv.
  do 4 (destruct v as [|v]; [discriminate E|]). lia.
Qed.
#[export] Hint Resolve words_1_spaced words_1_unknown : ex.

Ltac little_endian_bytes := match goal with |- little_endian ?n ?x ?l => exact (BincodeFacts.le_spec (N.to_nat n) x eq_refl) end.
(** The list C, A, C in bincode. *)
Definition cac_bytes : list N := [3; 0; 0; 0; 0; 0; 0; 0; 2; 0; 0; 0; 0; 0; 0; 0; 2; 0; 0; 0].
Lemma cac_bytes_stand : bincode_stands 64 listed SList false cac_bytes (among [0; 2]%nat).
Proof.
  exists [2; 0; 2]%nat, [3; 0; 0; 0; 0; 0; 0; 0], [[2; 0; 0; 0]; [0; 0; 0; 0]; [2; 0; 0; 0]].
  split; [repeat constructor; vm_compute; lia|]. split; [vm_compute; reflexivity|]. split; [little_endian_bytes|].
  split; [repeat (constructor; [little_endian_bytes|]); constructor|]. split; [reflexivity|].
  intros v. unfold among. cbn [existsb In]. rewrite !orb_true_iff, !PeanoNat.Nat.eqb_eq. intuition (try discriminate; auto).
Qed.
Lemma count_1_bytes : little_endian 8 1 [1; 0; 0; 0; 0; 0; 0; 0].
Proof. little_endian_bytes. Qed.
Lemma words_1_bytes : Forall2 (little_endian 8) [1] [[1; 0; 0; 0; 0; 0; 0; 0]].
Proof. constructor; [exact count_1_bytes|constructor]. Qed.
#[export] Hint Resolve cac_bytes_stand count_1_bytes words_1_bytes : ex.

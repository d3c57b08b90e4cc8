(** * Literals used beside the theorems about them *)
From Coq Require Import Ascii.
From Verif Require Import Base Syntax Derive Examples Literal LiteralSpec.
From Verif Require LiteralClaims.

(** The variants of [wide] in other spellings *)
Definition spelled : list (string * option string) :=
  [("A", Some "0x_C8u32"); ("B", Some "0b0_11"); ("C", Some "0o106"); ("D", None)]%string.
Definition plainly : list (string * option string) :=
  [("A", Some "200"); ("B", Some "3u8"); ("C", Some "7_0_"); ("D", None)]%string.
Lemma hex_200 : literal "0x_C8u32" 200 "u32".
Proof.
  assert (Hu : begins letter "u32") by (exists "u"%char, "32"%string; split; [reflexivity|]; exists 20%nat; now left).
  split; [|intros (c & r & E & [-> | ->]); discriminate].
  apply (integer_of "0x" 16 "_C8" [12; 8] "u32"); try discriminate.
  - constructor.
  - apply (digits_underscore 16 "C8"). apply (digits_digit 16 "C" 12 "8" [8]); [now right|reflexivity|].
    apply (digits_digit 16 "8" 8 "" []); [now left|reflexivity|constructor].
  - right. split; [exact Hu|]. intros [|[|[|i]]] c H; try discriminate; injection H as <-.
    + left. exists 20%nat. now left.
    + right; left. now exists 3%nat.
    + right; left. now exists 2%nat.
  - intros (c & r & E & d & Hd & _). injection E as <- <-. apply LiteralClaims.digit_code in Hd. change (N_of_ascii "u") with 117 in Hd. lia.
  - intros [H _]. discriminate.
Qed.
Ltac literal_by_reading := split; [apply LiteralClaims.literal_read; reflexivity|]; intros (c & r & E & [-> | ->]); discriminate.
Lemma decimal_200 : literal "200" 200 "". Proof. literal_by_reading. Qed.
Lemma binary_3 : literal "0b0_11" 3 "". Proof. literal_by_reading. Qed.
Lemma decimal_3 : literal "3u8" 3 "u8". Proof. literal_by_reading. Qed.
Lemma octal_70 : literal "0o106" 70 "". Proof. literal_by_reading. Qed.
Lemma decimal_70 : literal "7_0_" 70 "". Proof. literal_by_reading. Qed.
Lemma spelled_literals t : In (Some t) (map snd spelled) -> exists n suffix, literal t n suffix.
Proof.
  cbn. intros [H|[H|[H|[H|[]]]]]; try discriminate; injection H as <-;
    [exact (ex_intro _ 200 (ex_intro _ _ hex_200))|exact (ex_intro _ 3 (ex_intro _ _ binary_3))|exact (ex_intro _ 70 (ex_intro _ _ octal_70))].
Qed.
Definition same_values_of (vs vs' : list (string * option string)) : Prop :=
  Forall2 (fun o o' => match o, o' with
                       | Some t, Some t' => exists n s s', literal t n s /\ literal t' n s'
                       | None, None => True
                       | _, _ => False
                       end) (map snd vs) (map snd vs').
Lemma same_values : same_values_of spelled plainly.
Proof.
  constructor; [exists 200, "u32"%string, ""%string; split; [exact hex_200|exact decimal_200]|].
  constructor; [exists 3, ""%string, "u8"%string; split; [exact binary_3|exact decimal_3]|].
  constructor; [exists 70, ""%string, ""%string; split; [exact octal_70|exact decimal_70]|]. constructor; [exact I|constructor].
Qed.
(** The error for an enum with one variant that has this discriminant *)
Definition verdict (text : string) : option derive_error :=
  match derive Debug 64 (MkInput false true [] plain_attrs (read_variants [("A"%string, Some text)])) with
  | Ret (Err (e, _)) => Some e
  | _ => None
  end.
Lemma octal_in : In (Some "0o106"%string) (map snd spelled).
Proof. cbn. auto. Qed.
#[export] Hint Resolve octal_in hex_200 spelled_literals same_values : ex.

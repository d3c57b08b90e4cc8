(** * Properties: the texts of discriminants, C74 *)
From Coq Require Import Arith Ascii.
From Verif Require Import Base Repr Syntax Spec Derive EnumSet Macros Fmt Serde ApiSpec Examples Literal LiteralSpec LiteralExamples.
From Verif Require LiteralClaims.

(** C74: the texts that are read as integers, and their values *)
Theorem C74_literal_read text n suffix : integer_text text n suffix <-> lit_int text = Some (n, suffix).
Proof. exact (LiteralClaims.literal_read text n suffix). Qed.
Print Assumptions C74_literal_read.
Example C74_literal_read_example :
  literal "0x_C8u32" 200 "u32" /\
  lit_int "0x_C8u32" = Some (200, "u32"%string) /\
  lit_int "7_0_" = Some (70, ""%string) /\
  lit_int "0b2" = None /\
  lit_int "0x_" = None /\
  lit_int "1.5" = None /\
  lit_int "1e3" = None /\
  lit_int "4294967296" = Some (4294967296, ""%string) /\
  lit_int "2extra" = Some (2, "extra"%string) /\
  lit_int "1e" = Some (1, "e"%string) /\
  lit_int "1e_5f" = None.
Proof. example. Qed.

(** C74: the discriminants of a declaration are the values of its literals *)
Theorem C74_declared_discriminants md pw reprs a vs T :
  (forall t, In (Some t) (map snd vs) -> exists n suffix, literal t n suffix) ->
  derive md pw (MkInput false true reprs a (read_variants vs)) = Ret (Ok T) ->
  text_discrs 0 (map snd vs) (map snd (et_variants T)).
Proof. exact (LiteralClaims.declared_discriminants md pw reprs a vs T). Qed.
Print Assumptions C74_declared_discriminants.
Example C74_declared_discriminants_example :
  (forall t, In (Some t) (map snd spelled) -> exists n suffix, literal t n suffix) /\
  map snd (et_variants (derived (derive Debug 64 (MkInput false true [] plain_attrs (read_variants spelled))))) = [200; 3; 70; 71].
Proof. example. Qed.

(** C74: other spellings of the same numbers change nothing *)
Theorem C74_spelling_irrelevant md pw reprs a vs vs' : map fst vs = map fst vs' ->
  Forall2 (fun o o' => match o, o' with
                       | Some t, Some t' => exists n s s', literal t n s /\ literal t' n s'
                       | None, None => True
                       | _, _ => False
                       end) (map snd vs) (map snd vs') ->
  derive md pw (MkInput false true reprs a (read_variants vs)) = derive md pw (MkInput false true reprs a (read_variants vs')).
Proof. exact (LiteralClaims.spelling_irrelevant md pw reprs a vs vs'). Qed.
Print Assumptions C74_spelling_irrelevant.
Example C74_spelling_irrelevant_example :
  map fst spelled = map fst plainly /\
  same_values_of spelled plainly /\
  read_variants spelled = in_variants wide.
Proof. example. Qed.

(** C74: nothing but an integer is accepted *)
Theorem C74_accepted_literals md pw reprs a vs T t :
  derive md pw (MkInput false true reprs a (read_variants vs)) = Ret (Ok T) -> In (Some t) (map snd vs) ->
  exists n suffix, n <= 0xFFFFFFBF /\ integer_text t n suffix.
Proof. exact (LiteralClaims.accepted_literals md pw reprs a vs T t). Qed.
Print Assumptions C74_accepted_literals.
Example C74_accepted_literals_example :
  In (Some "0o106"%string) (map snd spelled) /\
  map verdict ["0o106"; "1.5"; "4294967232"; "4294967296"]%string = [None; Some EDiscrLit; Some EDiscrMax; Some EDiscrU32].
Proof. example. Qed.


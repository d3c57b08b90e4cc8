(** * Model of the macro_rules definitions of /repo/enumset/src/macros.rs

    [Macros.v] models the code the macros expand to; this file models which
    invocations they accept and which arm is taken. The matcher is that of rustc
    (compiler/rustc_expand/src/mbe/macro_parser.rs, [TtParser::parse_tt]): all
    threads of a nondeterministic automaton advance together; fragments like
    [$x:path] are parsed only when a single thread wants one and no other thread
    can consume the token; anything else is a hard error. Arms are tried in
    order, a failure (not a hard error) leads to the next arm.

    Tokens are paths (any token sequence that parses as one path, including a
    fragment captured by another macro), [|], [,] and others. Note that [||] is a
    single token of its own and belongs to the others. *)
From Verif Require Import Base Repr Syntax Derive EnumSet Macros.

Inductive token : Type :=
| TPath (p : nat)      (* the path number [p] *)
| TBar
| TComma
| TOther.

(** ** The matcher *)
Inductive kleene : Type := ZeroOrMore | OneOrMore | ZeroOrOne.
(** macro_parser.rs [MatcherLoc] *)
Inductive loc : Type :=
| LToken (t : token)
| LSeq (op : kleene) (after : nat)           (* Sequence: start of $( .. ) *)
| LKleeneNoSep (op : kleene) (first : nat)   (* SequenceKleeneOpNoSep: its end, without separator *)
| LSep (t : token)                           (* SequenceSep: its end, with separator *)
| LKleeneAfterSep (first : nat)              (* SequenceKleeneOpAfterSep *)
| LPath                                      (* MetaVarDecl of kind path *)
| LEof.
(** [MatcherPos]: position and captured paths, in order *)
Definition mpos : Type := nat * list nat.

Definition token_eqb (a b : token) : bool :=
  match a, b with
  | TPath p, TPath q => Nat.eqb p q
  | TBar, TBar | TComma, TComma | TOther, TOther => true
  | _, _ => false
  end.
Definition may_skip (op : kleene) : bool := match op with OneOrMore => false | _ => true end.
Definition may_repeat (op : kleene) : bool := match op with ZeroOrOne => false | _ => true end.

(** [parse_tt_inner]: all positions reachable without consuming a token.
    [tok] is the current token, [None] at the end of the input. Result: the
    successful matches, the positions after consuming the token, the positions
    waiting for a fragment. [None]: out of fuel. *)
Fixpoint closure (locs : list loc) (tok : option token) (fuel : nat) (cur : list mpos)
         (eofs nexts bbs : list mpos) : option (list mpos * list mpos * list mpos) :=
  match cur with
  | [] => Some (eofs, nexts, bbs)
  | (i, caps) :: cur =>
      match fuel with
      | O => None
      | S fuel =>
          let tok_is t := match tok with Some t' => token_eqb t t' | None => false end in
          match nth i locs LEof with
          | LToken t =>
              closure locs tok fuel cur eofs (if tok_is t then nexts ++ [(S i, caps)] else nexts) bbs
          | LSeq op after =>
              closure locs tok fuel ((S i, caps) :: (if may_skip op then [(after, caps)] else []) ++ cur) eofs nexts bbs
          | LKleeneNoSep op first =>
              closure locs tok fuel ((if may_repeat op then [(first, caps)] else []) ++ (S i, caps) :: cur) eofs nexts bbs
          | LSep t =>
              closure locs tok fuel ((S (S i), caps) :: cur) eofs (if tok_is t then nexts ++ [(S i, caps)] else nexts) bbs
          | LKleeneAfterSep first => closure locs tok fuel ((first, caps) :: cur) eofs nexts bbs
          | LPath =>
              closure locs tok fuel cur eofs nexts
                (match tok with Some (TPath _) => bbs ++ [(i, caps)] | _ => bbs end)
          | LEof => closure locs tok fuel cur (match tok with None => eofs ++ [(i, caps)] | _ => eofs end) nexts bbs
          end
      end
  end.

Inductive outcome : Type :=
| Success (caps : list nat)
| Failure
| Fatal.     (* ambiguity *)
(** [parse_tt] *)
Fixpoint parse_tt (locs : list loc) (toks : list token) (cur : list mpos) : outcome :=
  match toks with
  | [] =>
      match closure locs None 64 cur [] [] [] with
      | Some ([m], _, _) => Success (snd m)
      | Some ([], _, _) => Failure
      | _ => Fatal
      end
  | tok :: rest =>
      match closure locs (Some tok) 64 cur [] [] [] with
      | Some (_, [], []) => Failure
      | Some (_, nexts, []) => parse_tt locs rest nexts
      | Some (_, [], [(i, caps)]) =>
          match tok with
          | TPath p => parse_tt locs rest [(S i, caps ++ [p])]
          | _ => Fatal
          end
      | _ => Fatal
      end
  end.

(** ** The macros *)
Inductive macro_name : Type :=
| MEnumSet | MUnion | MIntersection | MComplement | MDifference | MSymmetricDifference.
(** What an arm is replaced by: code, or another invocation. *)
Inductive code : Type :=
| CEmpty                                          (* EnumSet::empty() *)
| COnly (p : nat)                                 (* p.__impl_enumset_internal__const_only() *)
| CFold (m : macro_name) (p : nat) (l : list nat) (* the block with helper and value *)
| CComplement (p : nat).
Inductive template : Type := Code (c : code) | Invoke (m : macro_name) (toks : list token).

(** [$(|)*] *)
Definition arm_bars : list loc := [LSeq ZeroOrMore 3; LToken TBar; LKleeneNoSep ZeroOrMore 1; LEof].
(** [$value:path $(|)*] *)
Definition arm_path_bars : list loc := [LPath; LSeq ZeroOrMore 4; LToken TBar; LKleeneNoSep ZeroOrMore 2; LEof].
(** [$value:path | $($rest:path)|* $(|)*] *)
Definition arm_paths_bars : list loc :=
  [LPath; LToken TBar; LSeq ZeroOrMore 6; LPath; LSep TBar; LKleeneAfterSep 3;
   LSeq ZeroOrMore 9; LToken TBar; LKleeneNoSep ZeroOrMore 7; LEof].
(** [$value:path $(,)?] *)
Definition arm_path_comma : list loc := [LPath; LSeq ZeroOrOne 4; LToken TComma; LKleeneNoSep ZeroOrOne 2; LEof].
(** [$value:path, $($rest:path),* $(,)?] *)
Definition arm_paths_comma : list loc :=
  [LPath; LToken TComma; LSeq ZeroOrMore 6; LPath; LSep TComma; LKleeneAfterSep 3;
   LSeq ZeroOrOne 9; LToken TComma; LKleeneNoSep ZeroOrOne 7; LEof].

Definition arm : Type := list loc * (list nat -> template).
(** [$value] and [$rest]; the arms that use [$value] always capture it *)
Definition value_of (caps : list nat) : nat := hd 0%nat caps.
Definition rest_of (caps : list nat) : list nat := tl caps.
(** [$($rest,)*] *)
Definition each_comma (l : list nat) : list token := flat_map (fun p => [TPath p; TComma]) l.

(** macros.rs:43-56 *)
Definition enum_set_arms : list arm :=
  [ (arm_bars, fun _ => Code CEmpty);
    (arm_path_bars, fun c => Code (COnly (value_of c)));
    (arm_paths_bars, fun c => Invoke MUnion (TPath (value_of c) :: TComma :: each_comma (rest_of c))) ].
(** macros.rs:73-88, 107-122, 165-180, 199-214: alike but for the operation *)
Definition fold_arms (m : macro_name) : list arm :=
  [ (arm_path_comma, fun c => Invoke MEnumSet [TPath (value_of c)]);
    (arm_paths_comma, fun c => Code (CFold m (value_of c) (rest_of c))) ].
(** macros.rs:138-146 *)
Definition complement_arms : list arm := [ (arm_path_comma, fun c => Code (CComplement (value_of c))) ].
Definition arms_of (m : macro_name) : list arm :=
  match m with
  | MEnumSet => enum_set_arms
  | MComplement => complement_arms
  | _ => fold_arms m
  end.

(** The first arm that matches; [None]: compile error. *)
Fixpoint try_arms (arms : list arm) (toks : list token) : option template :=
  match arms with
  | [] => None
  | (locs, tpl) :: rest =>
      match parse_tt locs toks [(0%nat, [])] with
      | Success caps => Some (tpl caps)
      | Failure => try_arms rest toks
      | Fatal => None
      end
  end.
(** Repeated expansion; the compiler gives up at its recursion limit. *)
Fixpoint expand (limit : nat) (m : macro_name) (toks : list token) : option code :=
  match limit with
  | O => None
  | S limit =>
      match try_arms (arms_of m) toks with
      | None => None
      | Some (Code c) => Some c
      | Some (Invoke m' toks') => expand limit m' toks'
      end
  end.
(** The default [recursion_limit]. *)
Definition recursion_limit : nat := 128.

(** ** The value of an invocation

    [env] resolves the paths to variants or constant sets. The compile error for
    code that is ill-typed is left to Expansion.v: all operands have the right type here. *)
Definition run_code (T : EnumTy) (env : nat -> operand T) (c : code) : M (eset T) :=
  match c with
  | CEmpty => Ret (es_empty T)
  | COnly p => mc_const_only T (env p)
  | CFold MIntersection p l => mc_intersection T (env p) (map env l)
  | CFold MDifference p l => mc_difference T (env p) (map env l)
  | CFold MSymmetricDifference p l => mc_symmetric_difference T (env p) (map env l)
  | CFold _ p l => mc_union T (env p) (map env l)
  | CComplement p => mc_complement T (env p)
  end.
(** [None]: the compiler rejects the invocation. *)
Definition invoke (T : EnumTy) (env : nat -> operand T) (m : macro_name) (toks : list token) : option (M (eset T)) :=
  match expand recursion_limit m toks with Some c => Some (run_code T env c) | None => None end.

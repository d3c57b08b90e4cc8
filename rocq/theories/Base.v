(** * Base: execution results, machine integers, arrays and loops

    Nothing here is specific to enumset: this is the fragment of the Rust
    abstract machine the crate uses. *)
From Coq Require Export NArith String List Bool Lia.
Export ListNotations.
Open Scope N_scope.

(** ** Results of executing code

    [Ret a]      the code returns [a];
    [Panic p]    the code panics;
    [UB]         the code executes undefined behaviour;
    [OutOfFuel]  artefact of the model: a [while] loop exceeded its fuel. *)
Inductive panic : Type :=
| PIndex                      (* index or slice range out of bounds *)
| POverflow                   (* arithmetic overflow (debug build) *)
| PShift                      (* shift amount >= bit width (debug build) *)
| PExpect (msg : string)      (* Option::expect on None *)
| PExplicit (msg : string).   (* panic!(..) *)

Inductive M (A : Type) : Type :=
| Ret (a : A)
| Panic (p : panic)
| UB
| OutOfFuel.
Arguments Ret {A} _.
Arguments Panic {A} _.
Arguments UB {A}.
Arguments OutOfFuel {A}.

Definition bind {A B : Type} (m : M A) (f : A -> M B) : M B :=
  match m with
  | Ret a => f a
  | Panic p => Panic p
  | UB => UB
  | OutOfFuel => OutOfFuel
  end.

Declare Scope m_scope.
Delimit Scope m_scope with m.
Notation "x <- e ;; f" := (bind e (fun x => f))
  (at level 61, e at next level, right associativity) : m_scope.
Notation "' p <- e ;; f" := (bind e (fun p => f))
  (at level 61, p pattern, e at next level, right associativity) : m_scope.
Open Scope m_scope.

(** [Option::expect(msg)] of the Rust core library. *)
Definition expect {A} (msg : string) (o : option A) : M A :=
  match o with Some a => Ret a | None => Panic (PExpect msg) end.

(** [Result] of the Rust core library. *)
Inductive result (A E : Type) : Type := Ok (a : A) | Err (e : E).
Arguments Ok {A E} _.
Arguments Err {A E} _.
(** The [?] operator. *)
Definition try_ {A B E} (r : result A E) (f : A -> M (result B E)) : M (result B E) :=
  match r with Ok a => f a | Err e => Ret (Err e) end.

(** ** Machine integers: [N] with an explicit bit width *)

(** [x as uW] (truncating cast). *)
Definition wrap (w x : N) : N := x mod 2 ^ w.
(** [uW::try_from(x).ok()] for an unsigned [x]. *)
Definition try_into (w x : N) : option N := if x <? 2 ^ w then Some x else None.
(** A debug build has overflow checks; in a release build arithmetic wraps and
    shift amounts are masked. *)
Inductive build : Type := Debug | Release.
Existing Class build.
Definition overflow {md : build} (p : panic) (wrapped : N) : M N :=
  match md with Debug => Panic p | Release => Ret wrapped end.
(** [a + b], [a * b], [a - b] at width [w]. *)
Definition cadd {md : build} (w a b : N) : M N :=
  if a + b <? 2 ^ w then Ret (a + b) else overflow POverflow (wrap w (a + b)).
Definition cmul {md : build} (w a b : N) : M N :=
  if a * b <? 2 ^ w then Ret (a * b) else overflow POverflow (wrap w (a * b)).
Definition csub {md : build} (w a b : N) : M N :=
  if b <=? a then Ret (a - b) else overflow POverflow (wrap w (2 ^ w + a - b)).
(** [x << k] at width [w]. *)
Definition shl {md : build} (w x k : N) : M N :=
  if k <? w then Ret (wrap w (N.shiftl x k)) else overflow PShift (wrap w (N.shiftl x (k mod w))).
(** [!x] at width [w]. *)
Definition bnot (w x : N) : N := N.lnot x w.

(** [uW::count_ones], [trailing_zeros], [leading_zeros] of the core library. *)
Fixpoint pos_count_ones (p : positive) : N :=
  match p with
  | xH => 1
  | xO q => pos_count_ones q
  | xI q => 1 + pos_count_ones q
  end.
Definition u_count_ones (x : N) : N := match x with N0 => 0 | Npos p => pos_count_ones p end.
Fixpoint pos_trailing_zeros (p : positive) : N :=
  match p with xO q => 1 + pos_trailing_zeros q | _ => 0 end.
Definition u_trailing_zeros (w x : N) : N :=
  match x with N0 => w | Npos p => pos_trailing_zeros p end.
Definition u_leading_zeros (w x : N) : N := w - N.size x.

(** The unsigned integer types of the public conversion functions. [pw] is
    the pointer width of the target, i.e. the width of [usize]. *)
Inductive ity : Type := U8 | U16 | U32 | U64 | U128 | Usize.
Definition ity_bits (pw : N) (t : ity) : N :=
  match t with U8 => 8 | U16 => 16 | U32 => 32 | U64 => 64 | U128 => 128 | Usize => pw end.

(** ** Arrays and slices *)

(** [l[i]] *)
Definition get {A} (l : list A) (i : nat) : M A :=
  match nth_error l i with Some x => Ret x | None => Panic PIndex end.
Fixpoint upd {A} (l : list A) (i : nat) (x : A) : list A :=
  match l, i with
  | [], _ => []
  | _ :: t, O => x :: t
  | h :: t, S j => h :: upd t j x
  end.
(** [l[i] = x] *)
Definition set {A} (l : list A) (i : nat) (x : A) : M (list A) :=
  if Nat.ltb i (length l) then Ret (upd l i x) else Panic PIndex.
(** [dst[..k].copy_from_slice(&src[..k])] *)
Definition copy_prefix {A} (dst : list A) (k : nat) (src : list A) : M (list A) :=
  if Nat.leb k (length dst) && Nat.leb k (length src)
  then Ret (firstn k src ++ skipn k dst) else Panic PIndex.

(** ** Loops *)

(** The index sequence of [lo..hi]. *)
Definition range (lo hi : nat) : list nat := seq lo (hi - lo).

(** [for i in is { s = body(i, s) }] *)
Fixpoint for_each {I St} (is : list I) (s : St) (body : I -> St -> M St) : M St :=
  match is with
  | [] => Ret s
  | i :: rest => s' <- body i s ;; for_each rest s' body
  end.

(** Outcome of one iteration of a loop body containing [return] / [break]. *)
Inductive ctrl (St B : Type) : Type := Next (s : St) | Break (s : St) | Return (b : B).
Arguments Next {St B} _.
Arguments Break {St B} _.
Arguments Return {St B} _.

(** Loop with early exit; [inl s]: fell through (or broke out) with state [s];
    [inr b]: the enclosing function returned [b]. *)
Fixpoint for_ctrl {I St B} (is : list I) (s : St) (body : I -> St -> M (ctrl St B)) : M (St + B) :=
  match is with
  | [] => Ret (inl s)
  | i :: rest =>
      c <- body i s ;;
      match c with
      | Next s' => for_ctrl rest s' body
      | Break s' => Ret (inl s')
      | Return b => Ret (inr b)
      end
  end.

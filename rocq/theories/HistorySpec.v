(** * Histories of API calls: the commands and the abstract machine

    A program works on set variables and iterator variables, both numbered. The
    abstract machine knows nothing about storages: a set variable holds a
    mathematical set of variants, an iterator variable the list of variants still
    to come. The only things it shares with the model are the types of the values
    that API calls take and return. *)
From Verif Require Import Base Repr Syntax Spec Serde ApiSpec ExtraSpec.

(** ** Commands *)
Inductive bop : Type := BOr | BAnd | BXor | BSub.
(** A right operand: a set variable or a variant. *)
Inductive arg : Type := ASet (r : nat) | AVar (v : nat).

(** Calls that return a set. Methods changing a set are calls whose result is
    stored back into the same variable. *)
Inductive scall : Type :=
| KNew | KEmpty | KDefault | KAll
| KOnly (v : nat) | KFrom (v : nat)
| KCopy (r : nat) | KClear (r : nat)
| KMethod (op : bop) (a b : nat)            (* union, intersection, symmetrical_difference, difference *)
| KComplement (a : nat)
| KInsertAll (a b : nat) | KRemoveAll (a b : nat)
| KOper (op : bop) (a : nat) (o : arg)      (* | & ^ - *)
| KAssign (op : bop) (a : nat) (o : arg)    (* |= &= ^= -= *)
| KNot (a : nat)
| KVarOper (op : bop) (u : nat) (o : arg)   (* the operators on a bare variant *)
| KVarNot (u : nat)
| KFromTruncated (t : ity) (x : N) | KFromUnchecked (t : ity) (x : N)
| KFromArrayTruncated (l : list N) | KFromArrayUnchecked (l : list N)
| KFromSliceTruncated (l : list N) | KFromSliceUnchecked (l : list N)
| KExtend (a : nat) (items : list nat) | KFromIter (items : list nat) | KSum (items : list nat)
| KExtendSets (a : nat) (rs : list nat) | KFromIterSets (rs : list nat) | KSumSets (rs : list nat)
| KEnumSet (l : list arg)
| KMacro (op : bop) (o : arg) (l : list arg)
| KMacroComplement (o : arg).

Inductive cmd : Type :=
| CLet (d : nat) (k : scall)
| CInsert (r v : nat) | CRemove (r v : nat)
(* conversions that may fail; the variable [d] is set when they succeed *)
| CTryFrom (d : nat) (t : ity) (x : N) | CTryFromArray (d : nat) (l : list N) | CTryFromSlice (d : nat) (l : list N)
(* the greater, the lesser of two sets, and a set moved between two others *)
| CMax (d a b : nat) | CMin (d a b : nat) | CClamp (d x lo hi : nat)
(* conversions that may panic *)
| CFromNum (d : nat) (t : ity) (x : N) | CFromArray (d : nat) (l : list N) | CFromSlice (d : nat) (l : list N)
(* the methods of enums with an integer as repr; a call of a foreign function that
   takes and returns a set by its memory, set.rs:72-115 *)
| CAsRepr (r : nat) | CTryFromRepr (d : nat) (x : N) | CFromRepr (d : nat) (x : N)
| CFromReprTruncated (d : nat) (x : N) | CFromReprUnchecked (d : nat) (x : N)
| CForeign (d : nat) (f : N -> N) (r : nat)
(* queries *)
| CContains (r v : nat) | CLen (r : nat) | CIsEmpty (r : nat)
| CIsDisjoint (a b : nat) | CIsSubset (a b : nat) | CIsSuperset (a b : nat)
| CEq (a b : nat) | CEqVar (r v : nat) | CVarEqSet (v r : nat) | CVarEqVar (u v : nat)
| CVariantCount | CBitWidth
| CCmp (a b : nat) | CPartialCmp (a b : nat) | CHash (r : nat)
| CNe (a b : nat) | CLt (a b : nat) | CLe (a b : nat) | CGt (a b : nat) | CGe (a b : nat)
| CTryAs (t : ity) (r : nat) | CAs (t : ity) (r : nat) | CAsTruncated (t : ity) (r : nat)
| CTryAsArray (k r : nat) | CAsArray (k r : nat) | CAsArrayTruncated (k r : nat)
| CToVec (r : nat)
| CTryCopy (r : nat) (out : list N) | CCopy (r : nat) (out : list N) | CCopyTruncated (r : nat) (out : list N)
| CCollect (r : nat) | CCollectRev (r : nat)
| CDisplay (elem : nat -> string) (r : nat) | CDebug (elem : nat -> string) (r : nat)
(* iterators *)
| CIter (i r : nat) | CIntoIter (i r : nat) | CIterClone (j i : nat)
| CNext (i : nat) | CNextBack (i : nat) | CSizeHint (i : nat) | CIterLen (i : nat)
| CNth (i n : nat) | CNthBack (i n : nat) | CFind (i : nat) (p : nat -> bool) | CFindBack (i : nat) (p : nat -> bool)
| CAny (i : nat) (p : nat -> bool) | CAllItems (i : nat) (p : nat -> bool)
(* the build mode is that of the crate that makes the call: core counts with its overflow checks *)
| CPosition (md : build) (i : nat) (p : nat -> bool)
(* methods that use the iterator up *)
| CLast (i : nat) | CCount (md : build) (i : nat) | CRest (i : nat)  (* collects into a vector *)
| CFold (i : nat) (f : N -> nat -> N) (x : N) | CFoldBack (i : nat) (f : N -> nat -> N) (x : N)
| CPartition (d e i : nat) (p : nat -> bool) (* let (d, e) = i.partition(p) *)
| CExtendIter (d i : nat)                   (* d.extend(&mut i) *)
(* serde *)
| CSerialize (r : nat) | CDeserialize (d : nat) (src : de_source).

(** What a call returns. *)
Inductive output : Type :=
| OUnit
| OBool (b : bool)
| ONum (x : N)
| OOptNum (x : option N)
| OWords (l : list N)
| OOptWords (l : option (list N))
| OCopied (ok : bool) (l : list N)          (* result of a copy and the slice afterwards *)
| OVariants (l : list nat)
| OOptVariant (v : option nat)
| OHint (lo : N) (hi : option N)
| OCmp (c : comparison)
| OOptCmp (c : option comparison)
| OHash (l : list hash_write)
| OText (s : string)
| OEvents (l : list sevent)
| OError (e : de_error)
| ONoIterator.                              (* the iterator variable is not initialised *)

Definition update {X} (f : nat -> X) (i : nat) (x : X) : nat -> X :=
  fun j => if Nat.eqb j i then x else f j.

(** ** The abstract machine *)
Section Abstract.
Context (pw : N) (inp : derive_input).

(** The variants in increasing order of their discriminants. *)
Fixpoint place (v : nat) (l : list nat) : list nat :=
  match l with
  | [] => [v]
  | u :: l => if discr inp v <? discr inp u then v :: u :: l else u :: place v l
  end.
Definition ordered : list nat := fold_right place [] (variants inp).
Definition elements (A : vset) : list nat := filter A ordered.

(** The first [k] words of the number of a set. *)
Definition set_words (A : vset) (k : nat) : list N :=
  map (fun j => (set_value inp A / 2 ^ (64 * N.of_nat j)) mod 2 ^ 64) (seq 0 k).
Definition number_of_words (l : list N) : N := fold_right (fun x y => x + 2 ^ 64 * y) 0 l.
(** All set bits of [x] are variants. *)
Definition known (x : N) : bool := N.land x (set_value inp (fun _ => true)) =? x.
(** All members have a discriminant below [b]. *)
Definition fits_in (A : vset) (b : N) : bool :=
  forallb (fun v => implb (A v) (discr inp v <? b)) (variants inp).
Definition for_all (P : nat -> bool) : bool := forallb P (variants inp).

Definition bop_bool (op : bop) (a b : bool) : bool :=
  match op with BOr => a || b | BAnd => a && b | BXor => xorb a b | BSub => a && negb b end.

Record astate : Type := { a_sets : nat -> vset; a_iters : nat -> option (list nat) }.
Definition a_init : astate := {| a_sets := fun _ _ => false; a_iters := fun _ => None |}.
Definition a_set (st : astate) (d : nat) (A : vset) : astate :=
  {| a_sets := update (a_sets st) d A; a_iters := a_iters st |}.
Definition a_set_iter (st : astate) (i : nat) (l : list nat) : astate :=
  {| a_sets := a_sets st; a_iters := update (a_iters st) i (Some l) |}.
Definition a_drop_iter (st : astate) (i : nat) : astate :=
  {| a_sets := a_sets st; a_iters := update (a_iters st) i None |}.

Definition a_arg (st : astate) (o : arg) : vset :=
  match o with ASet r => a_sets st r | AVar v => fun u => Nat.eqb u v end.

Definition a_call (st : astate) (k : scall) : vset :=
  match k with
  | KNew | KEmpty | KDefault | KClear _ => fun _ => false
  | KAll => fun _ => true
  | KOnly v | KFrom v => fun u => Nat.eqb u v
  | KCopy r => a_sets st r
  | KMethod op a b => fun v => bop_bool op (a_sets st a v) (a_sets st b v)
  | KComplement a | KNot a => fun v => negb (a_sets st a v)
  | KInsertAll a b => fun v => a_sets st a v || a_sets st b v
  | KRemoveAll a b => fun v => a_sets st a v && negb (a_sets st b v)
  | KOper op a o | KAssign op a o => fun v => bop_bool op (a_sets st a v) (a_arg st o v)
  | KVarOper op u o => fun v => bop_bool op (Nat.eqb v u) (a_arg st o v)
  | KVarNot u => fun v => negb (Nat.eqb v u)
  | KFromTruncated _ x | KFromUnchecked _ x => bits_set inp x
  | KFromArrayTruncated l | KFromArrayUnchecked l | KFromSliceTruncated l | KFromSliceUnchecked l =>
      fun v => word_bit l (discr inp v)
  | KExtend a items => fun v => a_sets st a v || existsb (Nat.eqb v) items
  | KFromIter items | KSum items => fun v => existsb (Nat.eqb v) items
  | KExtendSets a rs => fun v => a_sets st a v || existsb (fun r => a_sets st r v) rs
  | KFromIterSets rs | KSumSets rs => fun v => existsb (fun r => a_sets st r v) rs
  | KEnumSet l => fun v => existsb (fun o => a_arg st o v) l
  | KMacro op o l => fun v => fold_left (fun b p => bop_bool op b (a_arg st p v)) l (a_arg st o v)
  | KMacroComplement o => fun v => negb (a_arg st o v)
  end.

Definition invalid_bits : panic := PExpect "Bitset contains invalid variants.".
Definition no_fit : panic := PExpect "Bitset will not fit into this type.".
Definition no_fit_slice : panic := PExpect "Bitset will not fit into slice.".
Definition wrong_bounds : panic := PExplicit "assertion failed: min <= max".

(** The integer type of an integer serialization format. *)
Definition name_ity (s : string) : option ity :=
  (if s =? "u8" then Some U8 else if s =? "u16" then Some U16 else if s =? "u32" then Some U32
   else if s =? "u64" then Some U64 else if s =? "u128" then Some U128 else None)%string.

Definition a_serialize (A : vset) : list sevent :=
  match name_ity (serialize_name inp) with
  | Some t => [EvInt t (set_value inp A)]
  | None =>
      if (serialize_name inp =? "list")%string then EvSeq (set_size inp A) :: map EvElem (elements A) ++ [EvSeqEnd]
      else if (serialize_name inp =? "map")%string then
        EvMap (set_size inp A) :: map (fun v => EvEntry v true) (elements A) ++ [EvMapEnd]
      else
        let n := words_written inp A in
        EvSeq n :: map EvLimb (set_words A (N.to_nat n)) ++ [EvSeqEnd]
  end.
Definition a_deserialize (src : de_source) : M (result vset de_error) :=
  match name_ity (serialize_name inp) with
  | Some t =>
      match src_int src t with
      | Err e => Ret (Err e)
      | Ok x => if at_deny_unknown (in_attrs inp) && negb (known x)
                then Ret (Err (DeCustom "enumset contains unknown bits"))
                else Ret (Ok (bits_set inp x))
      end
  | None =>
      if (serialize_name inp =? "list")%string then
        match src_list src with
        | Err e => Ret (Err e)
        | Ok items => match all_ok items with
                      | Err e => Ret (Err e)
                      | Ok vs => Ret (Ok (fun v => existsb (Nat.eqb v) vs))
                      end
        end
      else if (serialize_name inp =? "map")%string then
        match src_map src with
        | Err e => Ret (Err e)
        | Ok items => match all_ok items with
                      | Err e => Ret (Err e)
                      | Ok es => Ret (Ok (fun v => existsb (fun e => Nat.eqb v (fst e) && snd e) es))
                      end
        end
      else
        match src_words src with
        | Err e => Ret (Err e)
        | Ok items =>
            match all_ok items with
            | Err e => Ret (Err e)
            | Ok ws =>
                if known (number_of_words (firstn (N.to_nat (storage_words (storage_of inp))) ws))
                then Ret (Ok (fun v => word_bit ws (discr inp v)))
                else Panic invalid_bits
            end
        end
  end.

Definition a_step (c : cmd) (st : astate) : M (output * astate) :=
  let S := a_sets st in
  let out o : M (output * astate) := Ret (o, st) in
  let assign d A : M (output * astate) := Ret (OUnit, a_set st d A) in
  let try_assign d x A : M (output * astate) :=
    if known x then Ret (OBool true, a_set st d A) else out (OBool false) in
  let must_assign d x A : M (output * astate) := if known x then assign d A else Panic invalid_bits in
  let with_iter i (f : list nat -> M (output * astate)) : M (output * astate) :=
    match a_iters st i with Some l => f l | None => out ONoIterator end in
  let compare a b :=
    match storage_of inp with
    | SInt _ => set_value inp (S a) ?= set_value inp (S b)
    | SWords n => lex_compare (set_words (S a) (N.to_nat n)) (set_words (S b) (N.to_nat n))
    end in
  match c with
  | CLet d k => assign d (a_call st k)
  | CInsert r v => Ret (OBool (negb (S r v)), a_set st r (fun u => Nat.eqb u v || S r u))
  | CRemove r v => Ret (OBool (S r v), a_set st r (fun u => negb (Nat.eqb u v) && S r u))
  | CTryFrom d t x => try_assign d x (bits_set inp x)
  | CTryFromArray d l | CTryFromSlice d l => try_assign d (number_of_words l) (fun v => word_bit l (discr inp v))
  | CFromNum d t x => must_assign d x (bits_set inp x)
  | CFromArray d l | CFromSlice d l => must_assign d (number_of_words l) (fun v => word_bit l (discr inp v))
  | CMax d a b => assign d (match compare a b with Gt => S a | _ => S b end)
  | CMin d a b => assign d (match compare a b with Gt => S b | _ => S a end)
  | CClamp d x lo hi =>
      match compare lo hi with
      | Gt => Panic wrong_bounds
      | _ => assign d (match compare x lo, compare x hi with Lt, _ => S lo | _, Gt => S hi | _, _ => S x end)
      end
  | CAsRepr r => out (ONum (set_value inp (S r)))
  | CTryFromRepr d x => try_assign d x (bits_set inp x)
  | CFromRepr d x => must_assign d x (bits_set inp x)
  | CFromReprTruncated d x | CFromReprUnchecked d x => assign d (bits_set inp x)
  | CForeign d f r => assign d (bits_set inp (f (set_value inp (S r))))
  | CContains r v => out (OBool (S r v))
  | CLen r => out (ONum (set_size inp (S r)))
  | CIsEmpty r => out (OBool (for_all (fun v => negb (S r v))))
  | CIsDisjoint a b => out (OBool (for_all (fun v => negb (S a v && S b v))))
  | CIsSubset a b => out (OBool (for_all (fun v => implb (S a v) (S b v))))
  | CIsSuperset a b => out (OBool (for_all (fun v => implb (S b v) (S a v))))
  | CEq a b => out (OBool (for_all (fun v => Bool.eqb (S a v) (S b v))))
  | CEqVar r v | CVarEqSet v r => out (OBool (for_all (fun u => Bool.eqb (S r u) (Nat.eqb u v))))
  | CVarEqVar u v => out (OBool (Nat.eqb u v))
  | CVariantCount => out (ONum (N.of_nat (length (in_variants inp))))
  | CBitWidth => out (ONum (max_discr inp + 1))
  | CCmp a b => out (OCmp (compare a b))
  | CPartialCmp a b => out (OOptCmp (Some (compare a b)))
  | CNe a b => out (OBool (negb (for_all (fun v => Bool.eqb (S a v) (S b v)))))
  | CLt a b => out (OBool (match compare a b with Lt => true | _ => false end))
  | CLe a b => out (OBool (match compare a b with Gt => false | _ => true end))
  | CGt a b => out (OBool (match compare a b with Gt => true | _ => false end))
  | CGe a b => out (OBool (match compare a b with Lt => false | _ => true end))
  | CHash r => out (OHash match storage_of inp with
                          | SInt b => [HInt b (set_value inp (S r))]
                          | SWords n => [HLen (N.to_nat n); HWords (set_words (S r) (N.to_nat n))]
                          end)
  | CTryAs t r => out (OOptNum (if fits_in (S r) (ity_bits pw t) then Some (set_value inp (S r)) else None))
  | CAs t r => if fits_in (S r) (ity_bits pw t) then out (ONum (set_value inp (S r))) else Panic no_fit
  | CAsTruncated t r => out (ONum (set_value inp (S r) mod 2 ^ ity_bits pw t))
  | CTryAsArray k r => out (OOptWords (if fits_in (S r) (64 * N.of_nat k) then Some (set_words (S r) k) else None))
  | CAsArray k r => if fits_in (S r) (64 * N.of_nat k) then out (OWords (set_words (S r) k)) else Panic no_fit
  | CAsArrayTruncated k r => out (OWords (set_words (S r) k))
  | CToVec r => out (OWords (set_words (S r) (N.to_nat (storage_words (storage_of inp)))))
  | CTryCopy r l => out (if fits_in (S r) (64 * N.of_nat (length l)) then OCopied true (set_words (S r) (length l))
                         else OCopied false l)
  | CCopy r l => if fits_in (S r) (64 * N.of_nat (length l)) then out (OWords (set_words (S r) (length l)))
                 else Panic no_fit_slice
  | CCopyTruncated r l => out (OWords (set_words (S r) (length l)))
  | CCollect r => out (OVariants (elements (S r)))
  | CCollectRev r => out (OVariants (rev (elements (S r))))
  | CDisplay elem r => out (OText (display_text elem (elements (S r))))
  | CDebug elem r => out (OText (debug_text elem (elements (S r))))
  | CIter i r | CIntoIter i r => Ret (OUnit, a_set_iter st i (elements (S r)))
  | CIterClone j i => with_iter i (fun l => Ret (OUnit, a_set_iter st j l))
  | CNext i => with_iter i (fun l => Ret (OOptVariant (hd_error l), a_set_iter st i (tl l)))
  | CNextBack i => with_iter i (fun l => Ret (OOptVariant (hd_error (rev l)), a_set_iter st i (rev (tl (rev l)))))
  | CSizeHint i => with_iter i (fun l => out (OHint (N.of_nat (length l)) (Some (N.of_nat (length l)))))
  | CIterLen i => with_iter i (fun l => out (ONum (N.of_nat (length l))))
  | CNth i n => with_iter i (fun l => Ret (OOptVariant (nth_error l n), a_set_iter st i (skipn (n + 1) l)))
  | CNthBack i n =>
      with_iter i (fun l => Ret (OOptVariant (nth_error (rev l) n), a_set_iter st i (rev (skipn (n + 1) (rev l)))))
  | CFind i p => with_iter i (fun l => Ret (OOptVariant (find p l), a_set_iter st i (after_first p l)))
  | CFindBack i p =>
      with_iter i (fun l => Ret (OOptVariant (find p (rev l)), a_set_iter st i (rev (after_first p (rev l)))))
  | CAny i p => with_iter i (fun l => Ret (OBool (existsb p l), a_set_iter st i (after_first p l)))
  | CAllItems i p => with_iter i (fun l => Ret (OBool (forallb p l), a_set_iter st i (after_first (fun v => negb (p v)) l)))
  | CLast i => with_iter i (fun l => Ret (OOptVariant (hd_error (rev l)), a_drop_iter st i))
  | CCount _ i => with_iter i (fun l => Ret (ONum (N.of_nat (length l)), a_drop_iter st i))
  | CRest i => with_iter i (fun l => Ret (OVariants l, a_drop_iter st i))
  | CFold i f x => with_iter i (fun l => Ret (ONum (fold_left f l x), a_drop_iter st i))
  | CFoldBack i f x => with_iter i (fun l => Ret (ONum (fold_left f (rev l) x), a_drop_iter st i))
  | CPosition _ i p => with_iter i (fun l => Ret (OOptNum (first_index p l), a_set_iter st i (after_first p l)))
  | CPartition d e i p =>
      with_iter i (fun l =>
        Ret (OUnit, a_drop_iter (a_set (a_set st d (fun v => existsb (Nat.eqb v) (filter p l))) e
                                       (fun v => existsb (Nat.eqb v) (filter (fun u => negb (p u)) l))) i))
  | CExtendIter d i =>
      with_iter i (fun l => Ret (OUnit, a_set_iter (a_set st d (fun v => S d v || existsb (Nat.eqb v) l)) i []))
  | CSerialize r => out (OEvents (a_serialize (S r)))
  | CDeserialize d src =>
      r <- a_deserialize src ;;
      match r with Ok A => assign d A | Err e => out (OError e) end
  end.

(** The values returned by the calls of a history until the first panic, and
    how the history ends. *)
Fixpoint a_run (cs : list cmd) (st : astate) : list output * M unit :=
  match cs with
  | [] => ([], Ret tt)
  | c :: cs =>
      match a_step c st with
      | Ret (o, st) => let '(os, r) := a_run cs st in (o :: os, r)
      | Panic p => ([], Panic p)
      | UB => ([], UB)
      | OutOfFuel => ([], OutOfFuel)
      end
  end.

(** ** Programs

    A program chooses the next call by the results of the calls before, or
    stops. [a_play] makes at most [n] calls. *)
Definition program : Type := list output -> option cmd.
Fixpoint a_play (n : nat) (prog : program) (seen : list output) (st : astate) : list output * M unit :=
  match n with
  | O => (seen, Ret tt)
  | S n =>
      match prog seen with
      | None => (seen, Ret tt)
      | Some c =>
          match a_step c st with
          | Ret (o, st) => a_play n prog (seen ++ [o]) st
          | Panic p => (seen, Panic p)
          | UB => (seen, UB)
          | OutOfFuel => (seen, OutOfFuel)
          end
      end
  end.

(** ** Commands with arguments of the right Rust types

    The [unchecked] constructors and foreign functions are unsafe: their safety
    condition must hold. *)
Definition arg_ok (o : arg) : Prop := match o with ASet _ => True | AVar v => variant inp v end.
Definition scall_ok (k : scall) : Prop :=
  match k with
  | KOnly v | KFrom v | KVarNot v => variant inp v
  | KOper _ _ o | KAssign _ _ o | KMacroComplement o => arg_ok o
  | KVarOper _ u o => variant inp u /\ arg_ok o
  | KFromTruncated t x => x < 2 ^ ity_bits pw t
  | KFromUnchecked t x => x < 2 ^ ity_bits pw t /\ only_variant_bits inp x
  | KFromArrayTruncated l | KFromSliceTruncated l => words_ok l
  | KFromArrayUnchecked l | KFromSliceUnchecked l => words_ok l /\ only_variant_words inp l
  | KExtend _ items | KFromIter items | KSum items => forall v, In v items -> variant inp v
  | KEnumSet l => forall o, In o l -> arg_ok o
  | KMacro _ o l => forall p, In p (o :: l) -> arg_ok p
  | _ => True
  end.
(** The generated serde code compiles (see C43). *)
Definition serde_usable : Prop :=
  at_deny_unknown (in_attrs inp) = true ->
  serialize_name inp = "list"%string \/ serialize_name inp = "map"%string \/
  (serialize_name inp <> "array"%string /\ exists b, storage_of inp = SInt b).
(** [x] is a value of the integer type that the sets are stored in. *)
Definition repr_value (x : N) : Prop := exists b, storage_of inp = SInt b /\ x < 2 ^ b.
Definition cmd_ok (c : cmd) : Prop :=
  match c with
  | CLet _ k => scall_ok k
  | CInsert _ v | CRemove _ v | CContains _ v | CEqVar _ v | CVarEqSet v _ => variant inp v
  | CVarEqVar u v => variant inp u /\ variant inp v
  | CTryFrom _ t x | CFromNum _ t x => x < 2 ^ ity_bits pw t
  | CTryFromArray _ l | CTryFromSlice _ l | CFromArray _ l | CFromSlice _ l => words_ok l
  | CAsRepr _ => repr_value 0
  | CTryFromRepr _ x | CFromRepr _ x | CFromReprTruncated _ x => repr_value x
  | CFromReprUnchecked _ x => repr_value x /\ only_variant_bits inp x
  | CForeign _ f _ => repr_value 0 /\ forall x, only_variant_bits inp x -> only_variant_bits inp (f x)
  | CSerialize _ => serde_usable
  | CDeserialize _ src => serde_usable /\ SourceOk pw inp src
  | _ => True
  end.
(** The first [n] calls that the program makes, given the results they have in
    the abstract machine, satisfy [P]. *)
Fixpoint a_calls (P : cmd -> Prop) (n : nat) (prog : program) (seen : list output) (st : astate) : Prop :=
  match n with
  | O => True
  | S n =>
      match prog seen with
      | None => True
      | Some c => P c /\ match a_step c st with Ret (o, st) => a_calls P n prog (seen ++ [o]) st | _ => True end
      end
  end.
Definition calls (P : cmd -> Prop) (n : nat) (prog : program) : Prop := a_calls P n prog [] a_init.
End Abstract.

(** ** Which commands are documented to panic *)
Definition may_panic (inp : derive_input) (c : cmd) : Prop :=
  match c with
  | CFromNum _ _ _ | CFromArray _ _ | CFromSlice _ _ | CFromRepr _ _ | CAs _ _ | CAsArray _ _ | CCopy _ _ | CClamp _ _ _ _ => True
  | CDeserialize _ _ => serialize_name inp = "array"%string
  | _ => False
  end.

(** The messages of the documented panics. *)
Definition documented_panics : list panic := [invalid_bits; no_fit; no_fit_slice; wrong_bounds].

(** ** Commands whose result should not depend on the storage *)

(** Order and hash are those of the stored value, [to_vec] returns as many
    words as the storage has, and some methods exist only for integer storages. *)
Definition uses_repr (c : cmd) : Prop :=
  match c with
  | CAsRepr _ | CTryFromRepr _ _ | CFromRepr _ _ | CFromReprTruncated _ _ | CFromReprUnchecked _ _ | CForeign _ _ _ => True
  | _ => False
  end.
Definition portable (c : cmd) : Prop :=
  match c with
  | CCmp _ _ | CPartialCmp _ _ | CLt _ _ | CLe _ _ | CGt _ _ | CGe _ _
  | CMax _ _ _ | CMin _ _ _ | CClamp _ _ _ _ | CHash _ | CToVec _ => False
  | CAsRepr _ | CTryFromRepr _ _ | CFromRepr _ _ | CFromReprTruncated _ _ | CFromReprUnchecked _ _ | CForeign _ _ _ => False
  | _ => True
  end.
Definition uses_serde (c : cmd) : Prop :=
  match c with CSerialize _ | CDeserialize _ _ => True | _ => False end.
(** The two declarations serialize to the same format, not the one made of
    storage words. *)
Definition same_format (inp inp' : derive_input) : Prop :=
  serialize_name inp = serialize_name inp' /\ serialize_name inp <> "array"%string /\
  at_deny_unknown (in_attrs inp) = at_deny_unknown (in_attrs inp').

(** Conversions to [usize], whose width depends on the target. *)
Definition to_usize (c : cmd) : Prop :=
  match c with CTryAs Usize _ | CAs Usize _ | CAsTruncated Usize _ => True | _ => False end.

(** * Facts about Debug and Display *)
From Verif Require Import Base BaseFacts Repr ReprLaws.
From Verif Require Import Syntax Spec Derive EnumSet Fmt ApiSpec DeriveFacts TyFacts SetFacts IterFacts.

Section Fmt.
Context {pw : N} {inp : derive_input} {T : EnumTy} {val : eset T -> N}
        {irel : r_iter_t (et_repr T) -> list N -> Prop}.
Context (HT : TyLaws pw (discrs inp) T val irel).
Local Notation mem := (@mem inp T val).
Local Notation Valid := (@Valid inp T val).
Context {W : Type} (write_str : string -> W -> bool * W) (fmt_elem : nat -> W -> bool * W).

Definition put (p : piece) (w : W) : bool * W :=
  match p with PText s => write_str s w | PElem v => fmt_elem v w end.

Lemma perform_app {Act} (act : Act -> W -> bool * W) l l' w :
  perform act (l ++ l') w = let '(ok, w) := perform act l w in if ok then perform act l' w else (false, w).
Proof.
  revert w. induction l as [|a l IH]; intros w; cbn [perform app]; [reflexivity|].
  destruct (act a w) as [[|] w']; [apply IH|reflexivity].
Qed.

Definition body (v : nat) (st : bool * W) : M (ctrl (bool * W) W) :=
  let '(is_first, w) := st in
  let '(ok, w) := if negb is_first then write_str " | " w else (true, w) in
  if negb ok then Ret (Return w)
  else
    let is_first := false in
    let '(ok, w) := fmt_elem v w in
    if negb ok then Ret (Return w) else Ret (Next (is_first, w)).

(** The pieces written for the remaining elements. *)
Definition rest_pieces (is_first : bool) (l : list nat) : list piece :=
  match l with [] => [] | _ => (if is_first then [] else [PText " | "]) ++ separated l end.

Lemma loop_spec l : forall is_first w,
  for_ctrl l (is_first, w) body =
  Ret (let '(ok, w') := perform put (rest_pieces is_first l) w in
       if ok then inl (match l with [] => is_first | _ => false end, w') else inr w').
Proof.
  induction l as [|v l IH]; intros is_first w; cbn [for_ctrl rest_pieces].
  - reflexivity.
  - unfold body at 1.
    assert (Es : separated (v :: l) = PElem v :: rest_pieces false l) by (destruct l; reflexivity).
    rewrite Es. destruct is_first; cbn [negb app perform put].
    + destruct (fmt_elem v w) as [[|] w']; cbn [negb bind]; [|reflexivity].
      rewrite IH. destruct l; reflexivity.
    + destruct (write_str " | " w) as [[|] w1]; cbn [negb bind]; [|reflexivity].
      destruct (fmt_elem v w1) as [[|] w']; cbn [negb bind]; [|reflexivity].
      rewrite IH. destruct l; reflexivity.
Qed.
Lemma fmt_loop_spec s l w : Valid s -> lists_set inp (mem s) l ->
  exists b, fmt_loop T write_str fmt_elem s w =
  Ret (let '(ok, w') := perform put (separated l) w in if ok then inl (b, w') else inr w').
Proof.
  intros Hs Hl. exists (match l with [] => true | _ => false end).
  unfold fmt_loop. rewrite (es_for_iter HT _ s l _ Hs Hl).
  change (fun v st => _) with body. rewrite loop_spec.
  replace (rest_pieces true l) with (separated l) by (now destruct l). reflexivity.
Qed.
Lemma display_spec s l w : Valid s -> lists_set inp (mem s) l ->
  fmt_display T write_str fmt_elem s w = Ret (perform put (display_pieces l) w).
Proof.
  intros Hs Hl. unfold fmt_display, display_pieces. destruct (fmt_loop_spec s l w Hs Hl) as (b & ->). rewrite bind_ret.
  destruct (perform put (separated l) w) as [[|] w']; reflexivity.
Qed.
Lemma debug_spec s l w : Valid s -> lists_set inp (mem s) l ->
  fmt_debug T write_str fmt_elem s w = Ret (perform put (debug_pieces l) w).
Proof.
  intros Hs Hl. unfold fmt_debug, debug_pieces. cbn [perform put].
  destruct (write_str "EnumSet(" w) as [[|] w1]; cbn [negb]; [|reflexivity].
  destruct (fmt_loop_spec s l w1 Hs Hl) as (b & ->). rewrite bind_ret, perform_app.
  destruct (perform put (separated l) w1) as [[|] w']; [|reflexivity]. cbn [perform put].
  destruct (write_str ")" w') as [[|] w2]; reflexivity.
Qed.
End Fmt.

(** ** Text sinks *)
Lemma append_assoc a b c : ((a ++ b) ++ c = a ++ (b ++ c))%string.
Proof. induction a as [|x a IH]; cbn [append]; [reflexivity|]. now rewrite IH. Qed.
Lemma append_nil_r a : (a ++ "" = a)%string.
Proof. induction a as [|x a IH]; cbn [append]; [reflexivity|]. now rewrite IH. Qed.

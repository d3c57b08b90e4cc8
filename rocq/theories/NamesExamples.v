(** * Names used beside the theorems about them *)
From Coq Require Import Ascii.
From Verif Require Import Base Syntax Spec Derive Impls Examples Names NamesSpec.
Local Open Scope string_scope.

(** Does the name spoil some use? *)
Definition rightb (name : string) (p : place) : bool :=
  match pl_use p with
  | UEnum => negb (existsb (String.eqb name) (pl_scope p))
  | UOutside s => negb (existsb (String.eqb s) (pl_scope p)) && negb (s =? name)
  | UOwn s => existsb (String.eqb s) (pl_scope p)
  end.
Definition spoilt_with (serde : bool) (o : switches) (inp : derive_input) (name : string) : bool :=
  match derive_info Debug inp with
  | Ret (Ok i) => negb (forallb (rightb name) (generated_uses serde o i))
  | _ => false
  end.
Lemma in_scope s l : existsb (String.eqb s) l = true <-> In s l.
Proof.
  rewrite existsb_exists. split; [intros (x & H & E); apply String.eqb_eq in E; now subst|].
  intros H. exists s. now rewrite String.eqb_refl.
Qed.
Lemma rightb_right name p : rightb name p = true <-> right name p.
Proof.
  unfold rightb, right. destruct (pl_use p) as [|s|s].
  - rewrite negb_true_iff, <- not_true_iff_false, in_scope. split; [now constructor|intros H; now inversion H].
  - rewrite andb_true_iff, !negb_true_iff, <- not_true_iff_false, in_scope, String.eqb_neq.
    split; [intros []; now constructor|intros H; now inversion H].
  - rewrite in_scope. split; [now constructor|intros H; now inversion H].
Qed.
Lemma spoilt_with_right serde o inp name i : derive_info Debug inp = Ret (Ok i) ->
  (spoilt_with serde o inp name = false <-> Forall (right name) (generated_uses serde o i)).
Proof.
  intros H. unfold spoilt_with. rewrite H, negb_false_iff, forallb_forall, Forall_forall.
  split; intros HF p Hp; apply rightb_right; auto.
Qed.
(** Are all paths [Self::..] clear in the code for [listed], if its variants were called so? *)
Definition clearb (variants : list string) (o : switches) : bool :=
  match derive_info Debug listed with
  | Ret (Ok i) => forallb (fun b => forallb (fun x => existsb (String.eqb x) (ib_types b) && negb (existsb (String.eqb x) variants)) (ib_self b)) (impl_blocks o i)
  | _ => false
  end.
Lemma clearb_clear variants o i : derive_info Debug listed = Ret (Ok i) ->
  (clearb variants o = true <-> Forall (clear variants) (impl_blocks o i)).
Proof.
  intros H. unfold clearb, clear. rewrite H, forallb_forall, Forall_forall.
  split; intros HF b Hb; specialize (HF b Hb).
  - rewrite forallb_forall in HF. intros x Hx. specialize (HF x Hx).
    rewrite andb_true_iff, negb_true_iff, <- not_true_iff_false, !in_scope in HF. exact HF.
  - rewrite forallb_forall. intros x Hx. rewrite andb_true_iff, negb_true_iff, <- not_true_iff_false, !in_scope. auto.
Qed.
Lemma listed_info : exists i, derive_info Debug listed = Ret (Ok i).
Proof. eexists. vm_compute. reflexivity. Qed.
Lemma captured_visitor : Captured true (MkSwitches false false) listed "Visitor".
Proof. constructor; [reflexivity|]. now left. Qed.
Lemma not_captured_S : ~ Captured false (MkSwitches true false) small "S".
Proof. intros C. inversion C; subst; discriminate. Qed.
Lemma capital_Into : capitalised "Into".
Proof. exists "I"%char, "nto". split; [reflexivity|]. now exists 8%nat. Qed.
Lemma capital_Enum1 : capitalised "Enum1".
Proof. exists "E"%char, "num1". split; [reflexivity|]. now exists 4%nat. Qed.
Lemma unlisted_Enum1 : ~ In "Enum1" ["A"; "D"; "Into"; "O"; "S"; "Visitor"].
Proof. cbn. intuition discriminate. Qed.
#[global] Hint Resolve listed_info captured_visitor not_captured_S capital_Into capital_Enum1 unlisted_Enum1 : ex.

(** * Witnesses: statements that are false of the code, and limits of it *)
From Verif Require Import Base Repr Syntax Spec Derive EnumSet Macros Fmt Serde ApiSpec ExtraSpec Examples.

(** C23: sets in array storage are not ordered by their numeric value. *)
Lemma array_order_not_numeric :
  exists pw inp T a A b B, Supported pw inp T /\
    Reachable pw inp T a /\ Denotes inp T a A /\ Reachable pw inp T b /\ Denotes inp T b B /\
    (set_value inp A ?= set_value inp B) = Gt /\ es_cmp T a b = Lt.
Proof.
  exists 64, wide, WideT, wide_ac, (among [0; 2]%nat), wide_bc, (among [1; 2]%nat). example.
Qed.

(** C35: with array serialization unknown bits are not ignored. *)
Lemma unknown_words_ignored_refuted :
  exists pw inp T src ws, Supported pw inp T /\ serde_compiles T = true /\ SourceOk pw inp src /\
    et_serde T = SArray /\ et_deny_unknown T = false /\ src_words src = Ok (map Ok ws) /\
    ~ exists s, es_deserialize T src = Ret (Ok s) /\ Denotes inp T s (fun v => word_bit ws (discr inp v)).
Proof.
  exists 64, wide, WideT, (source 0 [] [] [Ok 9]), [9]. example.
  - constructor; cbn [src_int src_list src_map src_words source].
    + intros t x [= <-].
      apply N.lt_le_trans with (2 ^ ity_bits 16 t); [apply N.mod_lt; destruct t; discriminate|].
      destruct t; vm_compute; discriminate.
    + intros items v [= <-] [].
    + intros items v b [= <-] [].
    + intros items x [= <-] [[= <-]|[]]. reflexivity.
  - intros (s & E & _). vm_compute in E. discriminate.
Qed.

(** C41: on a target with 16-bit usize, an accepted enum with [#[repr(u32)]] and
    discriminants 0 and 65536: both variants are stored in the same bit. *)
Lemma shared_bit_16 :
  exists inp T s, rustc_accepts 16 inp /\ derive Debug 16 inp = Ret (Ok T) /\ variant inp 0 /\ variant inp 1 /\
    discr inp 0 <> discr inp 1 /\
    es_only T 0 = Ret s /\ es_only T 1 = Ret s /\
    es_contains T s 0 = Ret true /\ es_contains T s 1 = Ret true /\ es_len T s = Ret 1.
Proof.
  exists huge, HugeT, (1 :: repeat 0 1024). split; [|example].
  intros d Hd. cbn in Hd. repeat destruct Hd as [<-|Hd]; [..|contradiction]; discriminate.
Qed.

(** * Properties: the attributes of the derive macro, C72 *)
From Coq Require Import Arith Permutation Sorted.
From Verif Require Import Base Repr Syntax Spec Derive EnumSet Macros Fmt Serde ApiSpec Examples Impls CrateName ExtraExamples Attrs AttrsSpec AttrsExamples.
From Verif Require AttrsClaims.

(** C72: which attributes are accepted, and the options they give *)
Theorem C72_attributes_decoded l o :
  decode_attributes l = Ok o <->
  readable l /\ (forall it, In it (all_items l) -> exists name m, it = IMeta name m /\ fits name m) /\
  NoDup (map item_name (all_items l)) /\ Given l o.
Proof. exact (AttrsClaims.attributes_decoded l o). Qed.
Print Assumptions C72_attributes_decoded.
Example C72_attributes_decoded_example :
  readable spread /\
  (forall it, In it (all_items spread) -> exists name m, it = IMeta name m /\ fits name m) /\
  decode_attributes spread = Ok spread_options /\
  decode_attributes [] = Ok (MkOptions plain_attrs (MkSwitches false false) None).
Proof. split; [exact spread_readable|]. split; [exact spread_fits|]. split; reflexivity. Qed.

(** C72: otherwise all faults are reported, in the order of the text *)
Theorem C72_attribute_errors l es :
  decode_attributes l = Err es <->
  es <> [] /\ StronglySorted earlier (map fst es) /\ forall p e, In (p, e) es <-> Fault l p e.
Proof. exact (AttrsClaims.attribute_errors l es). Qed.
Print Assumptions C72_attribute_errors.
Example C72_attribute_errors_example :
  decode_attributes faulty = Err its_faults /\
  Fault faulty (0, Some 1)%nat (ADuplicate "repr"%string) /\
  length its_faults = 8%nat.
Proof. split; [reflexivity|]. split; [|reflexivity]. apply (AttrsClaims.attribute_errors faulty its_faults); [reflexivity|left; reflexivity]. Qed.

(** C72: the order of the options and their distribution over attributes do not matter *)
Theorem C72_attribute_order l l' o : decode_attributes l = Ok o ->
  readable l' -> Permutation (all_items l) (all_items l') -> decode_attributes l' = Ok o.
Proof. exact (AttrsClaims.attribute_order l l' o). Qed.
Print Assumptions C72_attribute_order.
Example C72_attribute_order_example :
  decode_attributes spread = Ok spread_options /\
  readable joint /\
  Permutation (all_items spread) (all_items joint) /\
  decode_attributes joint = Ok spread_options.
Proof. split; [reflexivity|]. split; [exact joint_readable|]. split; [exact spread_joint|reflexivity]. Qed.

(** C72: when the whole macro succeeds *)
Theorem C72_item_accepted is_ident md pw lookup found std it :
  (exists g, derive_item is_ident md pw lookup found std it = Ret (Ok g)) <->
  exists o, (forall p e, ~ Fault (it_attributes it) p e) /\ Given (it_attributes it) o /\
    reprs_fine (it_attributes it) /\ WellFormed (declared it o) /\
    (forall n, op_crate_name o = Some n -> is_ident n = true) /\
    (forall n, op_crate_name o = None -> lookup = true -> found = FName n -> is_ident n = true).
Proof. exact (AttrsClaims.item_accepted is_ident md pw lookup found std it). Qed.
Print Assumptions C72_item_accepted.
Example C72_item_accepted_example :
  (exists g, derive_item ascii_ident Debug 64 false FError false spread_item = Ret (Ok g)) /\
  derive_item ascii_ident Debug 64 false FError false (named_item "a-b"%string) = Panic (not_an_ident "a-b"%string).
Proof. split; [|reflexivity]. destruct (summary_gen (derive_item ascii_ident Debug 64 false FError false spread_item) ("enumset"%string, [TPrivate; TEnumSetType; TWithRepr; TPartialEq; TEq; TClone; TCopy], [WAsMap])) as [g [H _]]; [vm_compute; reflexivity|]. exists g. exact H. Qed.

(** C72: faults of attributes are reported before anything else is looked at *)
Theorem C72_item_faults is_ident md pw lookup found std it es :
  derive_item is_ident md pw lookup found std it = Ret (Err (CAttributes es)) <->
  es <> [] /\ StronglySorted earlier (map fst es) /\ forall p e, In (p, e) es <-> Fault (it_attributes it) p e.
Proof. exact (AttrsClaims.item_faults is_ident md pw lookup found std it es). Qed.
Print Assumptions C72_item_faults.
Example C72_item_faults_example :
  derive_item ascii_ident Debug 64 false FError false faulty_item = Ret (Err (CAttributes its_faults)) /\
  it_is_enum faulty_item = false.
Proof. split; reflexivity. Qed.

(** C72: otherwise the fault of the declaration is reported *)
Theorem C72_item_errors is_ident md pw lookup found std it e sp :
  derive_item is_ident md pw lookup found std it = Ret (Err (CMacro e sp)) <->
  exists o rs, (forall p e, ~ Fault (it_attributes it) p e) /\ Given (it_attributes it) o /\ Reprs (it_attributes it) rs /\
    derive md pw (MkInput (it_generic it) (it_is_enum it) rs (op_attrs o) (it_variants it)) = Ret (Err (e, sp)) /\
    (forall n, op_crate_name o = Some n -> it_generic it = false -> it_is_enum it = true -> is_ident n = true).
Proof. exact (AttrsClaims.item_errors is_ident md pw lookup found std it e sp). Qed.
Print Assumptions C72_item_errors.
Example C72_item_errors_example :
  derive_item ascii_ident Debug 64 false FError false repr_item = Ret (Err (CMacro EReprParse (SpReprAttr 1))) /\
  Reprs (it_attributes repr_item) [Some "u8"%string; None].
Proof. split; [reflexivity|]. apply AttrsClaims.reprs_give. reflexivity. Qed.

(** C72: what is generated, in terms of the items given *)
Theorem C72_item_generated is_ident md pw lookup found std it g :
  derive_item is_ident md pw lookup found std it = Ret (Ok g) ->
  let given name := exists m, In (IMeta name m) (all_items (it_attributes it)) /\ says m true in
  let given_as name s := In (IMeta name (MValue (EStr s))) (all_items (it_attributes it)) in
  (exists o, Given (it_attributes it) o /\ derive md pw (declared it o) = Ret (Ok (g_type g))) /\
  (given_as "crate_name"%string (g_crate g) \/
   (forall s, ~ given_as "crate_name"%string s) /\
   g_crate g = match lookup, found with true, FName s => s | _, _ => "enumset"%string end) /\
  NoDup (g_impls g) /\
  (forall t, In t (g_impls g) <->
    match t with
    | TPrivate | TEnumSetType => True
    | TWithRepr => exists s b, given_as "repr"%string s /\ name_bits s = Some b
    | TPartialEq | TEq | TClone | TCopy => ~ given "no_super_impls"%string
    | TSub | TBitAnd | TBitOr | TBitXor | TNot | TPartialEqSet => ~ given "no_ops"%string
    end) /\
  NoDup (g_warnings g) /\
  (forall w, In w (g_warnings g) <->
    match w with
    | WAsMap => given "serialize_as_map"%string
    | WAsList => given "serialize_as_list"%string
    | WStd => std = true
    end).
Proof. exact (AttrsClaims.item_generated is_ident md pw lookup found std it g). Qed.
Print Assumptions C72_item_generated.
Example C72_item_generated_example :
  (exists g, derive_item ascii_ident Debug 64 true (FName "es") true spread_item = Ret (Ok g) /\ (g_crate g, g_impls g, g_warnings g) = ("es", [TPrivate; TEnumSetType; TWithRepr; TPartialEq; TEq; TClone; TCopy], [WAsMap; WStd]))%string /\
  (exists g, derive_item ascii_ident Debug 64 true (FName "es") true (named_item "e2") = Ret (Ok g) /\ (g_crate g, g_impls g, g_warnings g) = ("e2", [TPrivate; TEnumSetType; TPartialEq; TEq; TClone; TCopy; TSub; TBitAnd; TBitOr; TBitXor; TNot; TPartialEqSet], [WStd]))%string.
Proof. split; apply summary_gen; vm_compute; reflexivity. Qed.


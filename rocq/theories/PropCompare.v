(** * Properties of comparison operators between objects of different classes *)
From Verif Require Import PyBase Model Spec History Reach ListClass ClassSpec ModelSet SetSpec ModelDict DictSpec ModelHeap ModelMixed ModelCompare CompareSpec
  ConcreteCompare CompareProps.

(** C89: what [x op y] gives for operands of different classes, whichever of the two Python asks first and whoever answers
    [NotImplemented]: two [Set]s are compared by inclusion, a SortedList or SortedKeyList and any [Sequence] lexicographically, and
    anything else only by identity ([manner_of] in CompareSpec.v). *)
Theorem C89_meaning : forall S V K (T : listcls S V K) (key : V -> K) kltb keqb vltb eqb ltb fref dflt ord op same x y j k l m,
  list_class T ltb eqb fref dflt -> TotalOrder vltb eqb -> TotalOrder kltb keqb -> EqCompat (by_key key kltb) eqb -> 1 <= dflt -> any_order ord ->
  denotes T key kltb keqb vltb eqb dflt ord x j l -> denotes T key kltb keqb vltb eqb dflt ord y k m ->
  let r := rich T (total2 vltb) (total2 eqb) eqb (sp_compare eqb vltb) op same x y in
  match manner_of j k with
  | AsSets => exists b, r = Ok b /\ (b = true <-> set_cmp_means eqb op l m)
  | AsSequences => r = Ok (sp_compare eqb vltb op l m)
  | NotAtAll => r = match op with Ceq => Ok same | Cne => Ok (negb same) | _ => Err TypeError end
  end.
Proof. exact c89_meaning. Qed.
Print Assumptions C89_meaning.

Example C89_meaning_case : nhyps /\ nden (OKeys (ndict [(12, 1); (2, 5); (31, 4)])) KKeysView [2; 12; 31] /\ nden (OSorted (nlist [31; 2; 12])) KSorted [2; 12; 31] /\
  nden (OSet (nset [2; 12])) KSortedSet [2; 12] /\ nden (OSortedKey (nkey [31; 2; 12])) KSortedKey [31; 2; 12] /\
  ncmp Ceq false (OKeys (ndict [(12, 1); (2, 5); (31, 4)])) (OSorted (nlist [31; 2; 12])) = Ok true /\ ncmp Clt false (OSet (nset [2; 12])) (OKeys (ndict [(12, 1); (2, 5); (31, 4)])) = Ok true /\ ncmp Clt false (OSorted (nlist [31; 2; 12])) (OSet (nset [2; 12])) = Ok false /\
  ncmp Cgt false (OSorted (nlist [31; 2; 12])) (OSet (nset [2; 12])) = Ok true /\ ncmp Cge false (OKeys (ndict [(12, 1); (2, 5); (31, 4)])) (OSortedKey (nkey [31; 2; 12])) = Ok false /\ ncmp Clt false (OKeys (ndict [(12, 1); (2, 5); (31, 4)])) (OPySet [31; 2; 7]) = Ok false /\
  ncmp Clt false (OKeys (ndict [(12, 1); (2, 5); (31, 4)])) (OPyList [2; 12; 31]) = Err TypeError /\ ncmp Ceq false (OKeys (ndict [(12, 1); (2, 5); (31, 4)])) (OPyList [2; 12; 31]) = Ok false /\
  ncmp Cle false (OPyTuple [2; 12; 31]) (OSortedKey (nkey [31; 2; 12])) = Ok true /\ ncmp Ceq true (OValues (ndict [(1, 1)])) (OValues (ndict [(1, 1)])) = Ok true.
Proof.
  split; [apply nhyps_ok|]. split; [split; [reflexivity|]; split; [apply ndict_reach|]; exists [(2, 5); (12, 1); (31, 4)]; vm_compute; split; reflexivity|].
  split; [split; [reflexivity|]; split; [apply nlist_reach|vm_compute; reflexivity]|].
  split; [split; [reflexivity|]; split; [apply nset_reach|vm_compute; reflexivity]|].
  split; [split; [reflexivity|]; split; [apply nkey_reach|vm_compute; reflexivity]|]. vm_compute. repeat match goal with |- _ /\ _ => split end; reflexivity.
Qed.

(** C89: [x op y] and [y flipped-op x] are the same ([<] and [>], [<=] and [>=], [==] and [!=] with themselves), and [!=] is
    the opposite of [==]. *)
Theorem C89_symmetric : forall S V K (T : listcls S V K) (key : V -> K) kltb keqb vltb eqb ltb fref dflt ord op same x y j k l m,
  list_class T ltb eqb fref dflt -> TotalOrder vltb eqb -> TotalOrder kltb keqb -> EqCompat (by_key key kltb) eqb -> 1 <= dflt -> any_order ord ->
  denotes T key kltb keqb vltb eqb dflt ord x j l -> denotes T key kltb keqb vltb eqb dflt ord y k m ->
  let do op x y := rich T (total2 vltb) (total2 eqb) eqb (sp_compare eqb vltb) op same x y in
  do op x y = do (cmp_flip op) y x /\ do Cne x y = (let! b := do Ceq x y in Ok (negb b)).
Proof. exact c89_symmetric. Qed.
Print Assumptions C89_symmetric.

Example C89_symmetric_case : nhyps /\ nden (OKeys (ndict [(12, 1); (2, 5); (31, 4)])) KKeysView [2; 12; 31] /\ nden (OSorted (nlist [31; 2; 12])) KSorted [2; 12; 31] /\
  nden (OSet (nset [2; 12])) KSortedSet [2; 12] /\ nden (OSortedKey (nkey [31; 2; 12])) KSortedKey [31; 2; 12] /\
  ncmp Clt false (OSorted (nlist [31; 2; 12])) (OSortedKey (nkey [31; 2; 12])) = Ok true /\ ncmp Cgt false (OSortedKey (nkey [31; 2; 12])) (OSorted (nlist [31; 2; 12])) = Ok true /\ ncmp Clt false (OSet (nset [2; 12])) OOther = Err TypeError /\ ncmp Cgt false OOther (OSet (nset [2; 12])) = Err TypeError.
Proof.
  split; [apply nhyps_ok|]. split; [split; [reflexivity|]; split; [apply ndict_reach|]; exists [(2, 5); (12, 1); (31, 4)]; vm_compute; split; reflexivity|].
  split; [split; [reflexivity|]; split; [apply nlist_reach|vm_compute; reflexivity]|].
  split; [split; [reflexivity|]; split; [apply nset_reach|vm_compute; reflexivity]|].
  split; [split; [reflexivity|]; split; [apply nkey_reach|vm_compute; reflexivity]|]. vm_compute. repeat match goal with |- _ /\ _ => split end; reflexivity.
Qed.

(** C89: among objects every two of which are compared in the same manner, [==] is transitive. *)
Theorem C89_transitive : forall S V K (T : listcls S V K) (key : V -> K) kltb keqb vltb eqb ltb fref dflt ord x y z j k n lx ly lz,
  list_class T ltb eqb fref dflt -> TotalOrder vltb eqb -> TotalOrder kltb keqb -> EqCompat (by_key key kltb) eqb -> 1 <= dflt -> any_order ord ->
  denotes T key kltb keqb vltb eqb dflt ord x j lx -> denotes T key kltb keqb vltb eqb dflt ord y k ly -> denotes T key kltb keqb vltb eqb dflt ord z n lz ->
  manner_of j k = manner_of k n -> manner_of j k = manner_of j n -> manner_of j k <> NotAtAll ->
  let same x y := rich T (total2 vltb) (total2 eqb) eqb (sp_compare eqb vltb) Ceq false x y in
  same x y = Ok true -> same y z = Ok true -> same x z = Ok true.
Proof. exact c89_transitive. Qed.
Print Assumptions C89_transitive.

Example C89_transitive_case : nhyps /\ nden (OKeys (ndict [(12, 1); (2, 5); (31, 4)])) KKeysView [2; 12; 31] /\ nden (OSorted (nlist [31; 2; 12])) KSorted [2; 12; 31] /\
  nden (OSet (nset [2; 12])) KSortedSet [2; 12] /\ nden (OSortedKey (nkey [31; 2; 12])) KSortedKey [31; 2; 12] /\
  manner_of KKeysView KSorted = AsSequences /\ manner_of KSorted KPyTuple = AsSequences /\ manner_of KSortedKey KPyTuple = AsSequences /\
  ncmp Ceq false (OKeys (ndict [(12, 1); (2, 5); (31, 4)])) (OSorted (nlist [31; 2; 12])) = Ok true /\ ncmp Ceq false (OSorted (nlist [31; 2; 12])) (OPyTuple [2; 12; 31]) = Ok true.
Proof.
  split; [apply nhyps_ok|]. split; [split; [reflexivity|]; split; [apply ndict_reach|]; exists [(2, 5); (12, 1); (31, 4)]; vm_compute; split; reflexivity|].
  split; [split; [reflexivity|]; split; [apply nlist_reach|vm_compute; reflexivity]|].
  split; [split; [reflexivity|]; split; [apply nset_reach|vm_compute; reflexivity]|].
  split; [split; [reflexivity|]; split; [apply nkey_reach|vm_compute; reflexivity]|]. vm_compute. repeat match goal with |- _ /\ _ => split end; reflexivity.
Qed.

(** C90, refuted: [==] is not transitive.  [SortedSet([1]) == SortedList([1])] and [SortedList([1]) == [1]], as a SortedList
    compares itself with every [Sequence], but [SortedSet([1]) != [1]]. *)
Theorem C90_transitive_refuted : ~ (forall S V K (T : listcls S V K) (key : V -> K) kltb keqb vltb eqb ltb fref dflt ord x y z j k n lx ly lz,
  list_class T ltb eqb fref dflt -> TotalOrder vltb eqb -> TotalOrder kltb keqb -> EqCompat (by_key key kltb) eqb -> 1 <= dflt -> any_order ord ->
  denotes T key kltb keqb vltb eqb dflt ord x j lx -> denotes T key kltb keqb vltb eqb dflt ord y k ly -> denotes T key kltb keqb vltb eqb dflt ord z n lz ->
  let same x y := rich T (total2 vltb) (total2 eqb) eqb (sp_compare eqb vltb) Ceq false x y in
  same x y = Ok true -> same y z = Ok true -> same x z = Ok true).
Proof. exact c90_transitive. Qed.
Print Assumptions C90_transitive_refuted.

Example C90_transitive_case : nhyps /\ nden (OSet (nset [1])) KSortedSet [1] /\ nden (OSorted (nlist [1])) KSorted [1] /\
  ncmp Ceq false (OSet (nset [1])) (OSorted (nlist [1])) = Ok true /\ ncmp Ceq false (OSorted (nlist [1])) (OPyList [1]) = Ok true /\
  ncmp Ceq false (OSet (nset [1])) (OPyList [1]) = Ok false.
Proof.
  split; [apply nhyps_ok|]. split; [split; [reflexivity|]; split; [apply nset_reach|vm_compute; reflexivity]|].
  split; [split; [reflexivity|]; split; [apply nlist_reach|vm_compute; reflexivity]|]. vm_compute. repeat match goal with |- _ /\ _ => split end; reflexivity.
Qed.

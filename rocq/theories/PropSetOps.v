(** * Properties of the set operators between objects of different classes *)
From Verif Require Import PyBase Model Spec History Reach ListClass ClassSpec ModelSet SetSpec ModelDict DictSpec ModelHeap ModelMixed ModelCompare CompareSpec
  ConcreteCompare ModelSetOps SetOpsSpec SetOpsProps.

(** C98: what [x & y], [x | y], [x - y], [x ^ y] give for operands of different classes, whichever of the two Python asks first and
    whoever answers [NotImplemented].  The class of the result and its key function are those of the table [result_kind] in
    SetOpsSpec.v, TypeError where it has none; the members are those the operator means; a SortedSet is in the order of its key
    function.  [T] and [T'] are the classes, with their key functions, of the left and of the right operand. *)
Theorem C98_operators : forall S S' V K K' KN (T : listcls S V K) (T' : listcls S' V K') (key : V -> K) (key' : V -> K') kltb keqb kltb' keqb' vltb eqb ltb ltb' fref fref' dflt dflt' ndflt ord
    op t x y j k l m,
  list_class T ltb eqb fref dflt -> list_class T' ltb' eqb fref' dflt' -> TotalOrder vltb eqb -> 1 <= ndflt -> any_order ord ->
  denotes T key kltb keqb vltb eqb dflt ord x j l -> denotes T' key' kltb' keqb' vltb eqb dflt' ord y k m ->
  let N := plain (K:=KN) (total2 vltb) (total2 eqb) ndflt in
  let r := binop T T' N eqb ord op t x y in
  match result_kind op j k with
  | None => r = Err TypeError
  | Some c => exists o, r = Ok o /\ is_outcome T T' N ltb ltb' vltb eqb ord c o (fun v => op_means op (member eqb v l) (member eqb v m))
  end.
Proof. exact c98_operators. Qed.
Print Assumptions C98_operators.

Example C98_operators_case :
  list_class dT (by_key last_digit Nat.ltb) Nat.eqb (fwd_keyed last_digit Nat.ltb Nat.eqb) 2 /\ list_class nT Nat.ltb Nat.eqb (fwd_plain Nat.ltb Nat.eqb) 2 /\
  TotalOrder Nat.ltb Nat.eqb /\ any_order back /\
  dden (OSet (dset [12; 31; 2; 5])) KSortedSet [31; 2; 12; 5] /\ nden (OKeys (ndict [(12, 1); (2, 5); (31, 4)])) KKeysView [2; 12; 31] /\
  dn OpAnd (OSet (dset [12; 31; 2; 5])) (OKeys (ndict [(12, 1); (2, 5); (31, 4)])) = Ok (LikeLeft, [31; 12; 2]) /\
  nd OpXor (OKeys (ndict [(12, 1); (2, 5); (31, 4)])) (OSet (dset [12; 31; 5])) = Ok (NoKey, [2; 5]) /\
  nd OpOr (OPyList [31; 12; 2; 12]) (OSet (dset [12; 31; 5])) = Ok (LikeRight, [31; 2; 12; 5]) /\
  nd OpSub (OFrozen [31; 12; 2]) (OSet (dset [12; 31; 5])) = Ok (NoKey, [2]) /\
  nd OpSub (OSorted (nlist [31; 12; 2])) (ODictKeys [12; 31; 5]) = Ok (PySet, [2]) /\
  nd OpXor (OFrozen [31; 12; 2]) (OPySet [12; 31; 5]) = Ok (PyFrozen, [5; 2]) /\
  dn OpAnd (OSet (dset [1])) OOther = Err TypeError /\ dn OpAnd (OPyTuple [1]) (OValues (ndict [(1, 1)])) = Err TypeError.
Proof.
  split; [apply dT_class|]. split; [apply nT_class|]. split; [apply nhyps_ok|]. split; [apply back_order|].
  split; [apply dset_den; vm_compute; reflexivity|].
  split; [split; [reflexivity|]; split; [apply ndict_reach|]; exists [(2, 5); (12, 1); (31, 4)]; vm_compute; split; reflexivity|].
  vm_compute. repeat match goal with |- _ /\ _ => split end; reflexivity.
Qed.

(** C98: after [x op= y] the name [x] stands for an object of the same class, with the same members, as [x op y] gives. *)
Theorem C98_in_place : forall S S' V K K' KN (T : listcls S V K) (T' : listcls S' V K') (key : V -> K) (key' : V -> K') kltb keqb kltb' keqb' vltb eqb ltb ltb' fref fref' dflt dflt' ndflt ord
    op t x y j k l m,
  list_class T ltb eqb fref dflt -> list_class T' ltb' eqb fref' dflt' -> TotalOrder vltb eqb -> 1 <= ndflt -> any_order ord ->
  denotes T key kltb keqb vltb eqb dflt ord x j l -> denotes T' key' kltb' keqb' vltb eqb dflt' ord y k m ->
  let N := plain (K:=KN) (total2 vltb) (total2 eqb) ndflt in
  let r := augmented T T' N eqb ord op t x y in
  match result_kind op j k with
  | None => r = Err TypeError
  | Some c => exists o, r = Ok o /\ is_outcome T T' N ltb ltb' vltb eqb ord c o (fun v => op_means op (member eqb v l) (member eqb v m))
  end.
Proof. exact c98_in_place. Qed.
Print Assumptions C98_in_place.

Example C98_in_place_case :
  list_class dT (by_key last_digit Nat.ltb) Nat.eqb (fwd_keyed last_digit Nat.ltb Nat.eqb) 2 /\ list_class nT Nat.ltb Nat.eqb (fwd_plain Nat.ltb Nat.eqb) 2 /\
  TotalOrder Nat.ltb Nat.eqb /\ any_order back /\
  dden (OSet (dset [12; 31; 2; 5])) KSortedSet [31; 2; 12; 5] /\ nden (OKeys (ndict [(12, 1); (2, 5); (31, 4)])) KKeysView [2; 12; 31] /\
  dn_in OpOr (OSet (dset [12; 31; 2; 5])) (OKeys (ndict [(12, 1); (2, 5); (31, 4)])) = Ok (LikeLeft, [31; 2; 12; 5]) /\
  dn_in OpXor (OPySet [12; 31; 5]) (OKeys (ndict [(12, 1); (2, 5); (31, 4)])) = Ok (NoKey, [2; 5]) /\
  dn_in OpSub (OPySet [12; 31; 5]) (OFrozen [5]) = Ok (PySet, [12; 31]) /\
  dn_in OpSub (OPySet [12; 31; 5]) (OPyList [5]) = Err TypeError.
Proof.
  split; [apply dT_class|]. split; [apply nT_class|]. split; [apply nhyps_ok|]. split; [apply back_order|].
  split; [apply dset_den; vm_compute; reflexivity|].
  split; [split; [reflexivity|]; split; [apply ndict_reach|]; exists [(2, 5); (12, 1); (31, 4)]; vm_compute; split; reflexivity|].
  vm_compute. repeat match goal with |- _ /\ _ => split end; reflexivity.
Qed.

(** C99: "an operator one of whose operands is a SortedSet gives a SortedSet" is false: [d.keys() | ss] with [d] a dict is a
    built-in set. *)
Theorem C99_sorted_set_refuted : ~ (forall S S' V K K' KN (T : listcls S V K) (T' : listcls S' V K') (key : V -> K) (key' : V -> K') kltb keqb kltb' keqb' vltb eqb ltb ltb' fref fref' dflt dflt' ndflt ord
    op t x y j k l m o,
  list_class T ltb eqb fref dflt -> list_class T' ltb' eqb fref' dflt' -> TotalOrder vltb eqb -> 1 <= ndflt -> any_order ord ->
  denotes T key kltb keqb vltb eqb dflt ord x j l -> denotes T' key' kltb' keqb' vltb eqb dflt' ord y k m ->
  let N := plain (K:=KN) (total2 vltb) (total2 eqb) ndflt in
  j = KSortedSet \/ k = KSortedSet -> binop T T' N eqb ord op t x y = Ok o ->
  match o with RLeft _ | RRight _ | RPlain _ => True | RPySet _ | RFrozen _ => False end).
Proof. exact c99_sorted_set. Qed.
Print Assumptions C99_sorted_set_refuted.

Example C99_sorted_set_refuted_case : dn OpOr (ODictKeys [1]) (OSet (nset [2])) = Ok (PySet, [1; 2]).
Proof. vm_compute. reflexivity. Qed.

(** C99: "an operator with a sequence on the left and a SortedSet on the right gives a SortedSet with the key function of the
    latter" is false: [-] forgets the key function. *)
Theorem C99_key_function_refuted : ~ (forall S S' V K K' KN (T : listcls S V K) (T' : listcls S' V K') (key : V -> K) (key' : V -> K') kltb keqb kltb' keqb' vltb eqb ltb ltb' fref fref' dflt dflt' ndflt ord
    op t x y j l m o,
  list_class T ltb eqb fref dflt -> list_class T' ltb' eqb fref' dflt' -> TotalOrder vltb eqb -> 1 <= ndflt -> any_order ord ->
  denotes T key kltb keqb vltb eqb dflt ord x j l -> denotes T' key' kltb' keqb' vltb eqb dflt' ord y KSortedSet m -> set_like j = false ->
  let N := plain (K:=KN) (total2 vltb) (total2 eqb) ndflt in
  binop T T' N eqb ord op t x y = Ok o -> exists s, o = RRight s).
Proof. exact c99_key_function. Qed.
Print Assumptions C99_key_function_refuted.

Example C99_key_function_refuted_case : nd OpSub (OPyList [12; 3]) (OSet (dset [5])) = Ok (NoKey, [3; 12]) /\
  nd OpXor (OPyList [12; 3]) (OSet (dset [5])) = Ok (LikeRight, [12; 3; 5]).
Proof. vm_compute. split; reflexivity. Qed.

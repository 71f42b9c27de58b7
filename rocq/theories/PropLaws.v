(** * C124: laws between the operations of a list (proofs in LawsProps.v) *)
From Verif Require Import PyBase Model Spec History Reach LawsSpec LawsProps Concrete ConcreteCompare.

(** C124: the operations of a SortedList agree with one another: [irange] is the slice between the places of its bounds, [islice] is the slice,
    the reversed ones are the others backwards; [in], [count], [index] and [remove] agree; [add] puts the value where [bisect_right] says and
    deleting it there undoes it; [pop] reads and deletes; [update] can be cut in two; slices that meet make the list; [count] is the distance
    of the places of [bisect_left] and [bisect_right]. *)
Theorem C124_list : forall V (ltb eqb : V -> V -> bool) dflt c, TotalOrder ltb eqb -> 1 <= dflt -> sl_reach ltb eqb dflt c ->
  list_laws (sl_do ltb eqb dflt) ltb eqb c /\ count_law (sl_do ltb eqb dflt) c.
Proof. exact c124_list. Qed.
Print Assumptions C124_list.

Example C124_list_case :
  let c := nlist [5; 3; 8; 3; 1] in let ask := ask (sl_do Nat.ltb Nat.eqb 2) in let after := after (sl_do Nat.ltb Nat.eqb 2) in
  sl_reach Nat.ltb Nat.eqb 2 c /\ TotalOrder Nat.ltb Nat.eqb /\ ask (LIRange (Some 2) (Some 5) true false false) c = RList [3; 3] /\
  ask (LBisectLeft 2) c = RNat 1 /\ ask (LBisectLeft 5) c = RNat 3 /\ ask (from_to (Some 1%Z) (Some 3%Z)) c = RList [3; 3] /\
  ask (LCount 3) c = RNat 2 /\ ask LIter (after (LAdd 4) c) = RList [1; 3; 3; 4; 5; 8].
Proof. split; [apply nlist_reach|]. split; [apply nat_total|]. vm_compute. repeat match goal with |- _ /\ _ => split end; reflexivity. Qed.

(** C124: so do the operations of a SortedKeyList; its methods for values are those for keys, and [irange_key] is the slice between the places of
    its bounds, whether or not a value has these keys. *)
Theorem C124_keylist : forall V K (key : V -> K) (kltb keqb : K -> K -> bool) (vltb eqb : V -> V -> bool) dflt s,
  TotalOrder kltb keqb -> EqCompat (by_key key kltb) eqb -> 1 <= dflt -> skl_reach key kltb keqb vltb eqb dflt s ->
  list_laws (fun o => skl_do key kltb keqb vltb eqb dflt (KList o)) (by_key key kltb) eqb s /\ key_laws (skl_do key kltb keqb vltb eqb dflt) key s.
Proof. exact c124_keylist. Qed.
Print Assumptions C124_keylist.

Example C124_keylist_case :
  let s := nkey [25; 13; 38; 23; 11] in let ask := kask (skl_do last_digit Nat.ltb Nat.eqb Nat.ltb Nat.eqb 2) in
  skl_reach last_digit Nat.ltb Nat.eqb Nat.ltb Nat.eqb 2 s /\ TotalOrder Nat.ltb Nat.eqb /\ EqCompat (by_key last_digit Nat.ltb) Nat.eqb /\
  ask (KIRange (Some 2) (Some 5) true false false) s = RList [13; 23] /\ ask (KBisectLeft 2) s = RNat 1 /\ ask (KBisectLeft 5) s = RNat 3 /\
  ask (KList (from_to (Some 1%Z) (Some 3%Z))) s = RList [13; 23].
Proof. split; [apply nkey_reach|]. split; [apply nat_total|]. split; [apply last_digit_compat|]. vm_compute. repeat match goal with |- _ /\ _ => split end; reflexivity. Qed.

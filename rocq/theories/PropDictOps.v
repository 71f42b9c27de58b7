(** * C101, C102: [|] and [|=] between a SortedDict and other mappings *)
From Verif Require Import PyBase Model Spec SpecFacts History Reach Concrete ConcreteCompare ListClass ClassSpec ModelSet SetSpec ModelDict DictSpec ModelDictOps DictOpsSpec DictOpsProps.

(** C101: what [x | y] gives when one of the two is a SortedDict, whichever of them Python asks first: an object of the class in the table
    [or_class] of DictOpsSpec.v, TypeError where it has none, with the items of [x] overwritten by those of [y]; a SortedDict is in the
    order of its key function. *)
Theorem C101_or : forall S S' A B K K' (T : listcls S A K) (T' : listcls S' A K') ltb ltb' eqb (veqb : B -> B -> bool) fref fref' dflt dflt' x y j k l m,
  list_class T ltb eqb fref dflt -> list_class T' ltb' eqb fref' dflt' ->
  is_mapping_of eqb veqb T x j l -> is_mapping_of eqb veqb T' y k m -> j = YSorted \/ k = YSorted ->
  match or_class j k with
  | None => dbinop T T' eqb x y = Err TypeError
  | Some c => exists r, dbinop T T' eqb x y = Ok r /\ is_dclass T T' ltb ltb' eqb veqb c r (overwritten eqb l m)
  end.
Proof. exact c101_or. Qed.
Print Assumptions C101_or.

Example C101_or_case :
  list_class dT (by_key last_digit Nat.ltb) Nat.eqb (fwd_keyed last_digit Nat.ltb Nat.eqb) 2 /\ list_class nT Nat.ltb Nat.eqb (fwd_plain Nat.ltb Nat.eqb) 2 /\
  is_mapping_of Nat.eqb Nat.eqb dT (PSorted (ddict [(12, 1); (31, 2); (5, 3)])) YSorted [(31, 2); (12, 1); (5, 3)] /\
  is_mapping_of Nat.eqb Nat.eqb nT (PSorted (ndict [(12, 7); (4, 8)])) YSorted [(4, 8); (12, 7)] /\
  is_mapping_of Nat.eqb Nat.eqb nT (PPy YOrdered [(12, 7); (4, 8)]) YOrdered [(12, 7); (4, 8)] /\
  seen_made dT nT (dbinop dT nT Nat.eqb (PSorted (ddict [(12, 1); (31, 2); (5, 3)])) (PSorted (ndict [(12, 7); (4, 8)]))) = Ok (LikeX, [(31, 2); (12, 7); (4, 8); (5, 3)]) /\
  seen_made dT nT (dbinop dT nT Nat.eqb (PSorted (ddict [(12, 1); (31, 2); (5, 3)])) (PPy YUser [(12, 7); (4, 8)])) = Ok (LikeX, [(31, 2); (12, 7); (4, 8); (5, 3)]) /\
  seen_made dT nT (dbinop dT nT Nat.eqb (PSorted (ddict [(12, 1); (31, 2); (5, 3)])) (PPy YPairs [(12, 7); (4, 8)])) = Err TypeError /\
  seen_made nT dT (dbinop nT dT Nat.eqb (PPy YDict [(12, 7); (4, 8)]) (PSorted (ddict [(12, 1); (31, 2); (5, 3)]))) = Ok (LikeY, [(31, 2); (12, 1); (4, 8); (5, 3)]) /\
  seen_made nT dT (dbinop nT dT Nat.eqb (PPy YOrdered [(12, 7); (4, 8)]) (PSorted (ddict [(12, 1); (31, 2); (5, 3)]))) = Ok (Other YOrdered, [(12, 1); (4, 8); (31, 2); (5, 3)]) /\
  seen_made nT dT (dbinop nT dT Nat.eqb (PPy YUser [(12, 7); (4, 8)]) (PSorted (ddict [(12, 1); (31, 2); (5, 3)]))) = Ok (Other YUser, [(31, 2); (12, 1); (4, 8); (5, 3)]) /\
  seen_made nT dT (dbinop nT dT Nat.eqb (PPy YMapping [(12, 7); (4, 8)]) (PSorted (ddict [(12, 1); (31, 2); (5, 3)]))) = Ok (LikeY, [(31, 2); (12, 1); (4, 8); (5, 3)]).
Proof.
  split; [apply dT_class|]. split; [apply nT_class|]. split; [split; [reflexivity|]; split; [apply ddict_reach|vm_compute; reflexivity]|].
  split; [split; [reflexivity|]; split; [apply ndict_reach|vm_compute; reflexivity]|].
  split; [split; [reflexivity|]; split; [reflexivity|]; cbn; intuition (subst; reflexivity)|].
  vm_compute. repeat match goal with |- _ /\ _ => split end; reflexivity.
Qed.

(** C101: the same for [x |= y] and the table [ior_class]; an iterable of pairs is accepted too, its last pair for a key counts. *)
Theorem C101_in_place : forall S S' A B K K' (T : listcls S A K) (T' : listcls S' A K') ltb ltb' eqb (veqb : B -> B -> bool) fref fref' dflt dflt' x y j k l m,
  list_class T ltb eqb fref dflt -> list_class T' ltb' eqb fref' dflt' ->
  is_mapping_of eqb veqb T x j l -> is_mapping_of eqb veqb T' y k m -> j = YSorted \/ k = YSorted ->
  match ior_class j k with
  | None => daugmented T T' eqb x y = Err TypeError
  | Some c => exists r, daugmented T T' eqb x y = Ok r /\ is_dclass T T' ltb ltb' eqb veqb c r (overwritten eqb l m)
  end.
Proof. exact c101_in_place. Qed.
Print Assumptions C101_in_place.

Example C101_in_place_case :
  list_class dT (by_key last_digit Nat.ltb) Nat.eqb (fwd_keyed last_digit Nat.ltb Nat.eqb) 2 /\ list_class nT Nat.ltb Nat.eqb (fwd_plain Nat.ltb Nat.eqb) 2 /\
  is_mapping_of Nat.eqb Nat.eqb dT (PSorted (ddict [(12, 1); (31, 2); (5, 3)])) YSorted [(31, 2); (12, 1); (5, 3)] /\
  is_mapping_of Nat.eqb Nat.eqb nT (PSorted (ndict [(12, 7); (4, 8)])) YSorted [(4, 8); (12, 7)] /\
  is_mapping_of Nat.eqb Nat.eqb nT (PPy YOrdered [(12, 7); (4, 8)]) YOrdered [(12, 7); (4, 8)] /\
  seen_made dT nT (daugmented dT nT Nat.eqb (PSorted (ddict [(12, 1); (31, 2); (5, 3)])) (PSorted (ndict [(12, 7); (4, 8)]))) = Ok (LikeX, [(31, 2); (12, 7); (4, 8); (5, 3)]) /\
  seen_made dT nT (daugmented dT nT Nat.eqb (PSorted (ddict [(12, 1); (31, 2); (5, 3)])) (PPy YPairs [(12, 6); (12, 7); (4, 8)])) = Ok (LikeX, [(31, 2); (12, 7); (4, 8); (5, 3)]) /\
  seen_made dT nT (daugmented dT nT Nat.eqb (PSorted (ddict [(12, 1); (31, 2); (5, 3)])) (PPy YNone [])) = Err TypeError /\
  seen_made nT dT (daugmented nT dT Nat.eqb (PPy YDict [(12, 7); (4, 8)]) (PSorted (ddict [(12, 1); (31, 2); (5, 3)]))) = Ok (Other YDict, [(12, 1); (4, 8); (31, 2); (5, 3)]) /\
  seen_made nT dT (daugmented nT dT Nat.eqb (PPy YMapping [(12, 7); (4, 8)]) (PSorted (ddict [(12, 1); (31, 2); (5, 3)]))) = Ok (LikeY, [(31, 2); (12, 1); (4, 8); (5, 3)]) /\
  seen_made nT dT (daugmented nT dT Nat.eqb (PPy YProxy [(12, 7); (4, 8)]) (PSorted (ddict [(12, 1); (31, 2); (5, 3)]))) = Err TypeError.
Proof.
  split; [apply dT_class|]. split; [apply nT_class|]. split; [split; [reflexivity|]; split; [apply ddict_reach|vm_compute; reflexivity]|].
  split; [split; [reflexivity|]; split; [apply ndict_reach|vm_compute; reflexivity]|].
  split; [split; [reflexivity|]; split; [reflexivity|]; cbn; intuition (subst; reflexivity)|].
  vm_compute. repeat match goal with |- _ /\ _ => split end; reflexivity.
Qed.

(** C102 is false: [x | y] with a SortedDict among the operands is not always a SortedDict.  Witness: [OrderedDict([(5, 1)]) | sd] is an
    OrderedDict, since its own [__or__] is asked first and accepts any [dict]. *)
Theorem C102_sorted_dict_refuted : ~ (forall S S' A B K K' (T : listcls S A K) (T' : listcls S' A K') ltb ltb' eqb (veqb : B -> B -> bool) fref fref' dflt dflt' x y j k l m r,
  list_class T ltb eqb fref dflt -> list_class T' ltb' eqb fref' dflt' ->
  is_mapping_of eqb veqb T x j l -> is_mapping_of eqb veqb T' y k m -> j = YSorted \/ k = YSorted ->
  dbinop T T' eqb x y = Ok r -> class_of_made r = LikeX \/ class_of_made r = LikeY).
Proof. exact c102_sorted_dict. Qed.
Print Assumptions C102_sorted_dict_refuted.

Example C102_sorted_dict_case :
  list_class dT (by_key last_digit Nat.ltb) Nat.eqb (fwd_keyed last_digit Nat.ltb Nat.eqb) 2 /\ list_class nT Nat.ltb Nat.eqb (fwd_plain Nat.ltb Nat.eqb) 2 /\
  is_mapping_of Nat.eqb Nat.eqb dT (PSorted (ddict [(12, 1); (31, 2); (5, 3)])) YSorted [(31, 2); (12, 1); (5, 3)] /\
  is_mapping_of Nat.eqb Nat.eqb nT (PSorted (ndict [(12, 7); (4, 8)])) YSorted [(4, 8); (12, 7)] /\
  is_mapping_of Nat.eqb Nat.eqb nT (PPy YOrdered [(12, 7); (4, 8)]) YOrdered [(12, 7); (4, 8)] /\
  seen_made nT dT (dbinop nT dT Nat.eqb (PPy YOrdered [(12, 7); (4, 8)]) (PSorted (ddict [(12, 1); (31, 2); (5, 3)]))) = Ok (Other YOrdered, [(12, 1); (4, 8); (31, 2); (5, 3)]).
Proof.
  split; [apply dT_class|]. split; [apply nT_class|]. split; [split; [reflexivity|]; split; [apply ddict_reach|vm_compute; reflexivity]|].
  split; [split; [reflexivity|]; split; [apply ndict_reach|vm_compute; reflexivity]|].
  split; [split; [reflexivity|]; split; [reflexivity|]; cbn; intuition (subst; reflexivity)|].
  vm_compute. repeat match goal with |- _ /\ _ => split end; reflexivity.
Qed.

(** C102: nor does [x |= y] give an object of the class [x | y] has.  Witness: [d | sd] for a [dict] [d] is a SortedDict, after [d |= sd] the
    name [d] is still a [dict]. *)
Theorem C102_in_place_refuted : ~ (forall S S' A B K K' (T : listcls S A K) (T' : listcls S' A K') ltb ltb' eqb (veqb : B -> B -> bool) fref fref' dflt dflt' x y j k l m r,
  list_class T ltb eqb fref dflt -> list_class T' ltb' eqb fref' dflt' ->
  is_mapping_of eqb veqb T x j l -> is_mapping_of eqb veqb T' y k m -> j = YSorted \/ k = YSorted ->
  dbinop T T' eqb x y = Ok r -> exists r', daugmented T T' eqb x y = Ok r' /\ class_of_made r' = class_of_made r).
Proof. exact c102_in_place. Qed.
Print Assumptions C102_in_place_refuted.

Example C102_in_place_case :
  list_class dT (by_key last_digit Nat.ltb) Nat.eqb (fwd_keyed last_digit Nat.ltb Nat.eqb) 2 /\ list_class nT Nat.ltb Nat.eqb (fwd_plain Nat.ltb Nat.eqb) 2 /\
  is_mapping_of Nat.eqb Nat.eqb dT (PSorted (ddict [(12, 1); (31, 2); (5, 3)])) YSorted [(31, 2); (12, 1); (5, 3)] /\
  is_mapping_of Nat.eqb Nat.eqb nT (PSorted (ndict [(12, 7); (4, 8)])) YSorted [(4, 8); (12, 7)] /\
  is_mapping_of Nat.eqb Nat.eqb nT (PPy YOrdered [(12, 7); (4, 8)]) YOrdered [(12, 7); (4, 8)] /\
  seen_made nT dT (dbinop nT dT Nat.eqb (PPy YDict [(12, 7); (4, 8)]) (PSorted (ddict [(12, 1); (31, 2); (5, 3)]))) = Ok (LikeY, [(31, 2); (12, 1); (4, 8); (5, 3)]) /\
  seen_made nT dT (daugmented nT dT Nat.eqb (PPy YDict [(12, 7); (4, 8)]) (PSorted (ddict [(12, 1); (31, 2); (5, 3)]))) = Ok (Other YDict, [(12, 1); (4, 8); (31, 2); (5, 3)]).
Proof.
  split; [apply dT_class|]. split; [apply nT_class|]. split; [split; [reflexivity|]; split; [apply ddict_reach|vm_compute; reflexivity]|].
  split; [split; [reflexivity|]; split; [apply ndict_reach|vm_compute; reflexivity]|].
  split; [split; [reflexivity|]; split; [reflexivity|]; cbn; intuition (subst; reflexivity)|].
  vm_compute. repeat match goal with |- _ /\ _ => split end; reflexivity.
Qed.

(** C102: nor can [x | y] be written wherever [x |= y] can.  Witness: [sd |= pairs] updates, [sd | pairs] raises TypeError. *)
Theorem C102_succeeds_refuted : ~ (forall S S' A B K K' (T : listcls S A K) (T' : listcls S' A K') ltb ltb' eqb (veqb : B -> B -> bool) fref fref' dflt dflt' x y j k l m r,
  list_class T ltb eqb fref dflt -> list_class T' ltb' eqb fref' dflt' ->
  is_mapping_of eqb veqb T x j l -> is_mapping_of eqb veqb T' y k m -> j = YSorted \/ k = YSorted ->
  daugmented T T' eqb x y = Ok r -> exists r', dbinop T T' eqb x y = Ok r').
Proof. exact c102_succeeds. Qed.
Print Assumptions C102_succeeds_refuted.

Example C102_succeeds_case :
  list_class dT (by_key last_digit Nat.ltb) Nat.eqb (fwd_keyed last_digit Nat.ltb Nat.eqb) 2 /\ list_class nT Nat.ltb Nat.eqb (fwd_plain Nat.ltb Nat.eqb) 2 /\
  is_mapping_of Nat.eqb Nat.eqb dT (PSorted (ddict [(12, 1); (31, 2); (5, 3)])) YSorted [(31, 2); (12, 1); (5, 3)] /\
  is_mapping_of Nat.eqb Nat.eqb nT (PSorted (ndict [(12, 7); (4, 8)])) YSorted [(4, 8); (12, 7)] /\
  is_mapping_of Nat.eqb Nat.eqb nT (PPy YOrdered [(12, 7); (4, 8)]) YOrdered [(12, 7); (4, 8)] /\
  seen_made dT nT (daugmented dT nT Nat.eqb (PSorted (ddict [(12, 1); (31, 2); (5, 3)])) (PPy YPairs [(12, 7); (4, 8)])) = Ok (LikeX, [(31, 2); (12, 7); (4, 8); (5, 3)]) /\
  seen_made dT nT (dbinop dT nT Nat.eqb (PSorted (ddict [(12, 1); (31, 2); (5, 3)])) (PPy YPairs [(12, 7); (4, 8)])) = Err TypeError.
Proof.
  split; [apply dT_class|]. split; [apply nT_class|]. split; [split; [reflexivity|]; split; [apply ddict_reach|vm_compute; reflexivity]|].
  split; [split; [reflexivity|]; split; [apply ndict_reach|vm_compute; reflexivity]|].
  split; [split; [reflexivity|]; split; [reflexivity|]; cbn; intuition (subst; reflexivity)|].
  vm_compute. repeat match goal with |- _ /\ _ => split end; reflexivity.
Qed.

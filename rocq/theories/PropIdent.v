(** * Property theorems: which of several equal objects a SortedSet or SortedDict holds (C104, C105) *)
From Coq Require Import Permutation.
From Verif Require Import PyBase Model Spec History Reach Concrete ListClass ClassSpec ModelSet SetSpec ConcreteSet ModelDict DictSpec IdentSpec IdentProps.

(** C104: every operation of a SortedSet but an intersection leaves the objects in it that were there: an object of the set afterwards was
    there before, or was brought by the operation and equals nothing that was there.  Of several equal objects that are new, [update],
    [union] and [symmetric_difference] take the first one listed. *)
Theorem C104_set : forall S V K (T : listcls S V K) ltb eqb fref dflt ord s l o r s',
  list_class T ltb eqb fref dflt -> any_order ord -> ss_reach T eqb ord s -> ss_shows T s l -> sop_ok o -> intersects o = false ->
  ss_step T eqb ord o s = (r, s') ->
  exists l', ss_shows T s' l' /\
    (forall x, In x l' -> In x l \/ (~ member eqb x l /\ set_brings eqb o x)) /\
    (forall x y, In x l -> In y l' -> eqb x y = true -> y = x).
Proof. exact c104_set. Qed.
Print Assumptions C104_set.

(** Pairs that are equal when their first components are. *)
Example C104_set_case :
  list_class pT pltb peqb (fwd_plain pltb peqb) 2 /\ any_order flip /\ ss_reach pT peqb flip (pset [(5, 0); (3, 0)]) /\ ss_shows pT (pset [(5, 0); (3, 0)]) [(3, 0); (5, 0)] /\
  ss_shows pT (snd (ss_step pT peqb flip (SAdd (5, 1)) (pset [(5, 0); (3, 0)]))) [(3, 0); (5, 0)] /\
  ss_shows pT (snd (ss_step pT peqb flip (SUpdate [AIter [(5, 1); (7, 1)]; ASet [(7, 2); (4, 2)]]) (pset [(5, 0); (3, 0)]))) [(3, 0); (4, 2); (5, 0); (7, 1)] /\
  ss_shows pT (snd (ss_step pT peqb flip (SUnion [AIter [(5, 1); (7, 1); (7, 2)]]) (pset [(5, 0); (3, 0)]))) [(3, 0); (5, 0); (7, 1)] /\
  ss_shows pT (snd (ss_step pT peqb flip (SSymmetricDifferenceUpdate (AIter [(5, 1); (7, 1); (7, 2)])) (pset [(5, 0); (3, 0)]))) [(3, 0); (7, 1)] /\
  ss_shows pT (snd (ss_step pT peqb flip (SDifference [AIter [(5, 1)]]) (pset [(5, 0); (3, 0)]))) [(3, 0)].
Proof.
  split; [apply pT_class|]. split; [apply flip_order|]. split; [apply pset_reach|].
  vm_compute. repeat match goal with |- _ /\ _ => split end; reflexivity.
Qed.

(** C104: an intersection with one argument consists of objects of the argument, unless the argument is a [set] with more members than the
    SortedSet has. *)
Theorem C104_intersection : forall S V K (T : listcls S V K) ltb eqb fref dflt ord s l a o r s',
  list_class T ltb eqb fref dflt -> any_order ord -> ss_reach T eqb ord s -> ss_shows T s l ->
  o = SIntersectionUpdate [a] \/ o = SIntersection [a] -> ss_step T eqb ord o s = (r, s') ->
  exists l', ss_shows T s' l' /\ forall x, In x l' -> intersection_of l a x.
Proof. exact c104_intersection. Qed.
Print Assumptions C104_intersection.

Example C104_intersection_case :
  list_class pT pltb peqb (fwd_plain pltb peqb) 2 /\ any_order flip /\ ss_reach pT peqb flip (pset [(5, 0); (3, 0)]) /\ ss_shows pT (pset [(5, 0); (3, 0)]) [(3, 0); (5, 0)] /\
  ss_shows pT (snd (ss_step pT peqb flip (SIntersectionUpdate [AIter [(5, 1); (7, 1); (5, 2); (4, 1)]]) (pset [(5, 0); (3, 0)]))) [(5, 1)] /\
  ss_shows pT (snd (ss_step pT peqb flip (SIntersection [ASet [(5, 1); (7, 1)]]) (pset [(5, 0); (3, 0)]))) [(5, 1)] /\
  ss_shows pT (snd (ss_step pT peqb flip (SIntersection [ASet [(5, 1); (7, 1); (4, 1)]]) (pset [(5, 0); (3, 0)]))) [(5, 0)].
Proof.
  split; [apply pT_class|]. split; [apply flip_order|]. split; [apply pset_reach|].
  vm_compute. repeat match goal with |- _ /\ _ => split end; reflexivity.
Qed.

(** C104: the hash set and the sorted list of a SortedSet hold the same objects, not only equal ones. *)
Theorem C104_set_together : forall S V K (T : listcls S V K) ltb eqb fref dflt ord s l,
  list_class T ltb eqb fref dflt -> any_order ord -> ss_reach T eqb ord s -> ss_shows T s l -> Permutation (s_set s) l.
Proof. exact c104_set_together. Qed.
Print Assumptions C104_set_together.

Example C104_set_together_case : list_class pT pltb peqb (fwd_plain pltb peqb) 2 /\ any_order flip /\ ss_reach pT peqb flip ss_ex /\ ss_shows pT ss_ex ss_l /\
  s_set ss_ex <> ss_l.
Proof. split; [apply pT_class|]. split; [apply flip_order|]. split; [apply ss_ex_reach|]. split; [apply ss_ex_shows|apply ss_ex_set]. Qed.

(** C104: likewise for the keys of a SortedDict, with every operation but [other | sd]: a key that is there stays the object it is, whatever
    equal keys are assigned to. *)
Theorem C104_dict : forall S A B K (T : listcls S A K) ltb eqb (veqb : B -> B -> bool) fref dflt s l o r s',
  list_class T ltb eqb fref dflt -> sd_reach T eqb veqb s -> sd_shows T eqb s l -> dop_ok eqb o -> starts_from_other o = false ->
  sd_step T eqb veqb o s = (r, s') ->
  exists l', sd_shows T eqb s' l' /\
    (forall k, In k (map fst l') -> In k (map fst l) \/ (~ member eqb k (map fst l) /\ dict_brings eqb o k)) /\
    (forall k k', In k (map fst l) -> In k' (map fst l') -> eqb k k' = true -> k' = k).
Proof. exact c104_dict. Qed.
Print Assumptions C104_dict.

Example C104_dict_case :
  list_class pT pltb peqb (fwd_plain pltb peqb) 2 /\ sd_reach pT peqb Nat.eqb (pdict [((5, 0), 1); ((3, 0), 2)]) /\
  sd_shows pT peqb (pdict [((5, 0), 1); ((3, 0), 2)]) [((3, 0), 2); ((5, 0), 1)] /\
  sd_shows pT peqb (snd (sd_step pT peqb Nat.eqb (DSet (5, 1) 9) (pdict [((5, 0), 1); ((3, 0), 2)]))) [((3, 0), 2); ((5, 0), 9)] /\
  sd_shows pT peqb (snd (sd_step pT peqb Nat.eqb (DUpdate (APairs [((5, 1), 9); ((7, 1), 8); ((7, 2), 6)])) (pdict [((5, 0), 1); ((3, 0), 2)]))) [((3, 0), 2); ((5, 0), 9); ((7, 1), 6)] /\
  sd_shows pT peqb (snd (sd_step pT peqb Nat.eqb (DOr [((5, 1), 9); ((7, 1), 8)]) (pdict [((5, 0), 1); ((3, 0), 2)]))) [((3, 0), 2); ((5, 0), 9); ((7, 1), 8)] /\
  sd_shows pT peqb (snd (sd_step pT peqb Nat.eqb (DROr [((5, 1), 9); ((7, 1), 8)]) (pdict [((5, 0), 1); ((3, 0), 2)]))) [((3, 0), 2); ((5, 1), 1); ((7, 1), 8)].
Proof.
  split; [apply pT_class|]. split; [apply pdict_reach|].
  vm_compute. repeat match goal with |- _ /\ _ => split end; reflexivity.
Qed.

(** C104: the dict and its sorted list of keys hold the same key objects. *)
Theorem C104_dict_together : forall S A B K (T : listcls S A K) ltb eqb (veqb : B -> B -> bool) fref dflt s l,
  list_class T ltb eqb fref dflt -> sd_reach T eqb veqb s -> sd_iter T s = (Ok l, s) -> Permutation (map fst (d_items s)) l.
Proof. exact c104_dict_together. Qed.
Print Assumptions C104_dict_together.

Example C104_dict_together_case : list_class pT pltb peqb (fwd_plain pltb peqb) 2 /\ sd_reach pT peqb Nat.eqb (pdict [((5, 0), 1); ((3, 0), 2)]) /\
  sd_iter pT (pdict [((5, 0), 1); ((3, 0), 2)]) = (Ok [(3, 0); (5, 0)], pdict [((5, 0), 1); ((3, 0), 2)]) /\
  map fst (d_items (pdict [((5, 0), 1); ((3, 0), 2)])) = [(5, 0); (3, 0)].
Proof.
  split; [apply pT_class|]. split; [apply pdict_reach|].
  vm_compute. repeat match goal with |- _ /\ _ => split end; reflexivity.
Qed.

(** C105 is false: an operation in place may replace a member by an equal object.  Witness: [ss.intersection_update([y])], where [y] equals
    the member [x], leaves [y] in the set: [SortedSet([1]) & [True]] is [SortedSet([True])]. *)
Theorem C105_in_place_refuted : ~ forall S V K (T : listcls S V K) ltb eqb fref dflt ord s l o r s' l',
  list_class T ltb eqb fref dflt -> any_order ord -> ss_reach T eqb ord s -> ss_shows T s l -> sop_ok o -> in_place_op o = true ->
  ss_step T eqb ord o s = (r, s') -> ss_shows T s' l' ->
  forall x y, In x l -> In y l' -> eqb x y = true -> y = x.
Proof. exact c105_in_place. Qed.
Print Assumptions C105_in_place_refuted.

Example C105_in_place_case :
  list_class pT pltb peqb (fwd_plain pltb peqb) 2 /\ any_order flip /\ ss_reach pT peqb flip (pset [(5, 0); (3, 0)]) /\ ss_shows pT (pset [(5, 0); (3, 0)]) [(3, 0); (5, 0)] /\
  ss_shows pT (snd (ss_step pT peqb flip (SIntersectionUpdate [AIter [(5, 1); (3, 1)]]) (pset [(5, 0); (3, 0)]))) [(3, 1); (5, 1)].
Proof.
  split; [apply pT_class|]. split; [apply flip_order|]. split; [apply pset_reach|].
  vm_compute. repeat match goal with |- _ /\ _ => split end; reflexivity.
Qed.

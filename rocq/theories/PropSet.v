(** * Properties of SortedSet *)
From Coq Require Import Permutation.
From Verif Require Import PyBase Model Spec History Reach Concrete ListClass ClassSpec ModelSet SetSpec ConcreteSet SetProps.

(** C33: whatever the order in which hash sets are iterated, after any history the values are
    iterated sorted and pairwise different, [len], [reversed], [in] and [count] agree with them. *)
Theorem C33_set_and_list_in_step : forall S V K (T : listcls S V K) ltb eqb fref dflt ord s,
  list_class T ltb eqb fref dflt -> any_order ord -> ss_reach T eqb ord s ->
  exists l, ss_shows T s l /\ sorted ltb l /\ distinct eqb l /\
    ss_len s = (Ok (length l), s) /\ ss_reversed T s = (Ok (rev l), s) /\
    forall v, exists b, ss_contains eqb v s = (Ok b, s) /\ ss_count eqb v s = (Ok (if b then 1 else 0), s) /\
      (b = true <-> exists x, In x l /\ eqb x v = true).
Proof. exact c33_consistent. Qed.
Print Assumptions C33_set_and_list_in_step.

Example C33_case : list_class pT pltb peqb (fwd_plain pltb peqb) 2 /\ any_order flip /\ ss_reach pT peqb flip ss_ex /\ ss_shows pT ss_ex ss_l /\
  fst (ss_contains peqb (3, 99) ss_ex) = Ok true /\ fst (ss_contains peqb (7, 0) ss_ex) = Ok false /\ fst (ss_len ss_ex) = Ok 11.
Proof. split; [apply pT_class|]. split; [apply flip_order|]. split; [apply ss_ex_reach|]. split; [apply ss_ex_shows|]. vm_compute. repeat match goal with |- _ /\ _ => split end; reflexivity. Qed.
Example C33_case_key : list_class kT (by_key (@fst nat nat) Nat.ltb) pairb (fwd_keyed (@fst nat nat) Nat.ltb pairb) 2 /\ any_order flip /\ ss_reach kT pairb flip kss_ex /\ ss_shows kT kss_ex kss_l /\
  fst (ss_contains pairb (3, 0) kss_ex) = Ok true /\ fst (ss_contains pairb (3, 1) kss_ex) = Ok false.
Proof. split; [apply kT_class|]. split; [apply flip_order|]. split; [apply kss_ex_reach|]. split; [apply kss_ex_shows|]. vm_compute. repeat match goal with |- _ /\ _ => split end; reflexivity. Qed.

(** C34: from [SortedSet(iterable)] on, every history returns and raises what the mathematical set
    does ([set_effect] in SetSpec.v), and the final values are those of that set. *)
Theorem C34_set_history : forall S V K (T : listcls S V K) ltb eqb fref dflt ord tick it ops,
  list_class T ltb eqb fref dflt -> any_order ord -> Forall sop_ok ops ->
  exists s0 l0 rs s l, ss_new T eqb ord tick it = Ok s0 /\ ss_shows T s0 l0 /\
    sorted ltb l0 /\ distinct eqb l0 /\
    (forall x, member eqb x l0 <-> exists a, it = Some a /\ member eqb x (items a)) /\
    ss_run T eqb ord ops s0 = (rs, s) /\ set_history ltb eqb fref ops l0 rs l /\ ss_shows T s l.
Proof. exact c34_refines. Qed.
Print Assumptions C34_set_history.

Example C34_case : list_class pT pltb peqb (fwd_plain pltb peqb) 2 /\ any_order flip /\ Forall sop_ok ss_ops /\
  exists s0, ss_new pT peqb flip 0 (Some (AIter [(2, 0); (1, 0); (2, 1)])) = Ok s0 /\ fst (ss_iter pT s0) = Ok [(1, 0); (2, 0)] /\
    fst (ss_run pT peqb flip [SAdd (1, 7); SRemove (3, 0); SPop (-1); SContains (2, 2)] s0)
    = [RUnit; RExn KeyError; RVal (2, 0); RBool false].
Proof.
  split; [apply pT_class|]. split; [apply flip_order|]. split; [repeat constructor|].
  eexists. split; [vm_compute; reflexivity|]. split; vm_compute; reflexivity.
Qed.

(** C35: [add] inserts exactly when no equal value is present. *)
Theorem C35_add : forall S V K (T : listcls S V K) ltb eqb fref dflt ord s l v,
  list_class T ltb eqb fref dflt -> any_order ord -> ss_reach T eqb ord s -> ss_shows T s l ->
  exists s' l', ss_step T eqb ord (SAdd v) s = (RUnit, s') /\ ss_reach T eqb ord s' /\ ss_shows T s' l' /\
    sorted ltb l' /\ distinct eqb l' /\
    (forall x, member eqb x l' <-> member eqb x l \/ eqb v x = true) /\
    (member eqb v l -> l' = l) /\ (~ member eqb v l -> exists a b, l = a ++ b /\ l' = a ++ v :: b).
Proof. exact c35_add. Qed.
Print Assumptions C35_add.

Example C35_add_case : list_class pT pltb peqb (fwd_plain pltb peqb) 2 /\ any_order flip /\ ss_reach pT peqb flip ss_ex /\ ss_shows pT ss_ex ss_l /\
  (let (r, s) := ss_step pT peqb flip (SAdd (6, 0)) ss_ex in r = RUnit /\ fst (ss_iter pT s) = Ok [(1, 5); (3, 5); (4, 5); (5, 5); (6, 0); (8, 5); (9, 5); (10, 9); (11, 0); (12, 0); (14, 0); (16, 0)]) /\
  (let (r, s) := ss_step pT peqb flip (SAdd (5, 0)) ss_ex in r = RUnit /\ fst (ss_iter pT s) = Ok ss_l).
Proof. split; [apply pT_class|]. split; [apply flip_order|]. split; [apply ss_ex_reach|]. split; [apply ss_ex_shows|]. vm_compute. repeat match goal with |- _ /\ _ => split end; reflexivity. Qed.

(** C35: [discard] removes exactly when present; [remove] does the same and raises [KeyError]
    exactly when absent. *)
Theorem C35_discard_remove : forall S V K (T : listcls S V K) ltb eqb fref dflt ord s l v,
  list_class T ltb eqb fref dflt -> any_order ord -> ss_reach T eqb ord s -> ss_shows T s l ->
  exists s1 s2 r2, ss_step T eqb ord (SDiscard v) s = (RUnit, s1) /\ ss_reach T eqb ord s1 /\
    ss_step T eqb ord (SRemove v) s = (r2, s2) /\ ss_reach T eqb ord s2 /\
    ((~ member eqb v l /\ r2 = RExn KeyError /\ ss_shows T s1 l /\ ss_shows T s2 l) \/
     (member eqb v l /\ r2 = RUnit /\ exists a y b, l = a ++ y :: b /\ eqb y v = true /\
        ss_shows T s1 (a ++ b) /\ ss_shows T s2 (a ++ b) /\
        forall x, member eqb x (a ++ b) <-> member eqb x l /\ eqb v x = false)).
Proof. exact c35_discard_remove. Qed.
Print Assumptions C35_discard_remove.

Example C35_discard_case : list_class pT pltb peqb (fwd_plain pltb peqb) 2 /\ any_order flip /\ ss_reach pT peqb flip ss_ex /\ ss_shows pT ss_ex ss_l /\
  (let (r, s) := ss_step pT peqb flip (SDiscard (4, 0)) ss_ex in r = RUnit /\ fst (ss_iter pT s) = Ok [(1, 5); (3, 5); (5, 5); (8, 5); (9, 5); (10, 9); (11, 0); (12, 0); (14, 0); (16, 0)]) /\
  (let (r, s) := ss_step pT peqb flip (SRemove (6, 0)) ss_ex in r = RExn KeyError /\ fst (ss_iter pT s) = Ok ss_l).
Proof. split; [apply pT_class|]. split; [apply flip_order|]. split; [apply ss_ex_reach|]. split; [apply ss_ex_shows|]. vm_compute. repeat match goal with |- _ /\ _ => split end; reflexivity. Qed.

(** C35: [pop(i)] returns and removes the value at position [i]. *)
Theorem C35_pop : forall S V K (T : listcls S V K) ltb eqb fref dflt ord s l i,
  list_class T ltb eqb fref dflt -> any_order ord -> ss_reach T eqb ord s -> ss_shows T s l ->
  exists r s', ss_step T eqb ord (SPop i) s = (r, s') /\ ss_reach T eqb ord s' /\
    ((out_of_range i l /\ r = RExn IndexError /\ ss_shows T s' l) \/
     (exists a x b, at_pos i l a x b /\ r = RVal x /\ ss_shows T s' (a ++ b) /\
        ss_contains eqb x s' = (Ok false, s'))).
Proof. exact c35_pop. Qed.
Print Assumptions C35_pop.

Example C35_pop_case : list_class pT pltb peqb (fwd_plain pltb peqb) 2 /\ any_order flip /\ ss_reach pT peqb flip ss_ex /\ ss_shows pT ss_ex ss_l /\
  (let (r, s) := ss_step pT peqb flip (SPop (-2)) ss_ex in r = RVal (14, 0) /\ fst (ss_iter pT s) = Ok [(1, 5); (3, 5); (4, 5); (5, 5); (8, 5); (9, 5); (10, 9); (11, 0); (12, 0); (16, 0)]) /\
  (let (r, s) := ss_step pT peqb flip (SPop 11) ss_ex in r = RExn IndexError /\ fst (ss_iter pT s) = Ok ss_l).
Proof. split; [apply pT_class|]. split; [apply flip_order|]. split; [apply ss_ex_reach|]. split; [apply ss_ex_shows|]. vm_compute. repeat match goal with |- _ /\ _ => split end; reflexivity. Qed.

(** C35: [clear] empties the set. *)
Theorem C35_clear : forall S V K (T : listcls S V K) ltb eqb fref dflt ord s l,
  list_class T ltb eqb fref dflt -> any_order ord -> ss_reach T eqb ord s -> ss_shows T s l ->
  exists s', ss_step T eqb ord SClear s = (RUnit, s') /\ ss_reach T eqb ord s' /\ ss_shows T s' [] /\
    ss_len s' = (Ok 0, s').
Proof. exact c35_clear. Qed.
Print Assumptions C35_clear.

Example C35_clear_case : list_class pT pltb peqb (fwd_plain pltb peqb) 2 /\ any_order flip /\ ss_reach pT peqb flip ss_ex /\ ss_shows pT ss_ex ss_l /\
  (let (r, s) := ss_step pT peqb flip (SClear) ss_ex in r = RUnit /\ fst (ss_iter pT s) = Ok []).
Proof. split; [apply pT_class|]. split; [apply flip_order|]. split; [apply ss_ex_reach|]. split; [apply ss_ex_shows|]. vm_compute. repeat match goal with |- _ /\ _ => split end; reflexivity. Qed.

(** C36: [union], [intersection], [difference] and [symmetric_difference], with any number of
    arguments, return a consistent sorted set with exactly the right members and leave the receiver as it was. *)
Theorem C36_operators : forall S V K (T : listcls S V K) ltb eqb fref dflt ord s l its it,
  list_class T ltb eqb fref dflt -> any_order ord -> ss_reach T eqb ord s -> ss_shows T s l ->
  (exists n l', ss_union T eqb ord its s = (Ok n, s) /\ ss_reach T eqb ord n /\ ss_shows T n l' /\
     sorted ltb l' /\ distinct eqb l' /\
     forall x, member eqb x l' <-> member eqb x l \/ in_any eqb x its) /\
  (exists n l', ss_intersection T eqb ord its s = (Ok n, s) /\ ss_reach T eqb ord n /\ ss_shows T n l' /\
     sorted ltb l' /\ distinct eqb l' /\
     forall x, member eqb x l' <-> member eqb x l /\ forall a, In a its -> member eqb x (items a)) /\
  (exists n l', ss_difference T eqb ord its s = (Ok n, s) /\ ss_reach T eqb ord n /\ ss_shows T n l' /\
     sorted ltb l' /\ distinct eqb l' /\
     forall x, member eqb x l' <-> member eqb x l /\ ~ in_any eqb x its) /\
  (exists n l', ss_symmetric_difference T eqb ord it s = (Ok n, s) /\ ss_reach T eqb ord n /\ ss_shows T n l' /\
     sorted ltb l' /\ distinct eqb l' /\
     forall x, member eqb x l' <->
       (member eqb x l /\ ~ member eqb x (items it)) \/ (~ member eqb x l /\ member eqb x (items it))).
Proof. exact c36_operators. Qed.
Print Assumptions C36_operators.

Example C36_case : list_class pT pltb peqb (fwd_plain pltb peqb) 2 /\ any_order flip /\ ss_reach pT peqb flip ss_ex /\ ss_shows pT ss_ex ss_l /\
  (let (r, s) := ss_step pT peqb flip (SUnion [AIter [(2, 0); (3, 0)]; ASet [(0, 1)]]) ss_ex in r = RUnit /\ fst (ss_iter pT s) = Ok [(0, 1); (1, 5); (2, 0); (3, 5); (4, 5); (5, 5); (8, 5); (9, 5); (10, 9); (11, 0); (12, 0); (14, 0); (16, 0)]) /\
  (let (r, s) := ss_step pT peqb flip (SIntersection [AIter [(4, 0); (3, 0); (2, 0)]; AIter [(3, 1); (9, 0)]]) ss_ex in r = RUnit /\ fst (ss_iter pT s) = Ok [(3, 1)]) /\
  (let (r, s) := ss_step pT peqb flip (SDifference [AIter [(4, 0); (3, 0); (2, 0)]; AIter [(3, 1); (9, 0)]]) ss_ex in r = RUnit /\ fst (ss_iter pT s) = Ok [(1, 5); (5, 5); (8, 5); (10, 9); (11, 0); (12, 0); (14, 0); (16, 0)]) /\
  (let (r, s) := ss_step pT peqb flip (SSymmetricDifference (AIter [(1, 0); (2, 0); (3, 0); (4, 0); (5, 0); (8, 0); (9, 0); (10, 0); (2, 1)])) ss_ex in r = RUnit /\ fst (ss_iter pT s) = Ok [(2, 0); (11, 0); (12, 0); (14, 0); (16, 0)]).
Proof. split; [apply pT_class|]. split; [apply flip_order|]. split; [apply ss_ex_reach|]. split; [apply ss_ex_shows|]. vm_compute. repeat match goal with |- _ /\ _ => split end; reflexivity. Qed.

(** C37: the in-place operations give exactly the mathematical members, whatever the sizes of the
    set and the arguments (which select between rebuilding and going value by value). *)
Theorem C37_in_place : forall S V K (T : listcls S V K) ltb eqb fref dflt ord s l its it,
  list_class T ltb eqb fref dflt -> any_order ord -> ss_reach T eqb ord s -> ss_shows T s l ->
  (exists s' l', ss_update T eqb ord its s = (Ok tt, s') /\ ss_reach T eqb ord s' /\ ss_shows T s' l' /\
     forall x, member eqb x l' <-> member eqb x l \/ in_any eqb x its) /\
  (exists s' l', ss_intersection_update T eqb ord its s = (Ok tt, s') /\ ss_reach T eqb ord s' /\ ss_shows T s' l' /\
     forall x, member eqb x l' <-> member eqb x l /\ forall a, In a its -> member eqb x (items a)) /\
  (exists s' l', ss_difference_update T eqb ord its s = (Ok tt, s') /\ ss_reach T eqb ord s' /\ ss_shows T s' l' /\
     forall x, member eqb x l' <-> member eqb x l /\ ~ in_any eqb x its) /\
  (exists s' l', ss_symmetric_difference_update T eqb ord it s = (Ok tt, s') /\ ss_reach T eqb ord s' /\ ss_shows T s' l' /\
     forall x, member eqb x l' <->
       (member eqb x l /\ ~ member eqb x (items it)) \/ (~ member eqb x l /\ member eqb x (items it))).
Proof. exact c37_in_place. Qed.
Print Assumptions C37_in_place.

Example C37_case : list_class pT pltb peqb (fwd_plain pltb peqb) 2 /\ any_order flip /\ ss_reach pT peqb flip ss_ex /\ ss_shows pT ss_ex ss_l /\
  (let (r, s) := ss_step pT peqb flip (SUpdate [AIter [(2, 0); (3, 0)]]) ss_ex in r = RUnit /\ fst (ss_iter pT s) = Ok [(1, 5); (2, 0); (3, 5); (4, 5); (5, 5); (8, 5); (9, 5); (10, 9); (11, 0); (12, 0); (14, 0); (16, 0)]) /\
  (let (r, s) := ss_step pT peqb flip (SUpdate [AIter [(2, 0); (3, 0)]; AIter [(0, 0)]]) ss_ex in r = RUnit /\ fst (ss_iter pT s) = Ok [(0, 0); (1, 5); (2, 0); (3, 5); (4, 5); (5, 5); (8, 5); (9, 5); (10, 9); (11, 0); (12, 0); (14, 0); (16, 0)]) /\
  (let (r, s) := ss_step pT peqb flip (SDifferenceUpdate [AIter [(2, 0); (3, 0)]]) ss_ex in r = RUnit /\ fst (ss_iter pT s) = Ok [(1, 5); (4, 5); (5, 5); (8, 5); (9, 5); (10, 9); (11, 0); (12, 0); (14, 0); (16, 0)]) /\
  (let (r, s) := ss_step pT peqb flip (SDifferenceUpdate [AIter [(2, 0); (3, 0); (16, 0)]]) ss_ex in r = RUnit /\ fst (ss_iter pT s) = Ok [(1, 5); (4, 5); (5, 5); (8, 5); (9, 5); (10, 9); (11, 0); (12, 0); (14, 0)]).
Proof. split; [apply pT_class|]. split; [apply flip_order|]. split; [apply ss_ex_reach|]. split; [apply ss_ex_shows|]. vm_compute. repeat match goal with |- _ /\ _ => split end; reflexivity. Qed.

(** C37: done at once or value by value, [update] and [difference_update] end with the same values. *)
Theorem C37_paths : forall S V K (T : listcls S V K) ltb eqb fref dflt ord s l vs,
  list_class T ltb eqb fref dflt -> any_order ord -> ss_reach T eqb ord s -> ss_shows T s l ->
  (exists s1 s2 l1 l2, update_at_once T eqb ord vs s = (Ok tt, s1) /\ update_each T eqb vs s = (Ok tt, s2) /\
     ss_shows T s1 l1 /\ ss_shows T s2 l2 /\ Permutation l1 l2) /\
  (exists s1 s2 l1 l2, remove_at_once T eqb ord vs s = (Ok tt, s1) /\ remove_each T eqb vs s = (Ok tt, s2) /\
     ss_shows T s1 l1 /\ ss_shows T s2 l2 /\ Permutation l1 l2).
Proof. exact c37_paths. Qed.
Print Assumptions C37_paths.

Example C37_paths_case : list_class pT pltb peqb (fwd_plain pltb peqb) 2 /\ any_order flip /\ ss_reach pT peqb flip ss_ex /\ ss_shows pT ss_ex ss_l /\
  exists s, update_each pT peqb [(2, 0); (3, 0); (2, 1)] ss_ex = (Ok tt, s) /\ fst (ss_len s) = Ok 12.
Proof. split; [apply pT_class|]. split; [apply flip_order|]. split; [apply ss_ex_reach|]. split; [apply ss_ex_shows|]. eexists. split; vm_compute; reflexivity. Qed.

(** C38: comparisons between two SortedSets decide the subset relations. *)
Theorem C38_compare : forall S V K (T : listcls S V K) ltb eqb fref dflt ord ord2 s s2 l l2 op,
  list_class T ltb eqb fref dflt -> any_order ord -> any_order ord2 ->
  ss_reach T eqb ord s -> ss_shows T s l -> ss_reach T eqb ord2 s2 -> ss_shows T s2 l2 ->
  exists b, ss_compare eqb op (s_set s2) s = (Ok b, s) /\ (b = true <-> set_cmp_means eqb op l l2).
Proof. exact c38_compare. Qed.
Print Assumptions C38_compare.

Example C38_case : list_class pT pltb peqb (fwd_plain pltb peqb) 2 /\ any_order flip /\ ss_reach pT peqb flip ss_ex /\ ss_shows pT ss_ex ss_l /\
  fst (ss_compare peqb Ceq (s_set ss_ex) ss_ex) = Ok true /\ fst (ss_compare peqb Clt (s_set ss_ex) ss_ex) = Ok false /\
  fst (ss_compare peqb Cgt (s_set (snd (ss_step pT peqb flip (SDiscard (4, 0)) ss_ex))) ss_ex) = Ok true.
Proof. split; [apply pT_class|]. split; [apply flip_order|]. split; [apply ss_ex_reach|]. split; [apply ss_ex_shows|]. vm_compute. repeat match goal with |- _ /\ _ => split end; reflexivity. Qed.

(** C38: the same against a built-in set. *)
Theorem C38_compare_set : forall S V K (T : listcls S V K) ltb eqb fref dflt ord s l op other,
  list_class T ltb eqb fref dflt -> any_order ord -> ss_reach T eqb ord s -> ss_shows T s l -> distinct eqb other ->
  exists b, ss_compare eqb op other s = (Ok b, s) /\ (b = true <-> set_cmp_means eqb op l other).
Proof. exact c38_compare_set. Qed.
Print Assumptions C38_compare_set.

Example C38_set_case : list_class pT pltb peqb (fwd_plain pltb peqb) 2 /\ any_order flip /\ ss_reach pT peqb flip ss_ex /\ ss_shows pT ss_ex ss_l /\
  distinct peqb [(9, 1); (3, 1)] /\ fst (ss_compare peqb Cge [(9, 1); (3, 1)] ss_ex) = Ok true /\ fst (ss_compare peqb Cle [(9, 1); (3, 1)] ss_ex) = Ok false.
Proof. split; [apply pT_class|]. split; [apply flip_order|]. split; [apply ss_ex_reach|]. split; [apply ss_ex_shows|]. split; [cbn; intuition (subst; reflexivity)|]. split; vm_compute; reflexivity. Qed.

(** C38: [isdisjoint], [issubset] and [issuperset]. *)
Theorem C38_relations : forall S V K (T : listcls S V K) ltb eqb fref dflt ord s l a,
  list_class T ltb eqb fref dflt -> any_order ord -> ss_reach T eqb ord s -> ss_shows T s l ->
  (exists b, ss_isdisjoint eqb a s = (Ok b, s) /\
     (b = true <-> forall x, ~ (member eqb x l /\ member eqb x (items a)))) /\
  (exists b, ss_issubset eqb a s = (Ok b, s) /\
     (b = true <-> forall x, member eqb x l -> member eqb x (items a))) /\
  (exists b, ss_issuperset eqb a s = (Ok b, s) /\
     (b = true <-> forall x, member eqb x (items a) -> member eqb x l)).
Proof. exact c38_relations. Qed.
Print Assumptions C38_relations.

Example C38_relations_case : list_class pT pltb peqb (fwd_plain pltb peqb) 2 /\ any_order flip /\ ss_reach pT peqb flip ss_ex /\ ss_shows pT ss_ex ss_l /\
  fst (ss_isdisjoint peqb (AIter [(2, 0); (2, 0); (6, 0)]) ss_ex) = Ok true /\ fst (ss_issubset peqb (AIter [(2, 0)]) ss_ex) = Ok false /\ fst (ss_issuperset peqb (AIter [(3, 0); (3, 1)]) ss_ex) = Ok true.
Proof. split; [apply pT_class|]. split; [apply flip_order|]. split; [apply ss_ex_reach|]. split; [apply ss_ex_shows|]. vm_compute. repeat match goal with |- _ /\ _ => split end; reflexivity. Qed.

(** C39: [ss[i]] and [ss[a:b:c]] are those of the list of its values. *)
Theorem C39_indexing : forall S V K (T : listcls S V K) ltb eqb fref dflt ord s l i sl,
  list_class T ltb eqb fref dflt -> any_order ord -> ss_reach T eqb ord s -> ss_shows T s l ->
  (exists r s', ss_step T eqb ord (SGet i) s = (r, s') /\ ss_reach T eqb ord s' /\ ss_shows T s' l /\
     ((out_of_range i l /\ r = RExn IndexError) \/ exists a x b, at_pos i l a x b /\ r = RVal x)) /\
  (exists r s', ss_step T eqb ord (SSlice sl) s = (r, s') /\ ss_reach T eqb ord s' /\ ss_shows T s' l /\
     ((s_step sl = Some 0%Z /\ r = RExn ValueError) \/
      (s_step sl <> Some 0%Z /\ exists x, r = RList x /\ slice_is sl l x))).
Proof. exact c39_read. Qed.
Print Assumptions C39_indexing.

Example C39_case : list_class pT pltb peqb (fwd_plain pltb peqb) 2 /\ any_order flip /\ ss_reach pT peqb flip ss_ex /\ ss_shows pT ss_ex ss_l /\
  (let (r, s) := ss_step pT peqb flip (SGet (-1)) ss_ex in r = RVal (16, 0) /\ fst (ss_iter pT s) = Ok ss_l) /\
  (let (r, s) := ss_step pT peqb flip (SSlice (mkslice (Some 8%Z) (Some 1%Z) (Some (-3)%Z))) ss_ex in r = RList [(12, 0); (9, 5); (4, 5)] /\ fst (ss_iter pT s) = Ok ss_l).
Proof. split; [apply pT_class|]. split; [apply flip_order|]. split; [apply ss_ex_reach|]. split; [apply ss_ex_shows|]. vm_compute. repeat match goal with |- _ /\ _ => split end; reflexivity. Qed.

(** C39: deleting positions removes exactly those values, from the hash set too. *)
Theorem C39_deletion : forall S V K (T : listcls S V K) ltb eqb fref dflt ord s l i sl,
  list_class T ltb eqb fref dflt -> any_order ord -> ss_reach T eqb ord s -> ss_shows T s l ->
  (exists r s' l', ss_step T eqb ord (SDel i) s = (r, s') /\ ss_reach T eqb ord s' /\ ss_shows T s' l' /\
     (forall v, exists b, ss_contains eqb v s' = (Ok b, s') /\ (b = true <-> member eqb v l')) /\
     ((out_of_range i l /\ r = RExn IndexError /\ l' = l) \/
      exists a x b, at_pos i l a x b /\ r = RUnit /\ l' = a ++ b)) /\
  (exists r s' l', ss_step T eqb ord (SDelSlice sl) s = (r, s') /\ ss_reach T eqb ord s' /\ ss_shows T s' l' /\
     (forall v, exists b, ss_contains eqb v s' = (Ok b, s') /\ (b = true <-> member eqb v l')) /\
     ((s_step sl = Some 0%Z /\ r = RExn ValueError /\ l' = l) \/
      (s_step sl <> Some 0%Z /\ r = RUnit /\ slice_deleted sl l l'))).
Proof. exact c39_delete. Qed.
Print Assumptions C39_deletion.

Example C39_delete_case : list_class pT pltb peqb (fwd_plain pltb peqb) 2 /\ any_order flip /\ ss_reach pT peqb flip ss_ex /\ ss_shows pT ss_ex ss_l /\
  (let (r, s) := ss_step pT peqb flip (SDel (-1)) ss_ex in r = RUnit /\ fst (ss_iter pT s) = Ok [(1, 5); (3, 5); (4, 5); (5, 5); (8, 5); (9, 5); (10, 9); (11, 0); (12, 0); (14, 0)]) /\
  (let (r, s) := ss_step pT peqb flip (SDelSlice (mkslice (Some 8%Z) (Some 1%Z) (Some (-3)%Z))) ss_ex in r = RUnit /\ fst (ss_iter pT s) = Ok [(1, 5); (3, 5); (5, 5); (8, 5); (10, 9); (11, 0); (14, 0); (16, 0)]).
Proof. split; [apply pT_class|]. split; [apply flip_order|]. split; [apply ss_ex_reach|]. split; [apply ss_ex_shows|]. vm_compute. repeat match goal with |- _ /\ _ => split end; reflexivity. Qed.

(** C40: without a key function, two SortedSets with the same members iterate the same up to
    equality, whatever the hash orders and histories. *)
Theorem C40_hash_order_irrelevant : forall V K (ltb eqb : V -> V -> bool) dflt ord1 ord2 s1 s2 l1 l2,
  let T := plain (K:=K) (total2 ltb) (total2 eqb) dflt in
  TotalOrder ltb eqb -> 1 <= dflt -> any_order ord1 -> any_order ord2 ->
  ss_reach T eqb ord1 s1 -> ss_reach T eqb ord2 s2 -> ss_shows T s1 l1 -> ss_shows T s2 l2 ->
  (forall v, exists b, ss_contains eqb v s1 = (Ok b, s1) /\ ss_contains eqb v s2 = (Ok b, s2)) ->
  Forall2 (fun x y => eqb x y = true) l1 l2.
Proof. exact c40_plain. Qed.
Print Assumptions C40_hash_order_irrelevant.

Example C40_case : TotalOrder pltb peqb /\ any_order flip /\ any_order (fun _ (l : list pv) => l) /\ ss_reach pT peqb flip ss_ex /\ ss_shows pT ss_ex ss_l /\
  exists s2, ss_new pT peqb (fun _ l => l) 0 (Some (AIter (rev ss_l))) = Ok s2 /\ ss_reach pT peqb (fun _ l => l) s2 /\ s_set s2 <> s_set ss_ex /\
    ss_shows pT s2 ss_l.
Proof.
  split; [apply pair_total|]. split; [apply flip_order|]. split; [intros n l; reflexivity|].
  split; [apply ss_ex_reach|]. split; [apply ss_ex_shows|]. eexists. split; [vm_compute; reflexivity|].
  split; [|split; [vm_compute; discriminate|vm_compute; reflexivity]].
  eexists 0, (Some (AIter (rev ss_l))), _, []. split; [vm_compute; reflexivity|]. split; [constructor|reflexivity].
Qed.

(** C40, also with a key function as long as values with equal keys are equal. *)
Theorem C40_hash_order_irrelevant_key : forall S V K (T : listcls S V K) ltb eqb fref dflt ord1 ord2 s1 s2 l1 l2,
  list_class T ltb eqb fref dflt ->
  (forall x y, ltb x y = false -> ltb y x = false -> eqb x y = true) ->
  any_order ord1 -> any_order ord2 ->
  ss_reach T eqb ord1 s1 -> ss_reach T eqb ord2 s2 -> ss_shows T s1 l1 -> ss_shows T s2 l2 ->
  (forall v, exists b, ss_contains eqb v s1 = (Ok b, s1) /\ ss_contains eqb v s2 = (Ok b, s2)) ->
  Forall2 (fun x y => eqb x y = true) l1 l2.
Proof. exact c40_hash_order. Qed.
Print Assumptions C40_hash_order_irrelevant_key.

Example C40_key_case : list_class pT pltb peqb (fwd_plain pltb peqb) 2 /\
  (forall x y, pltb x y = false -> pltb y x = false -> peqb x y = true) /\
  list_class (keyed (total2 Nat.eqb) (total2 Nat.ltb) (total2 Nat.eqb) (total1 (fun n => 100 - n)) 2)
    (by_key (fun n => 100 - n) Nat.ltb) Nat.eqb (fwd_keyed (fun n => 100 - n) Nat.ltb Nat.eqb) 2.
Proof.
  split; [apply pT_class|]. split.
  - intros x y H1 H2. rewrite (to_eq pair_total), H1, H2. reflexivity.
  - apply class_keyed; [apply nat_total| | |lia].
    + split; intros; rewrite ?Nat.eqb_eq in *; congruence.
    + intros x y H. apply Nat.eqb_eq in H. subst. split; apply Nat.ltb_irrefl.
Qed.

(** C41: [copy] has the same members, is consistent, and does not change the original. *)
Theorem C41_copy : forall S V K (T : listcls S V K) ltb eqb fref dflt ord s l,
  list_class T ltb eqb fref dflt -> any_order ord -> ss_reach T eqb ord s -> ss_shows T s l ->
  exists n l', ss_copy T ord s = (Ok n, s) /\ ss_reach T eqb ord n /\ ss_shows T n l' /\
    Permutation l' l /\ sorted ltb l' /\ (4 <= dflt -> ss_check T eqb n = (Ok tt, n)).
Proof. exact c41_copy. Qed.
Print Assumptions C41_copy.

Example C41_case : list_class pT pltb peqb (fwd_plain pltb peqb) 2 /\ any_order flip /\ ss_reach pT peqb flip ss_ex /\ ss_shows pT ss_ex ss_l /\
  (let (r, s) := ss_step pT peqb flip (SCopy) ss_ex in r = RUnit /\ fst (ss_iter pT s) = Ok ss_l).
Proof. split; [apply pT_class|]. split; [apply flip_order|]. split; [apply ss_ex_reach|]. split; [apply ss_ex_shows|]. vm_compute. repeat match goal with |- _ /\ _ => split end; reflexivity. Qed.

(** C41: so does the object rebuilt from [__reduce__]. *)
Theorem C41_reduce : forall S V K (T : listcls S V K) ltb eqb fref dflt ord s l,
  list_class T ltb eqb fref dflt -> any_order ord -> ss_reach T eqb ord s -> ss_shows T s l ->
  exists n l' s1, ss_reduce T eqb ord s = (Ok n, s1) /\ ss_shows T s1 l /\ s_set s1 = s_set s /\ s_list s1 = s_list s /\
    ss_reach T eqb ord n /\ ss_shows T n l' /\
    Permutation l' l /\ sorted ltb l' /\ (4 <= dflt -> ss_check T eqb n = (Ok tt, n)).
Proof. exact c41_reduce. Qed.
Print Assumptions C41_reduce.

Example C41_reduce_case : list_class pT pltb peqb (fwd_plain pltb peqb) 2 /\ any_order flip /\ ss_reach pT peqb flip ss_ex /\ ss_shows pT ss_ex ss_l /\
  (let (r, s) := ss_step pT peqb flip (SReduce) ss_ex in r = RUnit /\ fst (ss_iter pT s) = Ok ss_l).
Proof. split; [apply pT_class|]. split; [apply flip_order|]. split; [apply ss_ex_reach|]. split; [apply ss_ex_shows|]. vm_compute. repeat match goal with |- _ /\ _ => split end; reflexivity. Qed.

(** C25, SortedSet: the object rebuilt from [__reduce__] iterates identically when values that tie
    in the order are equal, in particular without a key function.  Missing: key functions under which
    different values tie, where it is false ([C25_set_reduce_refuted]). *)
Theorem C25_set_reduce_partial : forall S V K (T : listcls S V K) ltb eqb fref dflt ord s l,
  list_class T ltb eqb fref dflt ->
  (forall x y, ltb x y = false -> ltb y x = false -> eqb x y = true) ->
  any_order ord -> ss_reach T eqb ord s -> ss_shows T s l ->
  exists n s1, ss_reduce T eqb ord s = (Ok n, s1) /\ ss_shows T s1 l /\ ss_reach T eqb ord n /\ ss_shows T n l.
Proof. exact c25_set_reduce. Qed.
Print Assumptions C25_set_reduce_partial.

Example C25_set_case : list_class pT pltb peqb (fwd_plain pltb peqb) 2 /\ any_order flip /\ ss_reach pT peqb flip ss_ex /\ ss_shows pT ss_ex ss_l /\
  (forall x y, pltb x y = false -> pltb y x = false -> peqb x y = true) /\
  (let (r, s) := ss_step pT peqb flip SReduce ss_ex in r = RUnit /\ fst (ss_iter pT s) = Ok ss_l).
Proof.
  split; [apply pT_class|]. split; [apply flip_order|]. split; [apply ss_ex_reach|]. split; [apply ss_ex_shows|].
  split; [intros x y H1 H2; rewrite (to_eq pair_total), H1, H2; reflexivity|]. vm_compute. split; reflexivity.
Qed.

(** C25 is false of a SortedSet whose key function lets different values tie: ties are iterated in
    insertion order, but the rebuilt set inserts them in the iteration order of the hash set. *)
Theorem C25_set_reduce_refuted : exists (key : nat -> nat) dflt ord s0 s n s1 l l',
  let T := keyed (total2 Nat.eqb) (total2 Nat.ltb) (total2 Nat.eqb) (total1 key) dflt in
  list_class T (by_key key Nat.ltb) Nat.eqb (fwd_keyed key Nat.ltb Nat.eqb) dflt /\ any_order ord /\
  ss_new T Nat.eqb ord 0 None = Ok s0 /\ s = snd (ss_run T Nat.eqb ord [SAdd 2; SAdd 1] s0) /\ ss_shows T s l /\
  ss_reduce T Nat.eqb ord s = (Ok n, s1) /\ ss_shows T n l' /\ l' <> l.
Proof. exact c25_set_refuted. Qed.
Print Assumptions C25_set_reduce_refuted.



(** C56: [_check] passes after every history (load factors of at least 4, below which the
    list self check is too strict, see C17). *)
Theorem C56_set_check : forall S V K (T : listcls S V K) ltb eqb fref dflt ord tick it s0 ops,
  list_class T ltb eqb fref dflt -> any_order ord -> 4 <= dflt -> Forall sop_ok ops -> Forall (resets_from 4) ops ->
  ss_new T eqb ord tick it = Ok s0 ->
  let s := snd (ss_run T eqb ord ops s0) in ss_check T eqb s = (Ok tt, s).
Proof. exact c56_set_check. Qed.
Print Assumptions C56_set_check.

Example C56_set_case : 4 <= 1000 /\ Forall sop_ok ss_ops /\ Forall (resets_from 4) ss_ops /\
  let T := plain (K:=nat) (total2 pltb) (total2 peqb) 1000 in
  exists s0, ss_new T peqb flip 0 None = Ok s0 /\ fst (ss_check T peqb (snd (ss_run T peqb flip ss_ops s0))) = Ok tt.
Proof. split; [lia|]. split; [repeat constructor|]. split; [repeat constructor|]. cbv zeta. eexists. split; vm_compute; reflexivity. Qed.

(** C42 is false of the code: when a comparison raises during [add], the value stays in the hash
    set; it is then reported as a member and counted by [len] although it is not iterated. *)
Theorem C42_add_failure_refuted : exists (lt eq : nat -> nat -> res bool) dflt ord s0 s v e l,
  let T := plain (K:=nat) lt eq dflt in
  1 <= dflt /\ any_order ord /\ ss_new T Nat.eqb ord 0 (Some (AIter [1; 2])) = Ok s0 /\
  ss_add T Nat.eqb v s0 = (Err e, s) /\ ss_contains Nat.eqb v s = (Ok true, s) /\
  ss_shows T s l /\ ~ In v l /\ ss_len s = (Ok (Datatypes.S (length l)), s).
Proof. exact c42_refuted. Qed.
Print Assumptions C42_add_failure_refuted.



(** C42, what does hold: the exception is the comparison's own, the value was not a member, the
    list part is unchanged and the hash set has gained just that value.  Missing: that the value is not a member
    afterwards, which is false ([C42_add_failure_refuted]). *)
Theorem C42_add_failure_partial : forall V K (ltb eqb : V -> V -> bool) dflt ord s l,
  let T := plain (K:=K) (total2 ltb) (total2 eqb) dflt in
  TotalOrder ltb eqb -> 1 <= dflt -> any_order ord -> ss_reach T eqb ord s -> ss_shows T s l ->
  forall lt eq v e s', ss_add (plain (K:=K) lt eq dflt) eqb v s = (Err e, s') ->
    (exists x, lt v x = Err e) /\ s_list s' = s_list s /\ ss_shows T s' l /\
    ~ member eqb v l /\ s_set s' = s_set s ++ [v].
Proof. exact c42_list_kept. Qed.
Print Assumptions C42_add_failure_partial.

Example C42_case : ss_reach pT peqb flip ss_ex /\ ss_shows pT ss_ex ss_l /\
  let lt (x y : pv) := if fst y =? 9 then Err TypeError else Ok (pltb x y) in
  exists s', ss_add (plain (K:=nat) lt (total2 peqb) 2) peqb (7, 9) ss_ex = (Err TypeError, s').
Proof. split; [apply ss_ex_reach|]. split; [apply ss_ex_shows|]. eexists. vm_compute. reflexivity. Qed.

(** C42 with a key function, likewise partial. *)
Theorem C42_keyed_add_failure_partial : forall V K (key : V -> K) (kltb keqb : K -> K -> bool) (eqb : V -> V -> bool) dflt ord s l,
  let T := keyed (total2 eqb) (total2 kltb) (total2 keqb) (total1 key) dflt in
  TotalOrder kltb keqb -> Equiv eqb -> EqCompat (by_key key kltb) eqb -> 1 <= dflt ->
  any_order ord -> ss_reach T eqb ord s -> ss_shows T s l ->
  forall klt keq eq v e s', ss_add (keyed eq klt keq (total1 key) dflt) eqb v s = (Err e, s') ->
    (exists k, klt (key v) k = Err e) /\ s_list s' = s_list s /\ ss_shows T s' l /\
    ~ member eqb v l /\ s_set s' = s_set s ++ [v].
Proof. exact c42_keyed_list_kept. Qed.
Print Assumptions C42_keyed_add_failure_partial.

Example C42_key_case : ss_reach kT pairb flip kss_ex /\ ss_shows kT kss_ex kss_l /\
  let klt x y := if y =? 3 then Err TypeError else Ok (x <? y) in
  exists s', ss_add (keyed (total2 pairb) klt (total2 Nat.eqb) (total1 (@fst nat nat)) 2) pairb (2, 9) kss_ex = (Err TypeError, s').
Proof. split; [apply kss_ex_reach|]. split; [apply kss_ex_shows|]. eexists. vm_compute. reflexivity. Qed.

(** C54, SortedSet without a key function: only documented exceptions escape. *)
Theorem C54_set_documented_exceptions : forall V K (ltb eqb : V -> V -> bool) dflt ord s o,
  let T := plain (K:=K) (total2 ltb) (total2 eqb) dflt in
  TotalOrder ltb eqb -> 1 <= dflt -> any_order ord -> ss_reach T eqb ord s -> sop_ok o ->
  forall e s', ss_step T eqb ord o s = (RExn e, s') -> sdocumented True o e.
Proof. exact c54_set_plain. Qed.
Print Assumptions C54_set_documented_exceptions.

Example C54_set_case : ss_reach pT peqb flip ss_ex /\ sop_ok (V:=pv) (K:=nat) (SRemove (7, 0)) /\
  fst (ss_step pT peqb flip (SRemove (7, 0)) ss_ex) = RExn KeyError /\
  fst (ss_step pT peqb flip (SFwd (FBisectKeyLeft 3)) ss_ex) = RExn AttributeError.
Proof. split; [apply ss_ex_reach|]. split; [exact I|]. split; vm_compute; reflexivity. Qed.

(** C54, SortedSet with a key function. *)
Theorem C54_keyed_set_documented_exceptions : forall V K (key : V -> K) (kltb keqb : K -> K -> bool) (eqb : V -> V -> bool) dflt ord s o,
  let T := keyed (total2 eqb) (total2 kltb) (total2 keqb) (total1 key) dflt in
  TotalOrder kltb keqb -> Equiv eqb -> EqCompat (by_key key kltb) eqb -> 1 <= dflt ->
  any_order ord -> ss_reach T eqb ord s -> sop_ok o ->
  forall e s', ss_step T eqb ord o s = (RExn e, s') -> sdocumented False o e.
Proof. exact c54_set_keyed. Qed.
Print Assumptions C54_keyed_set_documented_exceptions.

Example C54_keyed_set_case : ss_reach kT pairb flip kss_ex /\
  fst (ss_step kT pairb flip (SFwd (FIndex (3, 1) None None)) kss_ex) = RExn ValueError /\
  fst (ss_step kT pairb flip (SFwd (FBisectKeyLeft 3)) kss_ex) = RNat 3.
Proof. split; [apply kss_ex_reach|]. split; vm_compute; reflexivity. Qed.

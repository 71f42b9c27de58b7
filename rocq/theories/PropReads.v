(** * C107, C108: comparisons that read the list *)
From Coq Require Import Lia.
From Verif Require Import PyBase Model Spec History Reach Concrete ConcreteCompare ModelReads ReadsSpec ReadsProps.

(** C107: [a < b] and [a == b] may call the querying methods of the SortedList that is comparing them.  If they answer as a total order
    whenever the list is one that public operations make, every operation does what it does with comparisons that read nothing: the same
    outcome, the same contents, and again a list that public operations make.  [update] and [+=] of a list that is at most four times
    as long as what is added are excepted (C108).  Comparisons need to answer only for the contents that [seen] names. *)
Theorem C107_list : forall (V : Type) (ltb eqb : V -> V -> bool) dflt lt eq c l o,
  TotalOrder ltb eqb -> 1 <= dflt -> sl_reach ltb eqb dflt c -> shows c l -> lop_ok o ->
  rebuilds o l = false ->
  (forall m, seen ltb o l m -> reads ltb eqb dflt m lt ltb /\ reads ltb eqb dflt m eq eqb) ->
  as_without ltb eqb dflt (r_step lt eq dflt) o c.
Proof. exact c107_list. Qed.
Print Assumptions C107_list.

Example C107_list_case :
  let c := nlist [1; 2; 2; 3; 5] in
  let step := r_step (nosy Nat.ltb) (nosy Nat.eqb) 2 in
  TotalOrder Nat.ltb Nat.eqb /\ 1 <= 2 /\ sl_reach Nat.ltb Nat.eqb 2 c /\ shows c [1; 2; 2; 3; 5] /\
  (forall m, reads Nat.ltb Nat.eqb 2 m (nosy Nat.ltb) Nat.ltb /\ reads Nat.ltb Nat.eqb 2 m (nosy Nat.eqb) Nat.eqb) /\
  rebuilds (LUpdate [4]) [1; 2; 2; 3; 5] = false /\ rebuilds (LIndex 2 (Some 2%Z) None) [1; 2; 2; 3; 5] = false /\
  index c = [] /\ index (snd (step (LContains 2) c)) = [5; 4; 1; 2; 2; 1] /\
  fst (step (LIndex 2 (Some 2%Z) None) c) = RNat 2 /\ fst (step (LDelSlice (mkslice (Some 1%Z) (Some 4%Z) None)) c) = RUnit /\
  contents (snd (step (LDelSlice (mkslice (Some 1%Z) (Some 4%Z) None)) c)) = [1; 5] /\
  contents (snd (step (LUpdate [4]) c)) = [1; 2; 2; 3; 4; 5].
Proof.
  split; [apply nat_total|]. split; [lia|]. split; [apply nlist_reach|]. split; [reflexivity|].
  split; [intros m; split; apply reads_nosy|]. vm_compute. repeat match goal with |- _ /\ _ => split end; reflexivity.
Qed.

(** C108, refuted: without that exception C107 is false.  [update] appends the new values to [_lists] before it sorts everything
    (sortedlist.py:280-282), so comparisons see a list whose length is not the number of its values. *)
Theorem C108_update_refuted : ~ forall (V : Type) (ltb eqb : V -> V -> bool) dflt lt eq c l o,
  TotalOrder ltb eqb -> 1 <= dflt -> sl_reach ltb eqb dflt c -> shows c l -> lop_ok o ->
  (forall m, reads ltb eqb dflt m lt ltb /\ reads ltb eqb dflt m eq eqb) ->
  as_without ltb eqb dflt (r_step lt eq dflt) o c.
Proof. exact c108_update. Qed.
Print Assumptions C108_update_refuted.

Example C108_update_refuted_case :
  let c := nlist [1] in
  let step := r_step (wary Nat.ltb) (wary Nat.eqb) 2 in
  sl_reach Nat.ltb Nat.eqb 2 c /\ shows c [1] /\
  (forall m, reads Nat.ltb Nat.eqb 2 m (wary Nat.ltb) Nat.ltb /\ reads Nat.ltb Nat.eqb 2 m (wary Nat.eqb) Nat.eqb) /\
  fst (step (LUpdate [2; 3]) c) = RExn AssertionError /\ fst (step (LAdd 2) c) = RUnit /\
  fst (sl_do Nat.ltb Nat.eqb 2 (LUpdate [2; 3]) c) = RUnit.
Proof.
  split; [apply nlist_reach|]. split; [reflexivity|]. split; [intros m; split; apply reads_wary|]. vm_compute. repeat match goal with |- _ /\ _ => split end; reflexivity.
Qed.

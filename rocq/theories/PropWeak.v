(** * Property theorems: values whose equality is finer than their order (C81, C82) *)
From Verif Require Import PyBase Model Spec History Reach ListClass ClassSpec ModelSet SetSpec ModelDict DictSpec Concrete WeakSpec WeakProps WeakRefute.

(** C81: with values whose [==] is finer than their order, every history gives exactly the results and contents of the plain
    ordered list of WeakSpec. *)
Theorem C81_weak_history : forall V (ltb eqb : V -> V -> bool) dflt ops,
  SWO ltb -> EqCompat ltb eqb -> 1 <= dflt -> Forall wk_ok ops ->
  exists outs c l, sl_run (total2 ltb) (total2 eqb) dflt ops (sl_init dflt) = (outs, c) /\
    wk_run ltb eqb ops [] = (outs, l) /\ shows c l.
Proof. exact c81_history. Qed.
Print Assumptions C81_weak_history.

Example C81_weak_history_case : SWO pltb /\ EqCompat pltb pairb /\ Forall wk_ok [LUpdate [(3, 0); (1, 0); (1, 1); (2, 5)]; LAdd (1, 2); LRemove (2, 5); LGet 1%Z] /\
  (let r := sl_run (total2 pltb) (total2 pairb) 2 [LUpdate [(3, 0); (1, 0); (1, 1); (2, 5)]; LAdd (1, 2); LRemove (2, 5); LGet 1%Z] (sl_init 2) in
   fst r = [RUnit; RUnit; RUnit; RVal (1, 1)] /\ shows (snd r) [(1, 0); (1, 1); (1, 2); (3, 0)] /\
   fst (sl_do pltb pairb 2 (LContains (1, 0)) (snd r)) = RBool true /\
   fst (sl_do pltb pairb 2 (LContains (1, 1)) (snd r)) = RBool false /\
   fst (sl_do pltb pairb 2 (LCount (1, 1)) (snd r)) = RNat 3).
Proof. split; [exact wk_swo|]. split; [exact wk_compat|]. split; [repeat constructor|]. vm_compute. repeat match goal with |- _ /\ _ => split end; reflexivity. Qed.

(** C81: what is found or removed is equal to what was asked for: membership is never claimed wrongly, and discard and remove take away
    at most one value, one that is equal to the given one. *)
Theorem C81_sound : forall V (ltb eqb : V -> V -> bool) dflt ops outs c l v,
  SWO ltb -> EqCompat ltb eqb -> 1 <= dflt -> Forall wk_ok ops ->
  sl_run (total2 ltb) (total2 eqb) dflt ops (sl_init dflt) = (outs, c) -> shows c l ->
  (forall c', sl_do ltb eqb dflt (LContains v) c = (RBool true, c') -> exists x, In x l /\ eqb x v = true) /\
  (exists c' l', sl_do ltb eqb dflt (LDiscard v) c = (RUnit, c') /\ shows c' l' /\
     (l' = l \/ exists a x b, l = a ++ x :: b /\ eqb x v = true /\ l' = a ++ b)) /\
  (exists r c' l', sl_do ltb eqb dflt (LRemove v) c = (r, c') /\ shows c' l' /\
     ((r = RExn ValueError /\ l' = l) \/ (r = RUnit /\ exists a x b, l = a ++ x :: b /\ eqb x v = true /\ l' = a ++ b))).
Proof. exact c81_sound. Qed.
Print Assumptions C81_sound.

Example C81_sound_case : SWO pltb /\ EqCompat pltb pairb /\ Forall wk_ok [LUpdate [(3, 0); (1, 0); (1, 1); (2, 5)]; LAdd (1, 2); LRemove (2, 5); LGet 1%Z] /\
  (let c := snd (sl_run (total2 pltb) (total2 pairb) 2 [LUpdate [(3, 0); (1, 0); (1, 1); (2, 5)]; LAdd (1, 2); LRemove (2, 5); LGet 1%Z] (sl_init 2)) in
   shows c [(1, 0); (1, 1); (1, 2); (3, 0)] /\
   shows (snd (sl_do pltb pairb 2 (LDiscard (1, 0)) c)) [(1, 1); (1, 2); (3, 0)] /\
   shows (snd (sl_do pltb pairb 2 (LDiscard (1, 2)) c)) [(1, 0); (1, 1); (1, 2); (3, 0)] /\
   fst (sl_do pltb pairb 2 (LRemove (1, 2)) c) = RExn ValueError).
Proof. split; [exact wk_swo|]. split; [exact wk_compat|]. split; [repeat constructor|]. vm_compute. repeat match goal with |- _ /\ _ => split end; reflexivity. Qed.

(** C81: looking up a value that ties only with values equal to it works as for a total order, whatever other values tie with each
    other. *)
Theorem C81_exact : forall V (ltb eqb : V -> V -> bool) dflt ops outs c l v o,
  SWO ltb -> EqCompat ltb eqb -> 1 <= dflt -> Forall wk_ok ops ->
  sl_run (total2 ltb) (total2 eqb) dflt ops (sl_init dflt) = (outs, c) -> shows c l ->
  (forall x, In x l -> tie ltb x v = true -> eqb x v = true) ->
  (o = LContains v \/ o = LDiscard v \/ o = LRemove v \/ o = LCount v \/ exists start stop, o = LIndex v start stop) ->
  exists c', sl_do ltb eqb dflt o c = (fst (sp_step ltb eqb ltb o l), c') /\
    shows c' (snd (sp_step ltb eqb ltb o l)).
Proof. exact c81_exact. Qed.
Print Assumptions C81_exact.

Example C81_exact_case : SWO pltb /\ EqCompat pltb pairb /\ Forall wk_ok [LUpdate [(3, 0); (1, 0); (1, 1); (2, 5)]; LAdd (1, 2); LRemove (2, 5); LGet 1%Z] /\
  (let c := snd (sl_run (total2 pltb) (total2 pairb) 2 [LUpdate [(3, 0); (1, 0); (1, 1); (2, 5)]; LAdd (1, 2); LRemove (2, 5); LGet 1%Z] (sl_init 2)) in
   shows c [(1, 0); (1, 1); (1, 2); (3, 0)] /\
   (forall x, In x [(1, 0); (1, 1); (1, 2); (3, 0)] -> tie pltb x (3, 0) = true -> pairb x (3, 0) = true) /\
   fst (sl_do pltb pairb 2 (LIndex (3, 0) None None) c) = RNat 3).
Proof. split; [exact wk_swo|]. split; [exact wk_compat|]. split; [repeat constructor|]. split; [reflexivity|]. split; [|vm_compute; reflexivity].
  intros x [<-|[<-|[<-|[<-|[]]]]]; vm_compute; congruence. Qed.

(** C82 is false: [v in sl] can be [False] for a value listed by the SortedList, when an unequal value ties with it. *)
Theorem C82_contains_refuted : ~ (forall V (ltb eqb : V -> V -> bool) dflt ops outs c l v,
  SWO ltb -> Equiv eqb -> EqCompat ltb eqb -> 1 <= dflt -> Forall wk_ok ops ->
  sl_run (total2 ltb) (total2 eqb) dflt ops (sl_init dflt) = (outs, c) -> shows c l -> In v l ->
  exists c', sl_do ltb eqb dflt (LContains v) c = (RBool true, c')).
Proof. exact c82_contains. Qed.
Print Assumptions C82_contains_refuted.



(** C82 is false: [sl.remove(v)] can raise [ValueError] for a value listed by the SortedList. *)
Theorem C82_remove_refuted : ~ (forall V (ltb eqb : V -> V -> bool) dflt ops outs c l v,
  SWO ltb -> Equiv eqb -> EqCompat ltb eqb -> 1 <= dflt -> Forall wk_ok ops ->
  sl_run (total2 ltb) (total2 eqb) dflt ops (sl_init dflt) = (outs, c) -> shows c l -> In v l ->
  exists c', sl_do ltb eqb dflt (LRemove v) c = (RUnit, c')).
Proof. exact c82_remove. Qed.
Print Assumptions C82_remove_refuted.



(** C82 is false: [sl.count(v)] also counts values that only tie with [v]. *)
Theorem C82_count_refuted : ~ (forall V (ltb eqb : V -> V -> bool) dflt ops outs c l v,
  SWO ltb -> Equiv eqb -> EqCompat ltb eqb -> 1 <= dflt -> Forall wk_ok ops ->
  sl_run (total2 ltb) (total2 eqb) dflt ops (sl_init dflt) = (outs, c) -> shows c l ->
  exists c', sl_do ltb eqb dflt (LCount v) c = (RNat (sp_count eqb v l), c')).
Proof. exact c82_count. Qed.
Print Assumptions C82_count_refuted.



(** C82 is false: [sl.index(v, start)] can return the position of a value not equal to [v]. *)
Theorem C82_index_refuted : ~ (forall V (ltb eqb : V -> V -> bool) dflt ops outs c l v start stop i c',
  SWO ltb -> Equiv eqb -> EqCompat ltb eqb -> 1 <= dflt -> Forall wk_ok ops ->
  sl_run (total2 ltb) (total2 eqb) dflt ops (sl_init dflt) = (outs, c) -> shows c l ->
  sl_do ltb eqb dflt (LIndex v start stop) c = (RNat i, c') ->
  exists x, nth_error l i = Some x /\ eqb x v = true).
Proof. exact c82_index. Qed.
Print Assumptions C82_index_refuted.



(** C82 is false for SortedSet: discarding a member raises [ValueError] and leaves a set whose iteration still yields the value that
    [in] no longer finds. *)
Theorem C82_set_refuted : exists V (ltb eqb : V -> V -> bool) dflt ord s0 s v l,
  let T := plain (K:=V) (total2 ltb) (total2 eqb) dflt in
  SWO ltb /\ Equiv eqb /\ EqCompat ltb eqb /\ 1 <= dflt /\ any_order ord /\
  ss_new T eqb ord 0 (Some (AIter l)) = Ok s0 /\ ss_shows T s0 l /\ In v l /\
  ss_discard T eqb v s0 = (Err ValueError, s) /\
  ss_contains eqb v s = (Ok false, s) /\ ss_shows T s l.
Proof. exact c82_set. Qed.
Print Assumptions C82_set_refuted.



(** C82 is false for SortedDict: deleting a key raises [ValueError] and leaves a dict whose iteration still yields the key that [in]
    no longer finds. *)
Theorem C82_dict_refuted : exists A B (ltb eqb : A -> A -> bool) dflt s0 s (k : A) (v : B) ks,
  let T := plain (K:=A) (total2 ltb) (total2 eqb) dflt in
  SWO ltb /\ Equiv eqb /\ EqCompat ltb eqb /\ 1 <= dflt /\
  sd_new T eqb (APairs (map (fun k => (k, v)) ks)) = Ok s0 /\ sd_iter T s0 = (Ok ks, s0) /\ In k ks /\
  sd_delitem T eqb k s0 = (Err ValueError, s) /\
  sd_contains eqb k s = (Ok false, s) /\ sd_iter T s = (Ok ks, s).
Proof. exact c82_dict. Qed.
Print Assumptions C82_dict_refuted.

(** The witness: keys [(1, 0)] and [(1, 1)], ordered by their first component. *)
Example C82_case : SWO pltb /\ Equiv pairb /\ EqCompat pltb pairb /\ Forall wk_ok wk_ops /\ shows wk_c [(1, 0); (1, 1)].
Proof. split; [exact wk_swo|]. split; [exact wk_equiv|]. split; [exact wk_compat|]. split; [exact wk_ops_ok|exact wk_shows]. Qed.

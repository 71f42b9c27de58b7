(** * Properties of SortedList when comparisons raise or are not an order *)
From Verif Require Import PyBase Model Spec History Reach FaultSpec Concrete ListProps FaultProps.
From Coq Require Import Sorting.Permutation.

(** C23: on a list built under a total order, an operation that fails (its comparisons are
    arbitrary and may raise) leaves no trace: contents and length are the same and every
    later history behaves as if it had not been tried. *)
Theorem C23_failed_operation_no_effect : forall V (ltb eqb : V -> V -> bool) dflt c l,
  TotalOrder ltb eqb -> 1 <= dflt -> sl_reach ltb eqb dflt c -> shows c l ->
  forall lt eq o e c', atomic o -> sl_step lt eq dflt o c = (RExn e, c') ->
    shows c' l /\ length_of c' = (Ok (length l), c') /\
    (cmp_raises lt eq e \/ documented o e \/ (exists v, o = LCount v /\ e = Underflow)) /\
    forall ops, Forall lop_ok ops -> exists c2,
      sl_run (total2 ltb) (total2 eqb) dflt ops c' = (fst (sp_run ltb eqb ltb ops l), c2) /\
      shows c2 (snd (sp_run ltb eqb ltb ops l)).
Proof. exact c23_no_effect. Qed.
Print Assumptions C23_failed_operation_no_effect.

Example C23_case : sl_reach pltb peqb 2 ex_c /\ atomic (LAdd (7, 9)) /\
  let lt (x y : pv) := if fst y =? 8 then Err TypeError else Ok (pltb x y) in
  exists c', sl_step lt (total2 peqb) 2 (LAdd (7, 9)) ex_c = (RExn TypeError, c').
Proof. split; [apply ex_reach|]. split; [exact I|]. eexists. vm_compute. reflexivity. Qed.

(** C23: an interrupted rebuild may empty the list but leaves it working. *)
Theorem C23_failed_rebuild : forall V (ltb eqb : V -> V -> bool) dflt c l,
  TotalOrder ltb eqb -> 1 <= dflt -> sl_reach ltb eqb dflt c -> shows c l ->
  forall lt eq o e c', lop_ok o -> update_fine o (@RExn V e) -> sl_step lt eq dflt o c = (RExn e, c') ->
    (shows c' l \/ shows c' []) /\
    forall ops, Forall lop_ok ops -> exists l' c2, shows c' l' /\
      sl_run (total2 ltb) (total2 eqb) dflt ops c' = (fst (sp_run ltb eqb ltb ops l'), c2) /\
      shows c2 (snd (sp_run ltb eqb ltb ops l')).
Proof. exact c23_rebuild. Qed.
Print Assumptions C23_failed_rebuild.

Example C23_rebuild_case : sl_reach pltb peqb 2 ex_c /\
  let lt (x y : pv) := if fst y =? 8 then Err TypeError else Ok (pltb x y) in
  exists c', sl_step lt (total2 peqb) 2 (LIMul 2) ex_c = (RExn TypeError, c') /\ shows c' [].
Proof. split; [apply ex_reach|]. eexists. split; vm_compute; reflexivity. Qed.

(** C24 is false of the code: a comparison that raises while [update] merges leaves a list whose
    length is not the number of values it iterates (len 3, but six values). *)
Theorem C24_update_failure_refuted : exists (lt eq : bool * nat -> bool * nat -> res bool) dflt c c' it e l n,
  1 <= dflt /\ wild_reach dflt c /\ sl_step lt eq dflt (LUpdate it) c = (RExn e, c') /\
  shows c' l /\ length_of c' = (Ok n, c') /\ n <> length l.
Proof. exact c24_refuted. Qed.
Print Assumptions C24_update_failure_refuted.



(** C24, what does hold: the exception is the one the comparison raised; no value stored before
    is lost and only values of the iterable are added; and when the list was empty or the
    iterable is short (the one-by-one path) the length stays consistent.  Missing: the
    same for the bulk path, which [C24_update_failure_refuted] shows to be false. *)
Theorem C24_update_failure_partial : forall V dflt (c : core V V) l, 1 <= dflt -> wild_reach dflt c -> shows c l ->
  forall lt eq it e c', sl_step lt eq dflt (LUpdate it) c = (RExn e, c') ->
    cmp_raises lt eq e /\
    ((l = [] \/ length it * 4 < length l) ->
       exists l' vs ws, shows c' l' /\ Permutation l' (l ++ vs) /\ Permutation (vs ++ ws) it /\
         length_of c' = (Ok (length l'), c') /\ reversed c' = (Ok (rev l'), c')) /\
    (exists l' vs ws, shows c' l' /\ Permutation l' (l ++ vs) /\ Permutation (vs ++ ws) it).
Proof. exact c24_update. Qed.
Print Assumptions C24_update_failure_partial.

Example C24_case : wild_reach 2 ex_c /\
  let lt (x y : pv) := if (fst x =? 8) && (fst y =? 8) then Err TypeError else Ok (pltb x y) in
  exists c', sl_step lt (total2 peqb) 2 (LUpdate [(0, 0); (8, 7)]) ex_c = (RExn TypeError, c') /\
    shows c' ((0, 0) :: ex_l).
Proof.
  split; [exact (total_wild pv pltb peqb 2 ex_c pair_total (le_S 1 1 (le_n 1)) ex_reach)|].
  eexists. split; vm_compute; reflexivity.
Qed.

(** C55: whatever the comparisons answer or raise, as long as no update was interrupted,
    length, iteration, indexing and deletion by position stay exact and every operation changes
    the multiset of values as it should (see [loose]). *)
Theorem C55_structure_needs_no_order : forall V dflt (c : core V V), 1 <= dflt -> wild_reach dflt c ->
  exists l, shows c l /\ length_of c = (Ok (length l), c) /\ reversed c = (Ok (rev l), c) /\
    forall lt eq o, lop_ok o ->
      exists r c' l', sl_step lt eq dflt o c = (r, c') /\ shows c' l' /\
        loose eq (cmp_raises lt eq) o l r l'.
Proof. exact c55_consistent. Qed.
Print Assumptions C55_structure_needs_no_order.

Example C55_case :
  let lt (x y : nat) := Ok (negb (Nat.even (x + y))) in
  let w o := mkwild lt (total2 Nat.eqb) o in
  let c := snd (wild_run 2 [w (LUpdate [4; 1; 7; 3; 2]); w (LGet 1); w (LAdd 5); w (LAdd 6)] (sl_init 2)) in
  wild_reach 2 c /\ shows c [2; 6; 1; 7; 3; 5; 4].
Proof.
  cbv zeta. split; [|vm_compute; reflexivity].
  eexists. split; [|split; [|reflexivity]]; [repeat constructor|vm_compute; repeat constructor].
Qed.

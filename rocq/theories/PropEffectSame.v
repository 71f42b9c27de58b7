(** * C127: comparisons and key functions that answer as functions do (proofs in EffectSameProps.v) *)
From Verif Require Import PyBase Model Spec History Reach FaultSpec ModelEffect EffectSpec EffectSameSpec EffectProps EffectSameProps Concrete ConcreteCompare.

(** C127: comparisons that keep records, count, print or cache, but always answer as functions [lt] and [eq] do (or raise as these do): a SortedList
    answers a whole history, and ends in the state, as with [lt] and [eq] themselves, so all that is proved of these holds. *)
Theorem C127_list : forall (W V : Type) (srt : sorting W) (lt' eq' : V -> V -> M W bool) (lt eq : V -> V -> res bool) (dflt : nat) (ops : list (lop V)) (w : W),
  sorts_told srt -> answers2 lt' lt -> answers2 eq' eq -> 1 <= dflt -> Forall lop_ok ops ->
  Forall2 update_fine ops (fst (sl_run lt eq dflt ops (sl_init dflt))) ->
  exists w', run (e_step srt lt' eq' dflt) ops (w, sl_init dflt) =
    (fst (sl_run lt eq dflt ops (sl_init dflt)), (w', snd (sl_run lt eq dflt ops (sl_init dflt)))).
Proof. exact c127_list. Qed.
Print Assumptions C127_list.

Example C127_list_case :
  let ops := [LUpdate [2; 1]; LAdd 3; LContains 2] in
  sorts_told (@by_insertion (list (nat * nat))) /\ answers2 (written Nat.ltb) (total2 Nat.ltb) /\ answers2 (written Nat.eqb) (total2 Nat.eqb) /\
  Forall lop_ok ops /\ Forall2 update_fine ops (fst (sl_run (total2 Nat.ltb) (total2 Nat.eqb) 2 ops (sl_init 2))) /\
  fst (run (e_step by_insertion (written Nat.ltb) (written Nat.eqb) 2) ops ([], sl_init 2)) = [RUnit; RUnit; RBool true] /\
  fst (snd (run (e_step by_insertion (written Nat.ltb) (written Nat.eqb) 2) ops ([], sl_init 2))) = [(1, 2); (3, 2); (3, 2); (2, 2); (1, 2); (2, 2)].
Proof.
  split; [apply by_insertion_told|]. split; [intros x y w; reflexivity|]. split; [intros x y w; reflexivity|]. split; [repeat constructor|].
  split; [vm_compute; repeat constructor|]. vm_compute. repeat match goal with |- _ /\ _ => split end; reflexivity.
Qed.

(** C127: the same for a SortedKeyList and a key function that keeps records. *)
Theorem C127_keylist : forall (W V K : Type) (srt : sorting W) (vlt' eq' : V -> V -> M W bool) (klt' keq' : K -> K -> M W bool) (kf' : V -> M W K)
  (vlt eq : V -> V -> res bool) (klt keq : K -> K -> res bool) (kf : V -> res K) (dflt : nat) (ops : list (kop V K)) (w : W),
  sorts_told srt -> answers2 vlt' vlt -> answers2 eq' eq -> answers2 klt' klt -> answers2 keq' keq -> answers1 kf' kf -> 1 <= dflt -> Forall kop_ok ops ->
  Forall2 kupdate_fine ops (fst (skl_run vlt eq klt keq kf dflt ops (skl_init dflt))) ->
  exists w', run (ek_step srt vlt' eq' klt' keq' kf' dflt) ops (w, skl_init dflt) =
    (fst (skl_run vlt eq klt keq kf dflt ops (skl_init dflt)), (w', snd (skl_run vlt eq klt keq kf dflt ops (skl_init dflt)))).
Proof. exact c127_keylist. Qed.
Print Assumptions C127_keylist.

Example C127_keylist_case :
  let ops := [KList (LUpdate [12; 21]); KList (LAdd 3); KList (LContains 12)] in
  let step := ek_step by_insertion (counted2 Nat.ltb) (counted2 Nat.eqb) (counted2 Nat.ltb) (counted2 Nat.eqb) (counted last_digit) 2 in
  sorts_told (@by_insertion nat) /\ answers2 (counted2 Nat.ltb) (total2 Nat.ltb) /\ answers2 (counted2 Nat.eqb) (total2 Nat.eqb) /\
  answers1 (counted last_digit) (total1 last_digit) /\ Forall kop_ok ops /\
  Forall2 kupdate_fine ops (fst (skl_run (total2 Nat.ltb) (total2 Nat.eqb) (total2 Nat.ltb) (total2 Nat.eqb) (total1 last_digit) 2 ops (skl_init 2))) /\
  fst (run step ops (0, skl_init 2)) = [RUnit; RUnit; RBool true] /\ fst (snd (run step ops (0, skl_init 2))) = 13.
Proof.
  split; [apply by_insertion_told|]. split; [intros x y w; reflexivity|]. split; [intros x y w; reflexivity|]. split; [intros x w; reflexivity|].
  split; [repeat constructor|]. split; [vm_compute; repeat constructor|]. vm_compute. repeat match goal with |- _ /\ _ => split end; reflexivity.
Qed.

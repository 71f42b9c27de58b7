(** * C115 to C117: user code with effects (statements; proofs in EffectProps.v) *)
From Verif Require Import PyBase Model Spec History FaultSpec ConcreteCompare ModelEffect EffectSpec EffectProps.

(** C115, SortedList: each call of [<] and [==] is a step of a world [W], so that it may answer differently each time, raise at any
    time, and have effects outside the list.  Whatever happened before (no [update] having raised), the bookkeeping agrees with the
    values, and each operation, begun in any world, adds, removes and returns what it should up to the order of the values: [eff]. *)
Theorem C115_list : forall (W V : Type) (srt : sorting W) (lt eq : V -> V -> M W bool) (dflt : nat) (c : core V V) (o : lop V) (w : W),
  permutes srt -> 1 <= dflt -> e_reach srt lt eq dflt c -> lop_ok o ->
  framed c /\
  let p := e_step srt lt eq dflt o (w, c) in
  eff (fun x y => may_hold (eq x y)) (e_raises lt eq) o (concat (lists c)) (fst p) (concat (lists (snd (snd p)))) /\
  (update_fine o (fst p) -> framed (snd (snd p))).
Proof. exact c115_list. Qed.
Print Assumptions C115_list.

Example C115_list_case :
  let h := [(true, LUpdate [3; 2; 1]); (true, LAdd 5); (false, LAdd 4)] in
  let c := snd (snd (e_run by_insertion flip flip 2 h (true, sl_init 2))) in
  permutes (@by_insertion bool) /\ e_reach by_insertion flip flip 2 c /\
  e_step by_insertion flip flip 2 LIter (true, c) = (RList (concat (lists c)), (true, c)) /\ length (concat (lists c)) = 5 /\
  concat (lists c) <> [1; 2; 3; 4; 5] /\ 2 <= length (lists c).
Proof.
  cbv zeta. split; [apply by_insertion_permutes|]. split.
  { exists true, [(true, LUpdate [3; 2; 1]); (true, LAdd 5); (false, LAdd 4)]. split; [repeat constructor|]. split; [vm_compute; repeat constructor|reflexivity]. }
  split; [vm_compute; reflexivity|]. split; [vm_compute; reflexivity|]. split; [vm_compute; discriminate|vm_compute; repeat constructor].
Qed.
Example C115_list_case_raise :
  let h := [(0, LUpdate [3; 1; 2])] in
  let c := snd (snd (e_run by_insertion sometimes (calm2 Nat.eqb) 2 h (0, sl_init 2))) in
  e_reach by_insertion sometimes (calm2 Nat.eqb) 2 c /\ concat (lists c) = [1; 2; 3] /\
  e_step by_insertion sometimes (calm2 Nat.eqb) 2 (LRemove 2) (6, c) = (RExn TypeError, (7, c)) /\
  fst (e_step by_insertion sometimes (calm2 Nat.eqb) 2 (LRemove 2) (0, c)) = RUnit.
Proof.
  cbv zeta. split.
  { exists 0, [(0, LUpdate [3; 1; 2])]. split; [repeat constructor|]. split; [vm_compute; repeat constructor|reflexivity]. }
  vm_compute. repeat match goal with |- _ /\ _ => split end; reflexivity.
Qed.

(** C115, SortedKeyList: likewise for the key function, [<] and [==] of keys, and [==] of values. *)
Theorem C115_keylist : forall (W V K : Type) (srt : sorting W) (vlt eq : V -> V -> M W bool) (klt keq : K -> K -> M W bool) (kf : V -> M W K)
  (dflt : nat) (s : skl V K) (o : kop V K) (w : W),
  permutes srt -> 1 <= dflt -> ek_reach srt vlt eq klt keq kf dflt s -> kop_ok o ->
  framed (kc s) /\
  let p := ek_step srt vlt eq klt keq kf dflt o (w, s) in
  keff (fun x y => may_hold (eq x y)) (ek_raises vlt eq klt keq kf) o (concat (lists (kc s))) (fst p) (concat (lists (kc (snd (snd p))))) /\
  (refill_fine o (fst p) -> framed (kc (snd (snd p)))).
Proof. exact c115_keylist. Qed.
Print Assumptions C115_keylist.

Example C115_keylist_case :
  let kf := fun v => (fun b => (Ok (if b : bool then v else 0), negb b)) : M bool nat in
  let h := [(true, KList (LUpdate [3; 1; 2])); (false, KList (LAdd 5)); (true, KList (LAdd 4))] in
  let s := snd (snd (ek_run by_insertion (calm2 Nat.ltb) flip flip flip kf 2 h (true, skl_init 2))) in
  permutes (@by_insertion bool) /\ ek_reach by_insertion (calm2 Nat.ltb) flip flip flip kf 2 s /\
  fst (ek_step by_insertion (calm2 Nat.ltb) flip flip flip kf 2 (KList LIter) (true, s)) = RList (concat (lists (kc s))) /\
  length (concat (lists (kc s))) = 5 /\ concat (lists (kc s)) <> [1; 2; 3; 4; 5] /\ 2 <= length (lists (kc s)).
Proof.
  cbv zeta. split; [apply by_insertion_permutes|]. split.
  { exists true, [(true, KList (LUpdate [3; 1; 2])); (false, KList (LAdd 5)); (true, KList (LAdd 4))]. split; [repeat constructor|].
    split; [vm_compute; repeat constructor|reflexivity]. }
  split; [vm_compute; reflexivity|]. split; [vm_compute; reflexivity|]. split; [vm_compute; discriminate|vm_compute; repeat constructor].
Qed.

(** C115: where [<] and [==] are functions of their arguments, which may raise, SortedList with effects (ModelEffect.v) is SortedList of
    Model.v, that all other properties are about. *)
Theorem C115_effect_free : forall (W V : Type) (srt : sorting W) (lt eq : V -> V -> res bool) (dflt : nat) (ops : list (lop V)) (w : W),
  sorts_as srt -> 1 <= dflt -> Forall lop_ok ops -> Forall2 update_fine ops (fst (sl_run lt eq dflt ops (sl_init dflt))) ->
  run (e_step srt (fun x y => liftr (lt x y)) (fun x y => liftr (eq x y)) dflt) ops (w, sl_init dflt) =
  (fst (sl_run lt eq dflt ops (sl_init dflt)), (w, snd (sl_run lt eq dflt ops (sl_init dflt)))).
Proof. exact c115_effect_free. Qed.
Print Assumptions C115_effect_free.

Example C115_effect_free_case :
  let ops := [LUpdate [3; 1; 2; 5; 4]; LRemove 2; LContains 4; LDel 0%Z; LIMul 2%Z; LIter] in
  sorts_as (@by_insertion nat) /\ Forall lop_ok ops /\
  fst (sl_run (total2 Nat.ltb) (total2 Nat.eqb) 2 ops (sl_init 2)) = [RUnit; RUnit; RBool true; RUnit; RUnit; RList [3; 3; 4; 4; 5; 5]] /\
  Forall2 update_fine ops (fst (sl_run (total2 Nat.ltb) (total2 Nat.eqb) 2 ops (sl_init 2))).
Proof.
  cbv zeta. split; [apply by_insertion_sorts|]. split; [repeat constructor|]. split; [vm_compute; reflexivity|]. vm_compute. repeat constructor.
Qed.

(** C115: likewise for SortedKeyList. *)
Theorem C115_effect_free_keylist : forall (W V K : Type) (srt : sorting W) (vlt eq : V -> V -> res bool) (klt keq : K -> K -> res bool) (kf : V -> res K)
  (dflt : nat) (ops : list (kop V K)) (w : W),
  sorts_as srt -> 1 <= dflt -> Forall kop_ok ops -> Forall2 kupdate_fine ops (fst (skl_run vlt eq klt keq kf dflt ops (skl_init dflt))) ->
  run (ek_step srt (fun x y => liftr (vlt x y)) (fun x y => liftr (eq x y)) (fun x y => liftr (klt x y)) (fun x y => liftr (keq x y))
         (fun v => liftr (kf v)) dflt) ops (w, skl_init dflt) =
  (fst (skl_run vlt eq klt keq kf dflt ops (skl_init dflt)), (w, snd (skl_run vlt eq klt keq kf dflt ops (skl_init dflt)))).
Proof. exact c115_effect_free_keylist. Qed.
Print Assumptions C115_effect_free_keylist.

Example C115_effect_free_keylist_case :
  let ops := [KList (LUpdate [13; 21; 32; 5; 4]); KList (LRemove 32); KList (LContains 4); KBisectLeft 4; KList (LIMul 2%Z); KList LIter] in
  let run := skl_run (total2 Nat.ltb) (total2 Nat.eqb) (total2 Nat.ltb) (total2 Nat.eqb) (total1 last_digit) 2 ops (skl_init 2) in
  sorts_as (@by_insertion nat) /\ Forall kop_ok ops /\
  fst run = [RUnit; RUnit; RBool true; RNat 2; RUnit; RList [21; 21; 13; 13; 4; 4; 5; 5]] /\ Forall2 kupdate_fine ops (fst run).
Proof.
  cbv zeta. split; [apply by_insertion_sorts|]. split; [repeat constructor|]. split; [vm_compute; reflexivity|]. vm_compute. repeat constructor.
Qed.

(** C116 is false: [update] of an empty SortedKeyList calls the key function again for each value after it has filled the lists
    (sortedlist.py:1791-1796).  If it raises then (here at its fourth call, [fourth]), the values are in the list, but it has length 0
    and no maxes; a value added afterwards is not found. *)
Theorem C116_keylist_refuted : exists s s2 : nat * skl nat nat,
  let step := ek_step by_insertion (calm2 Nat.ltb) (calm2 Nat.eqb) (calm2 Nat.ltb) (calm2 Nat.eqb) fourth 1000 in
  step (KList (LUpdate [1; 2])) (0, skl_init 1000) = (RExn TypeError, s) /\
  fst (step (KList LIter) s) = RList [1; 2] /\ fst (step (KList LLen) s) = RNat 0 /\ ~ framed (kc (snd s)) /\
  step (KList (LAdd 5)) s = (RUnit, s2) /\ fst (step (KList LIter) s2) = RList [1; 2; 5] /\ fst (step (KList LLen) s2) = RNat 1 /\
  fst (step (KList (LContains 5)) s2) = RBool false.
Proof. exact c116_refuted. Qed.
Print Assumptions C116_keylist_refuted.

Example C116_keylist_refuted_case : fourth 7 2 = (Ok 7, 3) /\ fourth 7 3 = (Err TypeError, 4).
Proof. split; reflexivity. Qed.

(** C117 is false: with a [<] that answers no at its first call and yes ever after ([once_no]) the membership test raises IndexError
    ([_lists[pos][idx]] with [idx] the length of that list, sortedlist.py:320-328), and [count] is negative ([Underflow] in the model:
    [idx_right - idx_left], sortedlist.py:1183). *)
Theorem C117_list_refuted : exists c : core nat nat,
  e_reach by_insertion once_no (calm2 Nat.eqb) 1000 c /\ concat (lists c) = [1] /\
  fst (e_step by_insertion once_no (calm2 Nat.eqb) 1000 (LContains 1) (0, c)) = RExn IndexError /\
  fst (e_step by_insertion once_no (calm2 Nat.eqb) 1000 (LCount 1) (0, c)) = RExn Underflow.
Proof. exact c117_refuted. Qed.
Print Assumptions C117_list_refuted.

Example C117_list_refuted_case : once_no 5 6 0 = (Ok false, 1) /\ once_no 5 6 1 = (Ok true, 2).
Proof. split; reflexivity. Qed.

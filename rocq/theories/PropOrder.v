(** * Property theorems: which operations compare values (C106) *)
From Coq Require Import Lia.
From Verif Require Import PyBase Model Spec History Reach Concrete ListClass ClassSpec ModelSet SetSpec ModelDict DictSpec ConcreteSet ConcreteCompare OrderSpec OrderProps.

(** C106: [list_compares] says exactly when an operation of a SortedList compares values: when it says no, the operation does the same
    whatever [<] and [==] answer, so also when they raise; when it says yes and every comparison raises [e], the operation raises [e]. *)
Theorem C106_list : forall V (ltb eqb : V -> V -> bool) lt eq dflt e c l o,
  TotalOrder ltb eqb -> 1 <= dflt -> sl_reach ltb eqb dflt c -> shows c l ->
  (list_compares o l = false -> sl_step lt eq dflt o c = sl_do ltb eqb dflt o c) /\
  (list_compares o l = true -> (forall x y, lt x y = Err e) -> (forall x y, eq x y = Err e) -> fst (sl_step lt eq dflt o c) = RExn e).
Proof. exact c106_list. Qed.
Print Assumptions C106_list.

Example C106_list_case :
  TotalOrder Nat.ltb Nat.eqb /\ 1 <= 2 /\ sl_reach Nat.ltb Nat.eqb 2 (nlist [3; 1; 2]) /\ shows (nlist [3; 1; 2]) [1; 2; 3] /\
  let bad (x y : nat) : res bool := Err TypeError in
  let step o := fst (sl_step bad bad 2 o (nlist [3; 1; 2])) in
  list_compares (LPop (-1)) [1; 2; 3] = false /\ step (LPop (-1)) = RVal 3 /\
  list_compares (LDelSlice (mkslice (Some 1%Z) None None)) [1; 2; 3] = false /\ step (LDelSlice (mkslice (Some 1%Z) None None)) = RUnit /\
  list_compares (LDelSlice (mkslice (Some 2%Z) None None)) [1; 2; 3] = true /\ step (LDelSlice (mkslice (Some 2%Z) None None)) = RExn TypeError /\
  list_compares (LAdd 7) [1; 2; 3] = true /\ step (LAdd 7) = RExn TypeError /\
  list_compares (LCompare Ceq [1; 2]) [1; 2; 3] = false /\ step (LCompare Ceq [1; 2]) = RBool false.
Proof.
  split; [apply nat_total|]. split; [lia|]. split; [apply nlist_reach|]. vm_compute. repeat match goal with |- _ /\ _ => split end; reflexivity.
Qed.

(** C106: the same for a SortedKeyList and [keylist_compares]: comparisons are those of keys, and of values with [==]. *)
Theorem C106_keylist : forall V K (key : V -> K) (kltb keqb : K -> K -> bool) (vltb eqb : V -> V -> bool) vlt eq klt keq dflt e s l o,
  TotalOrder kltb keqb -> EqCompat (by_key key kltb) eqb -> 1 <= dflt -> skl_reach key kltb keqb vltb eqb dflt s -> kshows s l ->
  (keylist_compares o l = false -> skl_step vlt eq klt keq (total1 key) dflt o s = skl_do key kltb keqb vltb eqb dflt o s) /\
  (keylist_compares o l = true -> (forall x y, klt x y = Err e) -> (forall x y, eq x y = Err e) ->
     fst (skl_step vlt eq klt keq (total1 key) dflt o s) = RExn e).
Proof. exact c106_keylist. Qed.
Print Assumptions C106_keylist.

Example C106_keylist_case :
  TotalOrder Nat.ltb Nat.eqb /\ EqCompat (by_key last_digit Nat.ltb) Nat.eqb /\ 1 <= 2 /\
  skl_reach last_digit Nat.ltb Nat.eqb Nat.ltb Nat.eqb 2 (nkey [13; 21]) /\ kshows (nkey [13; 21]) [21; 13] /\
  let bad (x y : nat) : res bool := Err TypeError in
  let step o := fst (skl_step bad bad bad bad (total1 last_digit) 2 o (nkey [13; 21])) in
  keylist_compares (KList (LGet 0) : kop nat nat) [21; 13] = false /\ step (KList (LGet 0)) = RVal 21 /\
  keylist_compares (KIRange None None true true true : kop nat nat) [21; 13] = false /\ step (KIRange None None true true true) = RList [13; 21] /\
  keylist_compares (KBisectLeft 2) [21; 13] = true /\ step (KBisectLeft 2) = RExn TypeError.
Proof.
  split; [apply nat_total|]. split; [apply last_digit_compat|]. split; [lia|]. split; [apply nkey_reach|]. vm_compute. repeat match goal with |- _ /\ _ => split end; reflexivity.
Qed.

(** C106: the same for a SortedSet and [set_compares], beside the comparisons that the hash set makes: adding a member or discarding
    another value compares nothing, and [update] compares nothing when it has nothing to add and is small. *)
Theorem C106_set : forall V K kd S (T0 T : listcls S V K) eqb ord s l o,
  any_order ord -> ss_reach T0 eqb ord s -> ss_shows T0 s l ->
  (changed kd T0 T eqb -> set_compares kd eqb o (s_set s) l = false -> ss_step T eqb ord o s = ss_step T0 eqb ord o s) /\
  (forall e, raising e kd T0 T eqb -> set_compares kd eqb o (s_set s) l = true -> fst (ss_step T eqb ord o s) = RExn e).
Proof. exact c106_set. Qed.
Print Assumptions C106_set.

Example C106_set_case :
  let bad (x y : nat) : res bool := Err TypeError in
  let T := plain bad bad 2 in
  let step o := fst (ss_step T Nat.eqb back o (nset [3; 1; 2; 5])) in
  any_order back /\ ss_reach nT Nat.eqb back (nset [3; 1; 2; 5]) /\ ss_shows nT (nset [3; 1; 2; 5]) [1; 2; 3; 5] /\
  changed false nT T Nat.eqb /\ raising TypeError false nT T Nat.eqb /\
  set_compares (K:=nat) false Nat.eqb (SAdd 3) (s_set (nset [3; 1; 2; 5])) [1; 2; 3; 5] = false /\ step (SAdd 3) = RUnit /\
  set_compares (K:=nat) false Nat.eqb (SUpdate [AIter [3]]) (s_set (nset [3; 1; 2; 5])) [1; 2; 3; 5] = false /\ step (SUpdate [AIter [3]]) = RUnit /\
  set_compares (K:=nat) false Nat.eqb (SUpdate [AIter [3; 2]]) (s_set (nset [3; 1; 2; 5])) [1; 2; 3; 5] = true /\ step (SUpdate [AIter [3; 2]]) = RExn TypeError /\
  set_compares (K:=nat) false Nat.eqb (SDiscard 3) (s_set (nset [3; 1; 2; 5])) [1; 2; 3; 5] = true /\ step (SDiscard 3) = RExn TypeError.
Proof.
  cbv zeta. split; [apply back_order|]. split; [apply nset_reach|]. split; [reflexivity|].
  split; [apply changed_plain; [apply nat_total|lia]|]. split; [apply raising_plain; [apply nat_total|lia|reflexivity|reflexivity]|].
  vm_compute. repeat match goal with |- _ /\ _ => split end; reflexivity.
Qed.

(** C106: the same for a SortedDict and [dict_compares]: storing a value for a key that is there compares nothing but in the dict. *)
Theorem C106_dict : forall A B K kd S (T0 T : listcls S A K) eqb (veqb : B -> B -> bool) s l o,
  sd_reach T0 eqb veqb s -> sd_shows T0 eqb s l -> real_dicts eqb o ->
  (changed kd T0 T eqb -> dict_compares kd eqb o (d_items s) l = false -> sd_step T eqb veqb o s = sd_step T0 eqb veqb o s) /\
  (forall e, raising e kd T0 T eqb -> dict_compares kd eqb o (d_items s) l = true ->
     fst (sd_step T eqb veqb o s) = match o with DFwd _ => OFwd (RExn e) | _ => OExn e end).
Proof. exact c106_dict. Qed.
Print Assumptions C106_dict.

Example C106_dict_case :
  let bad (x y : nat) : res bool := Err TypeError in
  let T := plain bad bad 2 in
  let s := ndict [(3, 30); (1, 10)] in
  let step o := fst (sd_step T Nat.eqb Nat.eqb o s) in
  sd_reach nT Nat.eqb Nat.eqb s /\ sd_shows nT Nat.eqb s [(1, 10); (3, 30)] /\ changed false nT T Nat.eqb /\ raising TypeError false nT T Nat.eqb /\
  dict_compares (K:=nat) false Nat.eqb (DSet 3 31) (d_items s) [(1, 10); (3, 30)] = false /\ step (DSet 3 31) = ONone /\
  dict_compares (K:=nat) false Nat.eqb (DSet 4 31) (d_items s) [(1, 10); (3, 30)] = true /\ step (DSet 4 31) = OExn TypeError /\
  dict_compares (K:=nat) false Nat.eqb (DUpdate (ADict [(3, 31)])) (d_items s) [(1, 10); (3, 30)] = true /\ step (DUpdate (ADict [(3, 31)])) = OExn TypeError /\
  dict_compares (K:=nat) false Nat.eqb (DPop 4 (Some 0)) (d_items s) [(1, 10); (3, 30)] = false /\ step (DPop 4 (Some 0)) = OVal 0.
Proof.
  cbv zeta. split; [apply ndict_reach|]. split; [reflexivity|].
  split; [apply changed_plain; [apply nat_total|lia]|]. split; [apply raising_plain; [apply nat_total|lia|reflexivity|reflexivity]|].
  vm_compute. repeat match goal with |- _ /\ _ => split end; reflexivity.
Qed.

(** * Property theorems: key functions against values that compare by key (C76) *)
From Verif Require Import PyBase Model Spec History Reach Concrete ListClass ClassSpec ModelSet ConcreteSet ModelDict DictSpec SameSpec SameProps.

(** C76: a SortedKeyList whose key function is [key] and a SortedList of values that compare by their keys answer
    every history of shared operations alike and hold the same values.  With the identity for [key]: a SortedKeyList with the identity
    as key is a SortedList. *)
Theorem C76_list : forall V K (key : V -> K) (kltb keqb : K -> K -> bool) (eqb : V -> V -> bool) dflt ops,
  TotalOrder kltb keqb -> (forall x y, eqb x y = keqb (key x) (key y)) -> 1 <= dflt -> Forall lop_ok ops ->
  let lt := total2 (fun x y => kltb (key x) (key y)) in
  exists rs c s l,
    sl_run lt (total2 eqb) dflt ops (sl_init dflt) = (rs, c) /\
    skl_run lt (total2 eqb) (total2 kltb) (total2 keqb) (total1 key) dflt (map KList ops) (skl_init dflt) = (rs, s) /\
    shows c l /\ kshows s l.
Proof. exact c76_list. Qed.
Print Assumptions C76_list.

Example C76_list_case : (TotalOrder Nat.ltb Nat.eqb /\ (forall x y : nat * nat, peqb x y = Nat.eqb (fst x) (fst y)) /\ 1 <= 2 /\
   Forall lop_ok [LUpdate [(5, 1); (2, 2); (5, 0)]; LAdd (3, 3); LPop 0; LSlice (mkslice None None (Some (-1)%Z))]) /\
  fst (skl_run (total2 pltb) (total2 peqb) (total2 Nat.ltb) (total2 Nat.eqb) (total1 fst) 2
    (map KList [LUpdate [(5, 1); (2, 2); (5, 0)]; LAdd (3, 3); LPop 0; LSlice (mkslice None None (Some (-1)%Z))]) (skl_init 2)) =
  [RUnit; RUnit; RVal (2, 2); RList [(5, 0); (5, 1); (3, 3)]].
Proof.
  split; [split; [apply nat_total|split; [reflexivity|split; [repeat constructor|repeat constructor; cbn; try discriminate; auto]]]|].
  vm_compute. reflexivity.
Qed.

(** C76 for SortedDict: with a key function, or without one and keys that compare that way, the dict answers every
    history that does not use the methods special to key functions alike, and holds the same items. *)
Theorem C76_dict : forall A B K (key : A -> K) (kltb keqb : K -> K -> bool) (eqb : A -> A -> bool) (veqb : B -> B -> bool) dflt a ops,
  TotalOrder kltb keqb -> (forall x y, eqb x y = keqb (key x) (key y)) -> 1 <= dflt ->
  Forall (dop_ok eqb) ops -> Forall keyless_op ops ->
  let T1 := plain (K:=K) (total2 (fun x y => kltb (key x) (key y))) (total2 eqb) dflt in
  let T2 := keyed (total2 eqb) (total2 kltb) (total2 keqb) (total1 key) dflt in
  exists s1 s2 rs s1' s2' l, sd_new T1 eqb a = Ok s1 /\ sd_new T2 eqb a = Ok s2 /\
    sd_run T1 eqb veqb ops s1 = (rs, s1') /\ sd_run T2 eqb veqb ops s2 = (rs, s2') /\
    sd_shows T1 eqb s1' l /\ sd_shows T2 eqb s2' l.
Proof. exact c76_dict. Qed.
Print Assumptions C76_dict.

Example C76_dict_case : (TotalOrder Nat.ltb Nat.eqb /\ (forall x y : nat * nat, peqb x y = Nat.eqb (fst x) (fst y)) /\ 1 <= 2 /\
   Forall (dop_ok (K:=nat) peqb) [DSet (5, 1) 7; DSet (2, 0) 8; DSet (5, 2) 9; DItems] /\
   Forall (keyless_op (K:=nat)) [DSet (5, 1) 7; DSet (2, 0) 8; DSet (5, 2) 9; DItems]) /\
  match sd_new (B:=nat) (keyed (total2 peqb) (total2 Nat.ltb) (total2 Nat.eqb) (total1 (@fst nat nat)) 2) peqb (APairs []) with
  | Ok s => fst (sd_run (keyed (total2 peqb) (total2 Nat.ltb) (total2 Nat.eqb) (total1 (@fst nat nat)) 2) peqb Nat.eqb [DSet (5, 1) 7; DSet (2, 0) 8; DSet (5, 2) 9; DItems] s) =
            [ONone; ONone; ONone; OItems [((2, 0), 8); ((5, 1), 9)]]
  | Err _ => False
  end.
Proof.
  split; [split; [apply nat_total|split; [reflexivity|split; [repeat constructor|split; repeat constructor]]]|].
  vm_compute. reflexivity.
Qed.

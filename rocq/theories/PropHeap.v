(** * Property theorems: SortedLists share no list objects (C77) *)
From Verif Require Import PyBase Model Spec History Reach Concrete ModelHeap HeapSpec HeapProps.

(** C77: a program that holds several SortedLists and several lists, hands them to each other as arguments, mutates its
    lists (those passed to the constructor and those that slicing returned among them), and calls everything in any order, sees what it
    would see were every SortedList an independent value, and no list object is used in two places.  For every [<] and [==], also those
    that raise or contradict themselves. *)
Theorem C77_values : forall (V : Type) (lt eq : V -> V -> res bool) (dflt : nat) (ops : list (wop V)) outs (w : world V) outs' objs users,
  Forall (fun o => match o with WOp _ o => simple_op o | _ => True end) ops ->
  w_run lt eq dflt ops w_init = (outs, w) -> value_world lt eq dflt ops ([], []) = (outs', (objs, users)) ->
  outs = outs' /\ map (fun o => view (w_heap w, o)) (w_objs w) = objs /\ map (cell (w_heap w)) (w_user w) = users /\
  NoDup (flat_map (@rows V) (w_objs w) ++ w_user w).
Proof. exact c77_values. Qed.
Print Assumptions C77_values.

Example C77_values_case : Forall (fun o => match o with WOp _ o => simple_op o | _ => True end)
    [WList [3; 1; 2; 5; 4]; WNew (WUser 0); WMutate 0 [9]; WSlice 0 (mkslice None None None); WMutate 1 []; WUpdate 0 (WObj 0);
     WCopy 0; WOp 1 LClear; WOp 0 (LPop (-1)); WLook 0; WSlice 0 (mkslice (Some (-3)%Z) None None); WPlus 0 (WObj 0); WIAdd 1 (WUser 2);
     WOp 0 LIter; WOp 1 LIter; WOp 2 (LIndex 5 None None)] /\
  fst (w_run (total2 Nat.ltb) (total2 Nat.eqb) 2 [WList [3; 1; 2; 5; 4]; WNew (WUser 0); WMutate 0 [9]; WSlice 0 (mkslice None None None); WMutate 1 []; WUpdate 0 (WObj 0);
     WCopy 0; WOp 1 LClear; WOp 0 (LPop (-1)); WLook 0; WSlice 0 (mkslice (Some (-3)%Z) None None); WPlus 0 (WObj 0); WIAdd 1 (WUser 2);
     WOp 0 LIter; WOp 1 LIter; WOp 2 (LIndex 5 None None)] w_init) =
    [RUnit; RUnit; RUnit; RList [1; 2; 3; 4; 5]; RUnit; RUnit; RUnit; RUnit; RVal 5; RList [9]; RList [4; 4; 5]; RUnit; RUnit;
     RList [1; 1; 2; 2; 3; 3; 4; 4; 5]; RList [4; 4; 5]; RNat 16] /\
  map (@rows nat) (w_objs (snd (w_run (total2 Nat.ltb) (total2 Nat.eqb) 2 [WList [3; 1; 2; 5; 4]; WNew (WUser 0); WMutate 0 [9]; WSlice 0 (mkslice None None None); WMutate 1 []; WUpdate 0 (WObj 0);
     WCopy 0; WOp 1 LClear; WOp 0 (LPop (-1)); WLook 0; WSlice 0 (mkslice (Some (-3)%Z) None None); WPlus 0 (WObj 0); WIAdd 1 (WUser 2);
     WOp 0 LIter; WOp 1 LIter; WOp 2 (LIndex 5 None None)] w_init))) =
    [[8; 9; 10; 11]; [32; 33]; [22; 23; 24; 25; 26; 27; 28; 29; 30]].
Proof. split; [repeat constructor|]. vm_compute. repeat match goal with |- _ /\ _ => split end; reflexivity. Qed.

(** C77 for a total order: every SortedList of such a program is at all times the sorted list of the values put into it. *)
Theorem C77_lists : forall (V : Type) (ltb eqb : V -> V -> bool) (dflt : nat) (ops : list (wop V)) outs w outs' objs users,
  TotalOrder ltb eqb -> 1 <= dflt -> Forall wop_ok ops ->
  w_run (total2 ltb) (total2 eqb) dflt ops w_init = (outs, w) -> list_world ltb eqb ops ([], []) = (outs', (objs, users)) ->
  outs = outs' /\ map (fun o => contents (view (w_heap w, o))) (w_objs w) = objs /\ map (cell (w_heap w)) (w_user w) = users.
Proof. exact c77_lists. Qed.
Print Assumptions C77_lists.

Example C77_lists_case : (TotalOrder Nat.ltb Nat.eqb /\ 1 <= 2 /\ Forall wop_ok
    [WList [3; 1; 2; 5; 4]; WNew (WUser 0); WMutate 0 [9]; WSlice 0 (mkslice None None None); WMutate 1 []; WUpdate 0 (WObj 0);
     WCopy 0; WOp 1 LClear; WOp 0 (LPop (-1)); WLook 0; WSlice 0 (mkslice (Some (-3)%Z) None None); WPlus 0 (WObj 0); WIAdd 1 (WUser 2);
     WOp 0 LIter; WOp 1 LIter; WOp 2 (LIndex 5 None None)]) /\
  snd (list_world Nat.ltb Nat.eqb [WList [3; 1; 2; 5; 4]; WNew (WUser 0); WMutate 0 [9]; WSlice 0 (mkslice None None None); WMutate 1 []; WUpdate 0 (WObj 0);
     WCopy 0; WOp 1 LClear; WOp 0 (LPop (-1)); WLook 0; WSlice 0 (mkslice (Some (-3)%Z) None None); WPlus 0 (WObj 0); WIAdd 1 (WUser 2);
     WOp 0 LIter; WOp 1 LIter; WOp 2 (LIndex 5 None None)] ([], [])) =
    ([[1; 1; 2; 2; 3; 3; 4; 4; 5]; [4; 4; 5]; [1; 1; 1; 1; 2; 2; 2; 2; 3; 3; 3; 3; 4; 4; 4; 4; 5; 5]], [[9]; []; [4; 4; 5]]).
Proof.
  split; [split; [apply nat_total|split; [repeat constructor|repeat constructor]]|].
  vm_compute. reflexivity.
Qed.

(** * The examples in the docstrings, run in the model

    Every example of the docstrings of sortedlist.py, sortedset.py and sorteddict.py that has an output and does not only show the
    class or the text of an object.  A letter is its position in the alphabet.  An object that is shown is iterated over.  Hash sets
    are iterated in the reverse of the order in which the members came in. *)
From Verif Require Import PyBase Model Spec History ListClass ModelSet ModelDict.
Local Unset Implicit Arguments.

Definition a := 1. Definition b := 2. Definition c := 3. Definition d := 4. Definition e := 5. Definition f := 6.
Definition g := 7. Definition h := 8. Definition i := 9. Definition j := 10. Definition t := 20. Definition y := 25. Definition z := 26.

(** ** SortedList *)
Definition SL (ops : list (lop nat)) : list (out nat) := fst (sl_run (total2 Nat.ltb) (total2 Nat.eqb) 1000 ops (sl_init 1000)).
Definition shown (l : list nat) : out nat := RList l.
Definition sl_of (l : list nat) (ops : list (lop nat)) : list (out nat) := tl (SL (LUpdate l :: ops)).
Definition upto n : slice := mkslice None (Some n) None.
Definition between m n : slice := mkslice (Some m) (Some n) None.

Example sl_init_97 : SL [LIter] = [shown []] /\ sl_of [3; 1; 2; 5; 4] [LIter] = [shown [1; 2; 3; 4; 5]].
Proof. vm_compute. split; reflexivity. Qed.
Example sl_add_198 : SL [LAdd 3; LAdd 1; LAdd 2; LIter] = [RUnit; RUnit; RUnit; shown [1; 2; 3]].
Proof. vm_compute. reflexivity. Qed.
Example sl_update_266 : SL [LUpdate [3; 1; 2]; LIter] = [RUnit; shown [1; 2; 3]].
Proof. vm_compute. reflexivity. Qed.
Example sl_contains_307 : sl_of [1; 2; 3; 4; 5] [LContains 3] = [RBool true].
Proof. vm_compute. reflexivity. Qed.
Example sl_discard_337 : sl_of [1; 2; 3; 4; 5] [LDiscard 5; LDiscard 0; LCompare Ceq [1; 2; 3; 4]] = [RUnit; RUnit; RBool true].
Proof. vm_compute. reflexivity. Qed.
Example sl_remove_369 : sl_of [1; 2; 3; 4; 5] [LRemove 5; LCompare Ceq [1; 2; 3; 4]; LRemove 0] = [RUnit; RBool true; RExn ValueError].
Proof. vm_compute. reflexivity. Qed.
Example sl_delitem_703 : sl_of [a; b; c; d; e] [LDel 2; LIter; LDelSlice (upto 2); LIter] = [RUnit; shown [a; b; d; e]; RUnit; shown [d; e]].
Proof. vm_compute. reflexivity. Qed.
Example sl_getitem_754 : sl_of [a; b; c; d; e] [LGet 1; LGet (-1); LSlice (between 2 5)] = [RVal b; RVal e; RList [c; d; e]].
Proof. vm_compute. reflexivity. Qed.
Example sl_islice_898 : sl_of [a; b; c; d; e; f; g; h; i; j] [LISlice (Some 2%Z) (Some 6%Z) false] = [RList [c; d; e; f]].
Proof. vm_compute. reflexivity. Qed.
Example sl_irange_1008 : sl_of [a; b; c; d; e; f; g; h; i; j] [LIRange (Some c) (Some f) true true false] = [RList [c; d; e; f]].
Proof. vm_compute. reflexivity. Qed.
Example sl_bisect_1095 : sl_of [10; 11; 12; 13; 14] [LBisectLeft 12; LBisectRight 12] = [RNat 2; RNat 3].
Proof. vm_compute. reflexivity. Qed.
Example sl_count_1155 : sl_of [1; 2; 2; 3; 3; 3; 4; 4; 4; 4] [LCount 3] = [RNat 3].
Proof. vm_compute. reflexivity. Qed.
Example sl_pop_1241 : sl_of [a; b; c; d; e] [LPop (-1); LPop 2; LIter] = [RVal e; RVal c; shown [a; b; d]].
Proof. vm_compute. reflexivity. Qed.
Example sl_index_1303 : sl_of [a; b; c; d; e] [LIndex d None None; LIndex z None None] = [RNat 3; RExn ValueError].
Proof. vm_compute. reflexivity. Qed.
Example sl_plus_1375 : sl_of [b; a; t] [LPlus [a; c; t]; LIter] = [RUnit; shown [a; a; b; c; t; t]].
Proof. vm_compute. reflexivity. Qed.
Example sl_iadd_1399 : sl_of [b; a; t] [LIAdd [c; a; t]; LIter] = [RUnit; shown [a; a; b; c; t; t]].
Proof. vm_compute. reflexivity. Qed.
Example sl_mul_1418 : sl_of [a; b; c] [LMul 3; LIter] = [RUnit; shown [a; a; a; b; b; b; c; c; c]].
Proof. vm_compute. reflexivity. Qed.
Example sl_imul_1438 : sl_of [a; b; c] [LIMul 3; LIter] = [RUnit; shown [a; a; a; b; b; b; c; c; c]].
Proof. vm_compute. reflexivity. Qed.

(** The index of the docstring of [_build_index] (626-661), the position of [_pos] (533-590) and the index of [_loc] (454-503). *)
Definition indexed : core nat nat :=
  mkcore [[1; 2; 3]; [4; 5]; [6; 7; 8; 9]; [10; 11; 12; 13; 14]] [3; 5; 9; 14] [] 0 14 1000.
Example build_index_626 : index (snd (build_index indexed)) = [14; 5; 9; 3; 2; 4; 5] /\ offset (snd (build_index indexed)) = 3.
Proof. vm_compute. split; reflexivity. Qed.
Example pos_533 : fst (pos_of 8 indexed) = Ok (2, 3).
Proof. vm_compute. reflexivity. Qed.
Example loc_454 : fst (loc 2 3 indexed) = Ok 8.
Proof. vm_compute. reflexivity. Qed.

(** ** SortedKeyList, by [operator.neg] *)
Open Scope Z_scope.
Notation zt := (total2 Z.ltb).
Notation ze := (total2 Z.eqb).
Definition skl_of (l : list Z) (ops : list (kop Z Z)) : list (out Z) :=
  tl (fst (skl_run zt ze zt ze (total1 Z.opp) 1000 (KList (LUpdate l) :: ops) (skl_init 1000))).

Example skl_init_1632 : skl_of [] [KList LIter] = [RList []] /\ skl_of [3; 1; 2] [KList LIter] = [RList [3; 2; 1]].
Proof. vm_compute. split; reflexivity. Qed.
Example skl_add_1683 : skl_of [] [KList (LAdd 3); KList (LAdd 1); KList (LAdd 2); KList LIter] = [RUnit; RUnit; RUnit; RList [3; 2; 1]].
Proof. vm_compute. reflexivity. Qed.
Example skl_update_1764 : skl_of [] [KList (LUpdate [3; 1; 2]); KList LIter] = [RUnit; RList [3; 2; 1]].
Proof. vm_compute. reflexivity. Qed.
Example skl_contains_1808 : skl_of [1; 2; 3; 4; 5] [KList (LContains 3)] = [RBool true].
Proof. vm_compute. reflexivity. Qed.
Example skl_discard_1856 : skl_of [5; 4; 3; 2; 1] [KList (LDiscard 1); KList (LDiscard 0); KList (LCompare Ceq [5; 4; 3; 2])] = [RUnit; RUnit; RBool true].
Proof. vm_compute. reflexivity. Qed.
Example skl_remove_1904 : skl_of [1; 2; 3; 4; 5] [KList (LRemove 5); KList (LCompare Ceq [4; 3; 2; 1]); KList (LRemove 0)] = [RUnit; RBool true; RExn ValueError].
Proof. vm_compute. reflexivity. Qed.
(** In tenths, for 14.5 and 11.5. *)
Example skl_irange_2022 : skl_of [110; 120; 130; 140; 150] [KList (LIRange (Some 145) (Some 115) true true false)] = [RList [140; 130; 120]].
Proof. vm_compute. reflexivity. Qed.
Example skl_irange_key_2060 : skl_of [11; 12; 13; 14; 15] [KIRange (Some (-14)) (Some (-12)) true true false] = [RList [14; 13; 12]].
Proof. vm_compute. reflexivity. Qed.
Example skl_bisect_2140 : skl_of [5; 4; 3; 2; 1] [KList (LBisectLeft 1); KList (LBisectRight 1)] = [RNat 4; RNat 5].
Proof. vm_compute. reflexivity. Qed.
Example skl_bisect_key_2184 : skl_of [5; 4; 3; 2; 1] [KBisectLeft (-1); KBisectRight (-1)] = [RNat 4; RNat 5].
Proof. vm_compute. reflexivity. Qed.
Example skl_count_2250 : skl_of [4; 4; 4; 4; 3; 3; 3; 2; 2; 1] [KList (LCount 2)] = [RNat 2].
Proof. vm_compute. reflexivity. Qed.
Example skl_index_2315 : skl_of [5; 4; 3; 2; 1] [KList (LIndex 2 None None); KList (LIndex 0 None None)] = [RNat 3; RExn ValueError].
Proof. vm_compute. reflexivity. Qed.
Example skl_plus_2395 : skl_of [5; 4; 3] [KList (LPlus [2; 1; 0]); KList LIter] = [RUnit; RList [5; 4; 3; 2; 1; 0]].
Proof. vm_compute. reflexivity. Qed.
Example skl_mul_2418 : skl_of [3; 2; 1] [KList (LMul 2); KList LIter] = [RUnit; RList [3; 3; 2; 2; 1; 1]].
Proof. vm_compute. reflexivity. Qed.
Close Scope Z_scope.

(** ** SortedSet *)
Definition npl := plain (K:=nat) (total2 Nat.ltb) (total2 Nat.eqb) 1000.
Definition back_ord : nat -> list nat -> list nat := fun _ => @rev nat.
Definition ss_of (l : list nat) (ops : list (sop nat nat)) : list (out nat) :=
  match ss_new npl Nat.eqb back_ord 0 (Some (AIter l)) with
  | Ok s => fst (ss_run npl Nat.eqb back_ord ops s)
  | Err x => [RExn x]
  end.
Definition zkl := keyed zt zt ze (total1 Z.opp) 1000.
Definition ssz_of (l : list Z) (ops : list (sop Z Z)) : list (out Z) :=
  match ss_new zkl Z.eqb (fun _ => @rev Z) 0 (Some (AIter l)) with
  | Ok s => fst (ss_run zkl Z.eqb (fun _ => @rev Z) ops s)
  | Err x => [RExn x]
  end.
Definition four5 := [AIter [4; 5; 6; 7]].

Example ss_init_109 : ss_of [3; 1; 2; 5; 4] [SIter] = [RList [1; 2; 3; 4; 5]] /\ ssz_of [3; 1; 2; 5; 4]%Z [SIter] = [RList [5; 4; 3; 2; 1]%Z].
Proof. vm_compute. split; reflexivity. Qed.
Example ss_contains_187 : ss_of [1; 2; 3; 4; 5] [SContains 3] = [RBool true].
Proof. vm_compute. reflexivity. Qed.
Example ss_getitem_206 : ss_of [a; b; c; d; e] [SGet 2; SGet (-1); SSlice (between 2 5)] = [RVal c; RVal e; RList [c; d; e]].
Proof. vm_compute. reflexivity. Qed.
Example ss_delitem_230 : ss_of [a; b; c; d; e] [SDel 2; SIter; SDelSlice (upto 2); SIter] = [RUnit; RList [a; b; d; e]; RUnit; RList [d; e]].
Proof. vm_compute. reflexivity. Qed.
Example ss_add_325 : ss_of [] [SAdd 3; SAdd 1; SAdd 2; SIter] = [RUnit; RUnit; RUnit; RList [1; 2; 3]].
Proof. vm_compute. reflexivity. Qed.
Example ss_count_368 : ss_of [1; 2; 3; 4; 5] [SCount 3] = [RNat 1].
Proof. vm_compute. reflexivity. Qed.
Example ss_discard_385 : ss_of [1; 2; 3; 4; 5] [SDiscard 5; SDiscard 0; SCompare Ceq [1; 2; 3; 4]] = [RUnit; RUnit; RBool true].
Proof. vm_compute. reflexivity. Qed.
Example ss_pop_411 : ss_of [a; b; c; d; e] [SPop (-1); SPop 2; SIter] = [RVal e; RVal c; RList [a; b; d]].
Proof. vm_compute. reflexivity. Qed.
Example ss_remove_436 : ss_of [1; 2; 3; 4; 5] [SRemove 5; SCompare Ceq [1; 2; 3; 4]; SRemove 0] = [RUnit; RBool true; RExn KeyError].
Proof. vm_compute. reflexivity. Qed.
Example ss_difference_462 : ss_of [1; 2; 3; 4; 5] [SDifference four5; SIter] = [RUnit; RList [1; 2; 3]].
Proof. vm_compute. reflexivity. Qed.
Example ss_difference_update_482 : ss_of [1; 2; 3; 4; 5] [SDifferenceUpdate four5; SIter] = [RUnit; RList [1; 2; 3]].
Proof. vm_compute. reflexivity. Qed.
Example ss_intersection_516 : ss_of [1; 2; 3; 4; 5] [SIntersection four5; SIter] = [RUnit; RList [4; 5]].
Proof. vm_compute. reflexivity. Qed.
Example ss_intersection_update_539 : ss_of [1; 2; 3; 4; 5] [SIntersectionUpdate four5; SIter] = [RUnit; RList [4; 5]].
Proof. vm_compute. reflexivity. Qed.
Example ss_symmetric_difference_567 : ss_of [1; 2; 3; 4; 5] [SSymmetricDifference (AIter [4; 5; 6; 7]); SIter] = [RUnit; RList [1; 2; 3; 6; 7]].
Proof. vm_compute. reflexivity. Qed.
Example ss_symmetric_difference_update_591 : ss_of [1; 2; 3; 4; 5] [SSymmetricDifferenceUpdate (AIter [4; 5; 6; 7]); SIter] = [RUnit; RList [1; 2; 3; 6; 7]].
Proof. vm_compute. reflexivity. Qed.
Example ss_union_616 : ss_of [1; 2; 3; 4; 5] [SUnion four5; SIter] = [RUnit; RList [1; 2; 3; 4; 5; 6; 7]].
Proof. vm_compute. reflexivity. Qed.
Example ss_update_636 : ss_of [1; 2; 3; 4; 5] [SUpdate four5; SIter] = [RUnit; RList [1; 2; 3; 4; 5; 6; 7]].
Proof. vm_compute. reflexivity. Qed.

(** ** SortedDict *)
Definition sd_of (x : darg nat nat) (ops : list (dop nat nat nat)) : list (dout nat nat) :=
  match sd_new npl Nat.eqb x with
  | Ok s => fst (sd_run npl Nat.eqb Nat.eqb ops s)
  | Err x => [OExn x]
  end.
Definition abc := ADict [(a, 1); (b, 2); (c, 3)].

(** [SortedDict(alpha=1, beta=2)] is [SortedDict({'alpha': 1, 'beta': 2})]. *)
Example sd_init_125 : sd_of (APairs [(a, 1); (b, 2)]) [DEq [(a, 1); (b, 2)]] = [OBool true] /\ sd_of (ADict [(a, 1); (b, 2)]) [DEq [(a, 1); (b, 2)]] = [OBool true].
Proof. vm_compute. split; reflexivity. Qed.
Example sd_delitem_217 : sd_of abc [DDel b; DItems; DDel z] = [ONone; OItems [(a, 1); (c, 3)]; OExn KeyError].
Proof. vm_compute. reflexivity. Qed.
Example sd_setitem_262 : sd_of (ADict []) [DSet c 3; DSet a 1; DSet b 2; DItems] = [ONone; ONone; ONone; OItems [(a, 1); (b, 2); (c, 3)]].
Proof. vm_compute. reflexivity. Qed.
Example sd_pop_368 : sd_of abc [DPop c None; DPop z (Some 26); DPop y None] = [OVal 3; OVal 26; OExn KeyError].
Proof. vm_compute. reflexivity. Qed.
Example sd_popitem_404 : sd_of abc [DPopItem (-1); DPopItem 0; DPopItem 100] = [OItem (c, 3); OItem (a, 1); OExn IndexError].
Proof. vm_compute. reflexivity. Qed.
Example sd_peekitem_439 : sd_of abc [DPeekItem (-1); DPeekItem 0; DPeekItem 100] = [OItem (c, 3); OItem (a, 1); OExn IndexError].
Proof. vm_compute. reflexivity. Qed.
Example sd_setdefault_468 : sd_of (ADict []) [DSetDefault a 1; DSetDefault a 10; DItems] = [OVal 1; OVal 1; OItems [(a, 1)]].
Proof. vm_compute. reflexivity. Qed.
Example view_delitem_567 : sd_of abc [DViewDel 0; DItems; DViewDel (-1); DItems; DViewDelSlice (mkslice None None None); DItems] =
  [ONone; OItems [(b, 2); (c, 3)]; ONone; OItems [(b, 2)]; ONone; OItems []].
Proof. vm_compute. reflexivity. Qed.
Example keys_getitem_620 : sd_of abc [DKeyAt 0; DKeyAt (-1); DKeySlice (mkslice None None None); DKeyAt 100] = [OKey a; OKey c; OKeys [a; b; c]; OExn IndexError].
Proof. vm_compute. reflexivity. Qed.
Example items_getitem_667 : sd_of abc [DItemAt 0; DItemAt (-1); DItemSlice (mkslice None None None); DItemAt 100] =
  [OItem (a, 1); OItem (c, 3); OItems [(a, 1); (b, 2); (c, 3)]; OExn IndexError].
Proof. vm_compute. reflexivity. Qed.
Example values_getitem_718 : sd_of (ADict [(a, 2); (b, 1); (c, 3)]) [DValueAt 0; DValueAt (-1); DValueSlice (mkslice None None None); DValueAt 100] =
  [OVal 2; OVal 3; OVals [2; 1; 3]; OExn IndexError].
Proof. vm_compute. reflexivity. Qed.

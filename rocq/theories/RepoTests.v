(** * Assertions of the repository's tests, run in the model

    From tests/test_coverage_*.py: the tests without random numbers and with at most a hundred values, where the assertion is more
    than an instance of a property theorem.  [_reset(n)] is the first operation. *)
From Verif Require Import PyBase Model Spec History Reach ListClass ModelSet ModelDict Doctest.
Local Unset Implicit Arguments.

Notation raised x := (RExn x).
Definition range := seq.          (** [range m n]: n values from m on *)
Definition many (n x : nat) : list nat := repeat x n.

(** ** test_coverage_sortedlist.py *)
(** [SortedList(l)], then [_reset(n)]: what the operations give, and that [_check] passes after each of them. *)
Definition checked {S O R} (step : O -> S -> R * S) (check : S -> bool) : list O -> S -> list R * bool :=
  fix go ops s := match ops with
                  | [] => ([], check s)
                  | o :: ops => let (r, s1) := step o s in let (rs, b) := go ops s1 in (r :: rs, check s && b)
                  end.
Definition fine {A} (r : res A) : bool := match r with Ok _ => true | Err _ => false end.
Definition slt (n : nat) (l : list nat) (ops : list (lop nat)) : list (out nat) :=
  let (rs, b) := checked (sl_step (total2 Nat.ltb) (total2 Nat.eqb) 1000) (fun s => fine (sl_check (total2 Nat.ltb) (total2 Nat.eqb) s))
                   ops (snd (sl_run (total2 Nat.ltb) (total2 Nat.eqb) 1000 [LUpdate l; LReset n] (sl_init 1000))) in
  if b then rs else [].
Definition nlast (n : nat) (l : list (out nat)) : list (out nat) := skipn (length l - n) l.

Example test_discard : nlast 1 (slt 4 [1; 2; 2; 2; 3; 3; 5] [LDiscard 6; LDiscard 4; LDiscard 2; LIter]) = [RList [1; 2; 2; 3; 3; 5]].
Proof. vm_compute. reflexivity. Qed.
Example test_remove : slt 4 [1; 2; 2; 2; 3; 3; 5] [LRemove 2; LIter] = [RUnit; RList [1; 2; 2; 3; 3; 5]].
Proof. vm_compute. reflexivity. Qed.
Example test_remove_valueerror : slt 4 [] [LRemove 0] = [raised ValueError] /\ slt 10 (range 0 100) [LRemove 100] = [raised ValueError] /\
  slt 1000 [1; 2; 2; 2; 3; 3; 5] [LRemove 4] = [raised ValueError].
Proof. vm_compute. repeat split. Qed.
Example test_delete : nlast 1 (slt 4 (range 0 20) (map (@LRemove nat) (range 0 20) ++ [LLen])) = [RNat 0].
Proof. vm_compute. reflexivity. Qed.
Example test_getitem_slicezero : slt 17 (range 0 100) [LSlice (mkslice None None (Some 0%Z))] = [raised ValueError].
Proof. vm_compute. reflexivity. Qed.
Example test_getitem_indexerror : slt 1000 [] [LGet 5] = [raised IndexError] /\ slt 1000 (range 0 100) [LGet 200; LGet (-101)] = [raised IndexError; raised IndexError].
Proof. vm_compute. repeat split. Qed.
(** What [del slt[10:40:-1]] and the others leave is what Python's lists have left. *)
Example test_delitem_slice :
  let s t := mkslice (Some 10%Z) (Some 40%Z) (Some t) in
  nlast 1 (slt 17 (range 0 100) [LDelSlice (s 1%Z); LDelSlice (s (-1)%Z); LDelSlice (s 2%Z); LDelSlice (s (-2)%Z); LIter]) =
  [RList (range 0 10 ++ [41; 43; 45; 47; 49; 51; 53; 55; 57; 59; 61; 63; 65; 67; 69] ++ range 70 30)].
Proof. vm_compute. reflexivity. Qed.
Example test_islice_none : slt 7 [] [LISlice None None false] = [RList []].
Proof. vm_compute. reflexivity. Qed.
Example test_irange : slt 7 (range 0 53)
    [LIRange None None false false false; LIRange (Some 53) None true true false; LIRange None (Some 53) true false false;
     LIRange (Some 10) (Some 20) false false true; LIRange (Some 10) (Some 20) true false false] =
  [RList (range 0 53); RList []; RList (range 0 53); RList (rev (range 11 9)); RList (range 10 10)].
Proof. vm_compute. reflexivity. Qed.
Example test_bisect : slt 1000 [] [LBisectLeft 0; LBisectRight 10] = [RNat 0; RNat 0] /\
  slt 17 (range 0 100) [LUpdate (range 0 100); LBisectLeft 50; LBisectLeft 200; LBisectRight 10; LBisectRight 200] =
    [RUnit; RNat 100; RNat 200; RNat 22; RNat 200].
Proof. vm_compute. repeat split. Qed.
Example test_pop : slt 4 (range 0 10) [LPop (-1); LPop 0; LPop (-2); LPop 4] = [RVal 9; RVal 0; RVal 7; RVal 5].
Proof. vm_compute. reflexivity. Qed.
Example test_pop_indexerror : slt 4 (range 0 10) [LPop (-11); LPop 10] = [raised IndexError; raised IndexError] /\ slt 1000 [] [LPop (-1)] = [raised IndexError].
Proof. vm_compute. repeat split. Qed.
Example test_index : slt 17 (range 0 100) [LIndex 99 (Some 0%Z) (Some 1000%Z)] = [RNat 99] /\
  slt 17 (many 100 0) [LIndex 0 (Some 31%Z) (Some 32%Z); LIndex 0 (Some (-69)%Z) None; LIndex 0 (Some (-1000)%Z) None] = [RNat 31; RNat 31; RNat 0].
Proof. vm_compute. repeat split. Qed.
Example test_index_valueerror :
  slt 4 (many 10 0) [LIndex 0 (Some 10%Z) None; LIndex 0 (Some 0%Z) (Some (-10)%Z); LIndex 0 (Some 7%Z) (Some 3%Z); LIndex 1 None None] =
    [raised ValueError; raised ValueError; raised ValueError; raised ValueError] /\
  slt 1000 [] [LIndex 1 None None] = [raised ValueError] /\ slt 4 (range 0 10) [LIndex 3 (Some 5%Z) None] = [raised ValueError] /\
  slt 4 (many 10 0 ++ many 10 2) [LIndex 1 (Some 0%Z) (Some 10%Z)] = [raised ValueError].
Proof. vm_compute. repeat split. Qed.
Example test_mul : slt 4 (range 0 10) [LMul 5; LCompare Ceq (concat (map (many 5) (range 0 10)))] = [RUnit; RBool true] /\
  slt 4 (range 0 10) [LIMul 5; LCompare Ceq (concat (map (many 5) (range 0 10)))] = [RUnit; RBool true].
Proof. vm_compute. repeat split. Qed.
Example test_eq_ne : slt 4 (range 0 10) [LCompare Ceq (range 0 10); LCompare Ceq (range 0 9); LCompare Cne (range 0 9); LCompare Cne (range 0 11);
  LCompare Cne [0; 1; 2; 3; 3; 5; 6; 7; 8; 9]] = [RBool true; RBool false; RBool true; RBool true; RBool true].
Proof. vm_compute. reflexivity. Qed.
Example test_lt : slt 4 (range 10 5) [LCompare Clt [10; 11; 13; 13; 14]; LCompare Clt [10; 11; 12; 13; 14; 15]; LCompare Clt [11]] =
  [RBool true; RBool true; RBool true].
Proof. vm_compute. reflexivity. Qed.
Example test_le : slt 4 (range 10 5) [LCompare Cle [10; 11; 12; 13; 14]; LCompare Cle [10; 11; 12; 13; 14; 15]; LCompare Cle [10; 11; 13; 13; 14]; LCompare Cle [11]] =
  [RBool true; RBool true; RBool true; RBool true].
Proof. vm_compute. reflexivity. Qed.
Example test_gt : slt 4 (range 10 5) [LCompare Cgt [10; 11; 11; 13; 14]; LCompare Cgt [10; 11; 12; 13]; LCompare Cgt [9]] = [RBool true; RBool true; RBool true].
Proof. vm_compute. reflexivity. Qed.
Example test_ge : slt 4 (range 10 5) [LCompare Cge [10; 11; 12; 13; 14]; LCompare Cge [10; 11; 12; 13]; LCompare Cge [10; 11; 11; 13; 14]; LCompare Cge [9]] =
  [RBool true; RBool true; RBool true; RBool true].
Proof. vm_compute. reflexivity. Qed.
(** [slt._len = 5] by hand. *)
Example test_check :
  let s := snd (sl_run (total2 Nat.ltb) (total2 Nat.eqb) 1000 [LUpdate (range 0 10); LReset 4] (sl_init 1000)) in
  sl_check (total2 Nat.ltb) (total2 Nat.eqb) s = Ok tt /\ sl_check (total2 Nat.ltb) (total2 Nat.eqb) (set_len 5 s) = Err AssertionError.
Proof. vm_compute. repeat split. Qed.
(** The load factor is not pickled. *)
Example test_pickle : let s := snd (sl_run (total2 Nat.ltb) (total2 Nat.eqb) 1000 [LUpdate (range 0 10); LReset 4] (sl_init 1000)) in
  load s = 4 /\ load (snd (sl_step (total2 Nat.ltb) (total2 Nat.eqb) 1000 LReduce s)) = 1000.
Proof. vm_compute. repeat split. Qed.

(** ** test_coverage_sortedkeylist_modulo.py *)
Definition modulo (n : nat) : nat := n mod 10.
Definition sml (n : nat) (l : list nat) (ops : list (lop nat)) : list (out nat) :=
  let nt := total2 Nat.ltb in let ne := total2 Nat.eqb in
  let (rs, b) := checked (fun o => skl_step nt ne nt ne (total1 modulo) 1000 (KList o)) (fun s => fine (skl_check nt ne (total1 modulo) s))
                   ops (snd (skl_run nt ne nt ne (total1 modulo) 1000 [KList (LUpdate l); KList (LReset n)] (skl_init 1000))) in
  if b then rs else [].
Example key_test_update_order_consistency : sml 1000 [10; 20; 30] [LAdd 40; LAdd 50; LAdd 60; LIter] = [RUnit; RUnit; RUnit; RList [10; 20; 30; 40; 50; 60]] /\
  sml 1000 [10; 20; 30] [LUpdate [40; 50; 60]; LIter] = [RUnit; RList [10; 20; 30; 40; 50; 60]].
Proof. vm_compute. repeat split. Qed.
Example key_test_remove_valueerror : sml 1000 [1; 1; 1; 2; 2; 2] [LRemove 13; LRemove 12] = [raised ValueError; raised ValueError] /\
  sml 10 (range 0 30) [LRemove 30] = [raised ValueError].
Proof. vm_compute. repeat split. Qed.
Example key_test_pop : sml 4 (range 0 10) [LPop (-1); LPop 0; LPop (-2); LPop 4] = [RVal 9; RVal 0; RVal 7; RVal 5].
Proof. vm_compute. reflexivity. Qed.
Example key_test_count : sml 1000 (range 0 8) [LCount 9] = [RNat 0].
Proof. vm_compute. reflexivity. Qed.
Example key_test_index_valueerror :
  sml 4 (range 0 100) [LIndex 91 (Some 0%Z) (Some 15%Z)] = [raised ValueError] /\
  sml 4 (many 10 0 ++ many 10 1 ++ many 10 2) [LIndex 1 (Some 0%Z) (Some 10%Z)] = [raised ValueError] /\
  sml 4 (range 0 10) [LIndex 4 (Some 5%Z) None; LIndex 19 None None] = [raised ValueError; raised ValueError] /\
  sml 4 [] [LIndex 5 None None] = [raised ValueError].
Proof. vm_compute. repeat split. Qed.

(** ** test_coverage_sortedset.py *)
Definition sst (n : nat) (l : list nat) (ops : list (sop nat nat)) : list (out nat) := tl (ss_of l (SFwd (FReset n) :: ops)).
Example set_test_delitem_slice : sst 7 (range 0 100) [SDelSlice (mkslice (Some 20%Z) (Some 40%Z) (Some 2%Z)); SIter] =
  [RUnit; RList (range 0 20 ++ [21; 23; 25; 27; 29; 31; 33; 35; 37; 39] ++ range 40 60)].
Proof. vm_compute. reflexivity. Qed.
Example set_test_difference : sst 7 (range 0 100) [SDifference [AIter (range 0 10); AIter (range 10 10)]; SIter] = [RUnit; RList (range 20 80)] /\
  sst 7 (range 0 100) [SDifferenceUpdate [AIter (range 0 10); AIter (range 10 10)]; SIter] = [RUnit; RList (range 20 80)].
Proof. vm_compute. repeat split. Qed.
Example set_test_intersection : sst 7 (range 0 100) [SIntersection [AIter (range 0 20); AIter (range 10 20)]; SIter] = [RUnit; RList (range 10 10)] /\
  sst 7 (range 0 100) [SIntersectionUpdate [AIter (range 0 20)]; SIntersectionUpdate [AIter (range 10 20)]; SIter] = [RUnit; RUnit; RList (range 10 10)].
Proof. vm_compute. repeat split. Qed.
Example set_test_symmetric_difference : sst 7 (range 0 75) [SSymmetricDifference (ASet (range 25 75)); SIter] = [RUnit; RList (range 0 25 ++ range 75 25)] /\
  sst 7 (range 0 75) [SSymmetricDifferenceUpdate (ASet (range 25 75)); SIter] = [RUnit; RList (range 0 25 ++ range 75 25)].
Proof. vm_compute. repeat split. Qed.
Example set_test_update : sst 7 (range 0 80) [SUpdate [AIter (range 80 10); AIter (range 90 10)]; SIter] = [RUnit; RList (range 0 100)] /\
  sst 7 (range 0 80) [SUpdate [AIter (range 80 10)]; SUpdate [AIter (range 90 10)]; SIter] = [RUnit; RUnit; RList (range 0 100)].
Proof. vm_compute. repeat split. Qed.
Example set_test_subset : sst 9 (range 25 50) [SCompare Clt (range 0 100); SCompare Cgt (range 0 100); SIsSubset (AIter (range 0 100)); SIsDisjoint (AIter (range 100 100))] =
  [RBool true; RBool false; RBool true; RBool true].
Proof. vm_compute. reflexivity. Qed.
Example set_test_discard : sst 7 (range 0 100) [SDiscard 0; SDiscard 99; SDiscard 50; SDiscard 1000; SLen] = [RUnit; RUnit; RUnit; RUnit; RNat 97].
Proof. vm_compute. reflexivity. Qed.

(** ** test_coverage_sorteddict.py *)
Definition alphabet : list (nat * nat) := map (fun n => (n + 1, n)) (range 0 26).
Definition sdt (ops : list (dop nat nat nat)) : list (dout nat nat) := sd_of (APairs alphabet) ops.
Example dict_test_eq : sdt [DEq alphabet; DSet a 100; DEq alphabet; DDel a; DEq alphabet; DSet 99 0; DEq alphabet] =
  [OBool true; ONone; OBool false; ONone; OBool false; ONone; OBool false].
Proof. vm_compute. reflexivity. Qed.
Example dict_test_pop : sdt [DPop a None; DPop a (Some 77); DPop 65 None; DPopItem (-1); DPopItem 0] = [OVal 0; OVal 77; OExn KeyError; OItem (z, 25); OItem (b, 1)].
Proof. vm_compute. reflexivity. Qed.
(** An empty dict: [KeyError], not [IndexError]. *)
Example dict_test_popitem2 : sd_of (ADict []) [DPopItem (-1)] = [OExn KeyError].
Proof. vm_compute. reflexivity. Qed.
Example dict_test_peekitem : sdt [DPeekItem (-1); DPeekItem 0; DPeekItem 4; DPeekItem 100] = [OItem (z, 25); OItem (a, 0); OItem (e, 4); OExn IndexError].
Proof. vm_compute. reflexivity. Qed.
Example dict_test_setdefault : sdt [DSetDefault a 77; DGetItem a; DSetDefault 65 77] = [OVal 0; OVal 0; OVal 77].
Proof. vm_compute. reflexivity. Qed.
Example dict_test_update : sd_of (ADict []) [DUpdate (ADict []); DUpdate (APairs alphabet); DUpdate (ADict alphabet); DUpdate (APairs (firstn 2 (skipn 5 alphabet))); DItems] =
  [ONone; ONone; ONone; ONone; OItems alphabet].
Proof. vm_compute. reflexivity. Qed.
Example dict_test_index : sdt [DFwd (FIndex a None None); DFwd (FIndex f (Some 3%Z) (Some (-3)%Z)); DFwd (FBisectLeft a); DFwd (FBisectRight f)] =
  [OFwd (RNat 0); OFwd (RNat 5); OFwd (RNat 0); OFwd (RNat 6)].
Proof. vm_compute. reflexivity. Qed.

(** * C129: the text of the methods, run as it stands (proofs in SourceProps.v) *)
From Coq Require Import String.
From Verif Require Import PyBase Model Spec History Concrete SourceSyntax SourceText SourceSem SourceRun SourceProps.
Local Open Scope string_scope.
Local Open Scope nat_scope.
Local Open Scope list_scope.

(** C129: the text in SourceText.v is a sequence of these definitions for the parser of SourceSyntax.v. *)
Theorem C129_read : exists l, parse source = Some l /\
  map (fun i => match i with IDef f _ _ => f | IAlias a _ => a end) l =
    ["_reset"; "clear"; "_clear"; "add"; "_expand"; "update"; "_update"; "__contains__"; "discard"; "remove"; "_delete"; "_loc"; "_pos";
     "_build_index"; "__delitem__"; "__getitem__"; "_getitem"; "__iter__"; "__reversed__"; "islice"; "_islice"; "irange"; "__len__";
     "bisect_left"; "bisect_right"; "bisect"; "_bisect_right"; "count"; "pop"; "index"; "__iadd__"; "__imul__"].
Proof. exact c129_read. Qed.
Print Assumptions C129_read.

Example C129_read_case :
  parse "
    def __len__(self):
        return self._len

    size = __len__
" = Some [IDef "__len__" [] (SReturn (EAttr (EName "self") "_len")); IAlias "size" "__len__"] /\
  parse "
    def broken(self)
        return 1
" = None.
Proof. vm_compute. repeat match goal with |- _ /\ _ => split end; reflexivity. Qed.

(** C129: run by the interpreter of SourceSem.v, the text of the methods answers every history of add, update, clear, discard, remove, in, item
    access and deletion by index or slice, len, pop, iteration both ways, bisect_left, bisect_right, count, index, irange, islice, _reset, += and *= on
    a new SortedList as the reference list does, and the lists in [self._lists] hold the values of the reference list, in order.  [fuel] bounds the
    rounds of a while loop, [depth] the nesting of calls. *)
Theorem C129_history : forall V (ltb eqb : V -> V -> bool) dflt ops,
  TotalOrder ltb eqb -> 1 <= dflt -> Forall lop_ok ops -> Forall (fun o => in_text o = true) ops ->
  exists enough, forall fuel depth, enough <= fuel -> 6 <= depth ->
    exists s, run (text_step (total2 ltb) (total2 eqb) (methods_of source) fuel depth) ops (fresh dflt) =
                (fst (sp_run ltb eqb ltb ops []), s) /\
      kept s = map VElt (snd (sp_run ltb eqb ltb ops [])).
Proof. exact c129_history. Qed.
Print Assumptions C129_history.

Example C129_history_case :
  let ops := [LUpdate [5; 2; 8; 2; 9; 1]; LAdd 4; LIndex 2 None (Some (-1)%Z); LCount 2; LPop (-2)%Z; LRemove 7; LIMul 2; LBisectRight 4; LDiscard 9;
              LReset 3; LIAdd [6]; LContains 6; LLen; LGet (-3)%Z; LGet 12%Z; LSlice (mkslice (Some 9) (Some 1) (Some (-3)))%Z;
              LISlice (Some 2)%Z (Some (-4))%Z true; LIRange (Some 2) (Some 5) false true false; LDel 1%Z; LDelSlice (mkslice (Some 1) (Some 9) (Some 4))%Z;
              LDelSlice (mkslice (Some 2) (Some 4) None)%Z; LIter; LReversed] in
  TotalOrder Nat.ltb Nat.eqb /\ Forall lop_ok ops /\ Forall (fun o => in_text o = true) ops /\
  fst (run (text_step (total2 Nat.ltb) (total2 Nat.eqb) (methods_of source) 60 6) ops (fresh 2)) =
    [RUnit; RUnit; RNat 1; RNat 2; RVal 8; RExn ValueError; RUnit; RNat 8; RUnit; RUnit; RUnit; RBool true; RNat 12; RVal 5; RExn IndexError; RList [5; 4; 2];
     RList [4; 4; 2; 2; 2; 2]; RList [4; 4; 5; 5]; RUnit; RUnit; RUnit; RList [1; 2; 4; 5; 5; 6; 9]; RList [9; 6; 5; 5; 4; 2; 1]] /\
  kept (snd (run (text_step (total2 Nat.ltb) (total2 Nat.eqb) (methods_of source) 60 6) ops (fresh 2))) =
    map VElt [1; 2; 4; 5; 5; 6; 9].
Proof.
  split; [apply nat_total|]. split; [repeat constructor|]. split; [repeat constructor|]. vm_compute. repeat match goal with |- _ /\ _ => split end; reflexivity.
Qed.

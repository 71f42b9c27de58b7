(** * Property theorem: what an iterator yields after changes (C80) *)
From Verif Require Import PyBase Model Spec History ModelHeap HeapSpec ModelIter HeldSpec HeldProps.

(** C80: whatever is done between the steps, an iterator yields only values that its SortedList has held at some time since the iterator
    was made.  Nothing is assumed of the comparisons: they may be inconsistent or raise exceptions. *)
Theorem C80_once_held : forall (V : Type) (lt eq : V -> V -> res bool) (dflt : nat) (ops : list (iop V)) outs w its k i it v,
  Forall (fun o => match o with IOp (WOp _ o) => simple_op o | _ => True end) ops ->
  i_run lt eq dflt ops i_init = (outs, (w, its)) -> nth_error its k = Some (i, it) ->
  fst (i_step lt eq dflt (INext k) (w, its)) = IOut (RVal v) -> once_held lt eq dflt ops k i v.
Proof. exact c80_held. Qed.
Print Assumptions C80_once_held.

Example C80_once_held_case :
  Forall (fun o => match o with IOp (WOp _ o) => simple_op o | _ => True end) [IOp (WList [0; 1; 2; 3]); IOp (WNew (WUser 0)); IMake 0 LIter; INext 0; INext 0; INext 0; IOp (WOp 0 (LRemove 0)); IOp (WOp 0 (LRemove 3))] /\
  (let s := snd (i_run (total2 Nat.ltb) (total2 Nat.eqb) 2 [IOp (WList [0; 1; 2; 3]); IOp (WNew (WUser 0)); IMake 0 LIter; INext 0; INext 0; INext 0; IOp (WOp 0 (LRemove 0)); IOp (WOp 0 (LRemove 3))] i_init) in
   map fst (snd s) = [0] /\ fst (i_step (total2 Nat.ltb) (total2 Nat.eqb) 2 (INext 0) s) = IOut (RVal 3) /\
   map (fun o => contents (view (w_heap (fst s), o))) (w_objs (fst s)) = [[1; 2]]).
Proof. split; [repeat constructor|]. vm_compute. repeat match goal with |- _ /\ _ => split end; reflexivity. Qed.

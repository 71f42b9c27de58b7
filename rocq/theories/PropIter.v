(** * Property theorems: iterators that are kept (C78, C79) *)
From Verif Require Import PyBase Model Spec History Reach Concrete ModelHeap HeapSpec ModelIter IterSpec IterProps IterRefute.

(** C78: iterators that a program keeps ([iter], [reversed], [islice], [irange] of any of its SortedLists), advanced one step at a time and
    interleaved with each other, with queries of the same SortedList and with anything done to the other SortedLists and lists, yield what the
    SortedList had to yield when the iterator was made, until that SortedList is changed; one that has ended stays at its end even
    then. *)
Theorem C78_iterators : forall (V : Type) (ltb eqb : V -> V -> bool) (dflt : nat) (ops : list (iop V)),
  TotalOrder ltb eqb -> 1 <= dflt -> Forall iop_ok ops ->
  as_specified (fst (i_run (total2 ltb) (total2 eqb) dflt ops i_init)) (fst (ri_run ltb eqb ops ([], [], []))).
Proof. exact c78_iterators. Qed.
Print Assumptions C78_iterators.

Example C78_iterators_case : (TotalOrder Nat.ltb Nat.eqb /\ 1 <= 2 /\ Forall iop_ok
    [IOp (WList [4; 1; 5; 2; 3]); IOp (WNew (WUser 0)); IMake 0 LIter; INext 0; IMake 0 (LISlice (Some 1%Z) None true); INext 1; INext 0;
     IOp (WOp 0 (LGet (-1))); IOp (WSlice 0 (mkslice None None None)); IOp (WMutate 1 []); IOp (WCopy 0); IOp (WOp 1 LClear);
     INext 1; INext 1; INext 1; INext 1; IOp (WOp 0 (LAdd 9)); INext 1; INext 0]) /\
  fst (ri_run Nat.ltb Nat.eqb [IOp (WList [4; 1; 5; 2; 3]); IOp (WNew (WUser 0)); IMake 0 LIter; INext 0; IMake 0 (LISlice (Some 1%Z) None true); INext 1; INext 0;
     IOp (WOp 0 (LGet (-1))); IOp (WSlice 0 (mkslice None None None)); IOp (WMutate 1 []); IOp (WCopy 0); IOp (WOp 1 LClear);
     INext 1; INext 1; INext 1; INext 1; IOp (WOp 0 (LAdd 9)); INext 1; INext 0] ([], [], [])) =
    map Some [IOut RUnit; IOut RUnit; IOut RUnit; IOut (RVal 1); IOut RUnit; IOut (RVal 5); IOut (RVal 2); IOut (RVal 5);
      IOut (RList [1; 2; 3; 4; 5]); IOut RUnit; IOut RUnit; IOut RUnit; IOut (RVal 4); IOut (RVal 3); IOut (RVal 2); IStop; IOut RUnit; IStop]
    ++ [None].
Proof.
  split; [split; [apply nat_total|split; [repeat constructor|repeat constructor]]|].
  vm_compute. reflexivity.
Qed.

(** C78: an iterator that has raised [StopIteration] once will do so forever, whatever happens to the SortedList. *)
Theorem C78_end_is_final : forall (V : Type) (h h' : heap V) (rs rs' : list ref) (it it' : iterator),
  next h rs it = (Ok None, it') -> next h' rs' it' = (Ok None, it').
Proof. exact c78_end_is_final. Qed.
Print Assumptions C78_end_is_final.

Example C78_end_is_final_case : next [[7]] [0] [SFlat (OFwd 1) false (Some (IFwd 0 1))] = (Ok None, []) /\
  next [[7; 8]] [0] [SFlat (OFwd 1) false (Some (IFwd 0 1))] = (Ok (Some 8), [SFlat (OFwd 1) false (Some (IFwd 0 2))]).
Proof. split; reflexivity. Qed.

(** C78: [iter(sl)] and [reversed(sl)] raise no exception, whatever is done to the SortedList between the steps. *)
Theorem C78_iter_never_raises : forall (V : Type) (lt : V -> V -> res bool) (o : lop V) (s : heap V * hsl V) (states : list (heap V * list ref)) it s',
  o = LIter \/ o = LReversed -> it_make lt o s = (Ok it, s') ->
  Forall (fun r => exists v, r = Ok v) (nexts states it).
Proof. exact c78_iter_never_raises. Qed.
Print Assumptions C78_iter_never_raises.

Example C78_iter_never_raises_case :
  let s := ([[1; 2]; [3; 4]], mkhsl [0; 1] [2; 4] [] 0 4 2) in
  fst (it_make (total2 Nat.ltb) LReversed s) = Ok [SFlat (OBack 2) true None] /\
  nexts [([[1; 2]; [3; 4]], [0; 1]); ([[1; 2; 3; 4]; [3; 4]], [0]); ([[1]; [3; 4]], [0]); ([[1]; [3; 4]], [])] [SFlat (OBack 2) true None] =
    [Ok (Some 4); Ok (Some 3); Ok (Some 1); Ok None].
Proof. split; reflexivity. Qed.

(** C79 is false: an iterator advanced while values are only added does not go on in order; it yields values again that it has
    already yielded.  Witness, with a load factor of 2: four values, all of them iterated over, one more value added, which splits
    the internal list; the next value is the third again. *)
Theorem C79_order_refuted : ~ (forall (V : Type) (ltb eqb : V -> V -> bool) (dflt : nat) (ops : list (iop V)) (k : nat),
  TotalOrder ltb eqb -> 1 <= dflt -> Forall only_adds ops -> sorted ltb (yielded k ops (fst (i_run (total2 ltb) (total2 eqb) dflt ops i_init)))).
Proof. exact c79_order_refuted. Qed.
Print Assumptions C79_order_refuted.

Example C79_order_refuted_case :
  yielded 0 repeats_ops (fst (i_run (total2 Nat.ltb) (total2 Nat.eqb) 2 repeats_ops i_init)) = [0; 1; 2; 3; 2].
Proof. vm_compute. reflexivity. Qed.

(** C79 is false: an iterator may yield a value that the SortedList does not hold any more.  Witness, with a load factor
    of 2: four values, three of them iterated over, the first removed, which merges two internal lists, then the value that comes next. *)
Theorem C79_present_refuted : ~ (forall (V : Type) (ltb eqb : V -> V -> bool) (dflt : nat) (ops : list (iop V)) outs w its k v s' i it ob,
  TotalOrder ltb eqb -> 1 <= dflt -> Forall iop_ok ops -> i_run (total2 ltb) (total2 eqb) dflt ops i_init = (outs, (w, its)) ->
  i_step (total2 ltb) (total2 eqb) dflt (INext k) (w, its) = (IOut (RVal v), s') ->
  nth_error its k = Some (i, it) -> nth_error (w_objs w) i = Some ob -> In v (contents (view (w_heap w, ob)))).
Proof. exact c79_present_refuted. Qed.
Print Assumptions C79_present_refuted.

Example C79_present_refuted_case :
  yielded 0 (stale_ops ++ [INext 0]) (fst (i_run (total2 Nat.ltb) (total2 Nat.eqb) 2 (stale_ops ++ [INext 0]) i_init)) = [0; 1; 2; 3] /\
  nth_error (rev stale_ops) 0 = Some (IOp (WOp 0 (LRemove 3))).
Proof. vm_compute. split; reflexivity. Qed.

(** C79 is false: the exception is not [RuntimeError], it is [IndexError].  Witness: [islice] over three values, of
    which the first two are deleted. *)
Theorem C79_runtime_error_refuted : ~ (forall (V : Type) (ltb eqb : V -> V -> bool) (ops : list (iop V)),
  TotalOrder ltb eqb -> Forall iop_ok ops -> ~ In IndexError (raised ops (fst (i_run (total2 ltb) (total2 eqb) 1000 ops i_init)))).
Proof. exact c79_runtime_error_refuted. Qed.
Print Assumptions C79_runtime_error_refuted.

Example C79_runtime_error_refuted_case :
  fst (i_run (total2 Nat.ltb) (total2 Nat.eqb) 1000 index_ops i_init) =
  [IOut RUnit; IOut RUnit; IOut RUnit; IOut (RVal 1); IOut RUnit; IOut RUnit; IOut (RExn IndexError)].
Proof. vm_compute. reflexivity. Qed.

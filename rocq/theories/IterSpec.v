(** * What a program that keeps iterators should see

    An iterator yields one by one the values it had to yield when it was made, as long as its SortedList is not changed; once it has
    reported the end it stays at the end, whatever happens.  What it yields after a change is not specified. *)
From Verif Require Import PyBase Model Spec History ModelHeap HeapSpec ModelIter.
Local Set Implicit Arguments.

(** The SortedList that an operation may change. *)
Definition changes {V} (o : wop V) : option nat :=
  match o with
  | WOp i (LContains _) | WOp i (LGet _) | WOp i (LSlice _) | WOp i LLen | WOp i LIter | WOp i LReversed | WOp i (LBisectLeft _)
  | WOp i (LBisectRight _) | WOp i (LCount _) | WOp i (LIndex _ _ _) | WOp i (LIRange _ _ _ _ _) | WOp i (LISlice _ _ _)
  | WOp i (LCompare _ _) => None
  | WOp i _ | WUpdate i _ | WIAdd i _ => Some i
  | _ => None
  end.

(** An iterator: what is still to come; disturbed; at the end. *)
Inductive rit (V : Type) : Type := Live (x : list V) | Lost | Ended.
Arguments Lost {V}. Arguments Ended {V}.

Definition iop_ok {V} (o : iop V) : Prop :=
  match o with
  | IOp o => wop_ok o
  | IMake _ (LIter | LReversed | LISlice _ _ _ | LIRange _ _ _ _ _) => True
  | IMake _ _ => False
  | INext _ => True
  end.

Section Ref.
  Context {V : Type}.
  Variables ltb eqb : V -> V -> bool.
  Notation RI := (list (list V) * list (list V) * list (nat * rit V))%type.

  Definition disturb (j : option nat) (x : nat * rit V) : nat * rit V :=
    match j, x with
    | Some j, (i, Live _) => if j =? i then (i, Lost) else x
    | _, _ => x
    end.
  (** The outcome, unless it is unspecified. *)
  Definition ri_step (o : iop V) (s : RI) : option (iout V) * RI :=
    let (w, its) := s in
    match o with
    | IOp o =>
        let (r, w) := r_step (sp_step ltb eqb ltb) (fun l => Ok (sp_sort ltb l)) (fun l => l) o w in
        (Some (IOut r), (w, map (disturb (changes o)) its))
    | IMake i o =>
        match getn (fst w) i with
        | Err e => (Some (IOut (RExn e)), s)
        | Ok l => match fst (sp_step ltb eqb ltb o l) with
                  | RList x => (Some (IOut RUnit), (w, its ++ [(i, Live x)]))
                  | r => (Some (IOut r), s)
                  end
        end
    | INext k =>
        match getn its k with
        | Err e => (Some (IOut (RExn e)), s)
        | Ok (i, Live (v :: t)) => (Some (IOut (RVal v)), (w, replace its k (i, Live t)))
        | Ok (i, Live []) => (Some IStop, (w, replace its k (i, Ended)))
        | Ok (i, Lost) => (None, s)
        | Ok (i, Ended) => (Some IStop, s)
        end
    end.
  Definition ri_run := run ri_step.
End Ref.

(** Outcomes are as specified, where they are. *)
Definition as_specified {V} : list (iout V) -> list (option (iout V)) -> Prop :=
  Forall2 (fun r e => match e with Some x => r = x | None => True end).

(** ** Claims about iterators after a change

    The documentation: iterating while adding or deleting values "may raise a RuntimeError or fail to iterate over all values". *)
(** The values that the [k]-th iterator yields in a history. *)
Fixpoint yielded {V} (k : nat) (ops : list (iop V)) (outs : list (iout V)) : list V :=
  match ops, outs with
  | INext j :: ops, IOut (RVal v) :: outs => if j =? k then v :: yielded k ops outs else yielded k ops outs
  | _ :: ops, _ :: outs => yielded k ops outs
  | _, _ => []
  end.
(** The exceptions that iterators raise. *)
Fixpoint raised {V} (ops : list (iop V)) (outs : list (iout V)) : list exn :=
  match ops, outs with
  | INext _ :: ops, IOut (RExn e) :: outs => e :: raised ops outs
  | _ :: ops, _ :: outs => raised ops outs
  | _, _ => []
  end.
(** Histories in which values are only added to SortedLists. *)
Definition only_adds {V} (o : iop V) : Prop :=
  match o with
  | IOp (WOp _ (LAdd _)) | IOp (WNew _) | IOp (WList _) | IMake _ _ | INext _ => True
  | _ => False
  end.

(** An iterator advanced through any sequence of states of the heap and of [_lists]. *)
Fixpoint nexts {V} (states : list (heap V * list ref)) (it : iterator) : list (res (option V)) :=
  match states with
  | [] => []
  | (h, rs) :: t => let (r, it) := next h rs it in r :: nexts t it
  end.

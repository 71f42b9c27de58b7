(** * A SortedList of values whose [==] is finer than their order

    Values such as tasks that define [__lt__] on a priority and keep the default
    [==] are in no total order: two of them may tie (neither is less than the
    other) without being equal.  The SortedList still accepts them.  Below is what
    its operations then mean, on a plain list kept in order: the operations that
    look for a value look at the first tied value only, and counting counts ties. *)
From Verif Require Import PyBase Model Spec History.
Local Unset Implicit Arguments.

Section Weak.
  Context {V : Type}.
  Variables ltb eqb : V -> V -> bool.

  (** The first value tied with [v], and whether it equals [v]. *)
  Definition wk_first (v : V) (l : list V) : option V := find (fun e => tie ltb e v) l.
  Definition wk_found (v : V) (l : list V) : bool :=
    match wk_first v l with Some e => eqb e v | None => false end.

  (** One operation.  Everything that does not test equality is as for a total
      order; [count] counts ties. *)
  Definition wk_step (o : lop V) (l : list V) : out V * list V :=
    match o with
    | LContains v => (RBool (wk_found v l), l)
    | LDiscard v => (RUnit, if wk_found v l then sp_discard (tie ltb) v l else l)
    | LRemove v => if wk_found v l then (RUnit, sp_discard (tie ltb) v l) else (RExn ValueError, l)
    | LIndex v start stop =>
        if wk_found v l then
          (match sp_index (tie ltb) v start stop l with Ok i => RNat i | Err e => RExn e end, l)
        else (RExn ValueError, l)
    | LCompare op other => (RBool (sp_compare eqb ltb op l other), l)
    | _ => sp_step ltb (tie ltb) ltb o l
    end.
  Definition wk_run := run wk_step.
End Weak.

(** The operations covered: all of them, but of the comparisons only [==] and
    [!=] (the other four are lexicographic only for a total order). *)
Definition wk_ok {V} (o : lop V) : Prop :=
  lop_ok o /\ match o with LCompare op _ => op = Ceq \/ op = Cne | _ => True end.

(** * What an iterator may yield after its SortedList has been changed

    Only values that the SortedList has held since the iterator was made. *)
From Verif Require Import PyBase Model Spec History ModelHeap HeapSpec ModelIter.
Local Set Implicit Arguments.

Section Held.
  Context {V : Type}.
  Variables lt eq : V -> V -> res bool.
  Variable dflt : nat.
  (** After the history [ops] the [k]-th iterator exists, and the [i]-th SortedList holds [v]. *)
  Definition held (ops : list (iop V)) (k i : nat) (v : V) : Prop :=
    exists outs w its ob, i_run lt eq dflt ops i_init = (outs, (w, its)) /\ k < length its /\
      nth_error (w_objs w) i = Some ob /\ In v (contents (view (w_heap w, ob))).
  (** ... after some first part of the history. *)
  Definition once_held (ops : list (iop V)) (k i : nat) (v : V) : Prop :=
    exists ops1 ops2, ops = ops1 ++ ops2 /\ held ops1 k i v.
End Held.

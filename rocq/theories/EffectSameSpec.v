(** * Calls that answer as functions do, and may leave a trace *)
From Verif Require Import PyBase Model History ModelEffect.
Local Set Implicit Arguments.

(** Whatever the state of the world, a call answers as the function does; what it does to the world is free. *)
Definition answers1 {W A B} (f : A -> M W B) (g : A -> res B) : Prop := forall x w, fst (f x w) = g x.
Definition answers2 {W A} (f : A -> A -> M W bool) (g : A -> A -> res bool) : Prop := forall x y w, fst (f x y w) = g x y.

(** A sorting algorithm that sorts as [sorted] of PyBase.v does, whenever comparisons answer as a function does. *)
Definition sorts_told {W} (srt : sorting W) : Prop := forall A (f : A -> A -> M W bool) g, answers2 f g -> forall l w, fst (srt A f l w) = py_sorted g l.

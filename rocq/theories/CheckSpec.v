(** * What the self check leaves unsaid: vocabulary for C64 *)
From Verif Require Import PyBase Model.
Local Set Implicit Arguments.

(** Equal values are the same value. *)
Definition Identity {A} (eqb : A -> A -> bool) : Prop := forall x y, eqb x y = true <-> x = y.

(** The positional index is absent, or there are at least two sublists and the leaves begin
    where a row of a binary tree begins. *)
Definition tree_row {V K} (c : core V K) : Prop :=
  index c = [] \/ (2 <= length (lists c) /\ exists D, offset c + 1 = 2 ^ D).

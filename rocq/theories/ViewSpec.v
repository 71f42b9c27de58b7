(** * Specification vocabulary for the inherited operations of views *)
From Verif Require Import PyBase Model Spec History ListClass ClassSpec ModelSet SetSpec ModelDict DictSpec ModelView.
Local Set Implicit Arguments.

(** Whether a value belongs to the result, given whether it belongs to the view and to the other
    operand. *)
Definition vop_means (op : vop) (here there : Prop) : Prop :=
  match op with
  | VAnd => here /\ there
  | VOr => here \/ there
  | VSub => here /\ ~ there
  | VRSub => there /\ ~ here
  | VXor => (here /\ ~ there) \/ (there /\ ~ here)
  end.

(** Items are equal when keys and values are. *)
Definition item_eqb {A B} (eqb : A -> A -> bool) (veqb : B -> B -> bool) (p q : A * B) : bool :=
  eqb (fst p) (fst q) && veqb (snd p) (snd q).

(** Position [i] lies in the window [start], [stop] of a sequence of [n] values: negative bounds
    count from the end. *)
Definition in_window (n : nat) (start : Z) (stop : option Z) (i : nat) : Prop :=
  ((if start <? 0 then start + Z.of_nat n else start) <= Z.of_nat i)%Z /\
  match stop with None => True | Some b => (Z.of_nat i < if b <? 0 then b + Z.of_nat n else b)%Z end.

(** [r] is the first position in the window that holds a value equal to [v], or [ValueError]. *)
Definition first_index {X} (eqx : X -> X -> bool) (v : X) (start : Z) (stop : option Z) (l : list X) (r : res nat) : Prop :=
  match r with
  | Ok i => in_window (length l) start stop i /\ (exists x, nth_error l i = Some x /\ eqx x v = true) /\
            forall j x, j < i -> in_window (length l) start stop j -> nth_error l j = Some x -> eqx x v = false
  | Err e => e = ValueError /\
            forall j x, in_window (length l) start stop j -> nth_error l j = Some x -> eqx x v = false
  end.

(** The objects the result may consist of. *)
Definition vop_source {X} (op : vop) (here there : list X) : list X :=
  match op with
  | VAnd | VRSub => there
  | VSub => here
  | VOr | VXor => here ++ there
  end.

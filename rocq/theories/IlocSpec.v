(** * Specification vocabulary for [iloc] *)
From Verif Require Import PyBase Model History ListClass ModelSet ModelDict ModelDObj ModelIloc.
Local Set Implicit Arguments.

(** The [p]-th operation of the program reads [iloc] of the [i]-th SortedDict and gets the [n]-th view; [b]: with a
    warning. *)
Definition got {A B K} (ops : list (iop A B K)) (outs : list (iout A B)) (p i n : nat) (b : bool) : Prop :=
  (exists raising, nth_error ops p = Some (ILoc i raising)) /\ nth_error outs p = Some (IView n b).
(** ... and the warning is raised. *)
Definition refused {A B K} (ops : list (iop A B K)) (outs : list (iout A B)) (p i : nat) : Prop :=
  (exists raising, nth_error ops p = Some (ILoc i raising)) /\ nth_error outs p = Some IRaised.

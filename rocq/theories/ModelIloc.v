(** * [SortedDict.iloc]

    The programs of ModelDObj.v, which may also read the deprecated property [iloc] of their SortedDicts. *)
From Verif Require Import PyBase Model History ListClass ModelSet ModelDict ModelDObj.
Local Set Implicit Arguments.

(** The world of ModelDObj.v, and the attributes [_iloc]: [(i, n)] if [self._iloc] of the [i]-th SortedDict is the
    [n]-th view.  A SortedDict made by [copy], [__or__], unpickling, ... is a new object without the attribute:
    they all call the class (sorteddict.py:279-352, 520-528), and [__init__] does not set it. *)
Record iworld (S A B : Type) : Type := mkiworld { i_world : qworld S A B; i_attr : list (nat * nat) }.
Arguments mkiworld {S A B}.

(** [raising]: [warnings.warn] raises, as it does under [-W error]. *)
Inductive iop (A B K : Type) : Type := IOther (o : qop A B K) | ILoc (i : nat) (raising : bool).
Arguments IOther {A B K}. Arguments ILoc {A B K}.
(** [iloc] returns the [n]-th view, after a warning or without one, or the warning is raised. *)
Inductive iout (A B : Type) : Type := ISee (r : dout A B) | IView (n : nat) (warned : bool) | IRaised.
Arguments ISee {A B}. Arguments IView {A B}. Arguments IRaised {A B}.

Section Iloc.
  Context {S A B K : Type}.
  Variable T : listcls S A K.
  Variable eqb : A -> A -> bool.
  Variable veqb : B -> B -> bool.

  (** [SortedDict.iloc] (sorteddict.py:181-199) of the [i]-th SortedDict, for one that exists. *)
  Definition q_iloc (i : nat) (raising : bool) (w : iworld S A B) : iout A B * iworld S A B :=
    match find (fun a => fst a =? i) (i_attr w) with
    | Some a => (IView (snd a) false, w)                       (* return self._iloc *)
    | None =>                                                  (* except AttributeError *)
        if raising then (IRaised, w)                           (* warnings.warn(...) *)
        else
          let n := length (w_views (i_world w)) in             (* _iloc = self._iloc = SortedKeysView(self) *)
          let '(_, q) := q_step T eqb veqb (QView i) (i_world w) in
          (IView n true, mkiworld q ((i, n) :: i_attr w))
    end.

  Definition i_step (o : iop A B K) (w : iworld S A B) : iout A B * iworld S A B :=
    match o with
    | IOther o => let (r, q) := q_step T eqb veqb o (i_world w) in (ISee r, mkiworld q (i_attr w))
    | ILoc i raising =>
        match getn (w_dicts (i_world w)) i with
        | Ok _ => q_iloc i raising w
        | Err e => (ISee (OExn e), w)
        end
    end.
  Definition i_run := run i_step.
  Definition i_init : iworld S A B := mkiworld q_init [].
End Iloc.

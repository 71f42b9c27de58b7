(** * What it means to make few comparisons *)
From Verif Require Import PyBase Model Calls.
Local Set Implicit Arguments.

(** [lt'] and [eq'] answer the calls of [log] as [lt] and [eq] do. *)
Definition agree {V} (lt eq lt' eq' : V -> V -> res bool) (log : list (call V)) : Prop :=
  Forall (fun c => match c with Less x y => lt' x y = lt x y | Same x y => eq' x y = eq x y end) log.

(** In state [s] the computation [m] makes at most [n] comparisons: [ml] is [m] with the list of its
    calls, that list has at most [n] entries, and [m] does the same for all other comparisons, including ones
    that raise, as long as they give the same answers to these calls. *)
Definition asks {V S A} (lt eq : V -> V -> res bool)
    (ml : (V -> V -> res bool) -> (V -> V -> res bool) -> ML V S A)
    (m : (V -> V -> res bool) -> (V -> V -> res bool) -> M S A) (s : S) (n : nat) : Prop :=
  exists log, ml lt eq s = (log, m lt eq s) /\ length log <= n /\
    forall lt' eq', agree lt eq lt' eq' log -> m lt' eq' s = m lt eq s.

(** The length of the longest sublist. *)
Definition longest {A} (ls : list (list A)) : nat := list_max (map (@length A) ls).

(** * The class read from the text, and objects that hold a state of the model *)
From Coq Require Import String.
From Verif Require Import PyBase Model SourceSyntax SourceText SourceSem.
Local Open Scope string_scope.
Local Open Scope nat_scope.
Local Open Scope list_scope.
Local Unset Implicit Arguments.

(** The methods of SortedList as the parser reads them from the text. *)
Definition klass : list item :=
  Eval vm_compute in match parse source with Some l => l | None => [] end.

Definition vnat {V} (n : nat) : val V := VInt (Z.of_nat n).

(** [self] at addresses [L] ([_lists]), [X] ([_maxes]) and [I] ([_index]) holds
    [c]: the attributes in the order __init__ makes them (sortedlist.py:108-113),
    the sublists at addresses [ids], no two lists the same object. *)
Record holds {V} (L X I : nat) (s : st V) (c : core V V) : Prop := mkholds {
  h_attrs : attrs s = [("_len", vnat (len c)); ("_load", vnat (load c)); ("_lists", VList L);
                       ("_maxes", VList X); ("_index", VList I); ("_offset", vnat (offset c))];
  h_maxes : heap s X = map VElt (maxes c);
  h_index : heap s I = map vnat (index c);
  h_lists : exists ids, heap s L = map VList ids /\
              map (heap s) ids = map (map VElt) (lists c) /\
              NoDup (L :: X :: I :: ids) /\ Forall (fun r => r < next s) (L :: X :: I :: ids) }.

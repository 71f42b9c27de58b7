(** * Properties of [repr] of objects that contain one another *)
From Coq Require Import String.
From Verif Require Import PyBase ModelRepr ReprSpec ReprProps.

(** C97: [repr] of any object ends, whatever it contains, itself too; the text is that of the contents, with [...] where an object
    is met inside itself.  It raises only what [repr] of a value inside raises.  Either way nothing is left marked as running. *)
Theorem C97_repr : forall (h : list node) (x : item) (fuel : nat), heap_ok h -> item_ok h x -> 2 * length h + 2 <= fuel ->
  exists r, rep h fuel x [] = Some (r, []) /\ match r with Ok t => shows h [] x t | Err e => raises h x e end.
Proof. exact c97_repr. Qed.
Print Assumptions C97_repr.

Example C97_repr_case :
  heap_ok knot /\
  rep knot 12 (Ref 0) [] = Some (Ok "SortedDict({1: SortedList([..., [[...], 7]]), 2: SortedKeysView(...), 3: [[...], 7]})"%string, []) /\
  rep knot 12 (Ref 1) [] = Some (Ok "SortedList([SortedDict({1: ..., 2: SortedKeysView(...), 3: [[...], 7]}), [[...], 7]])"%string, []) /\
  rep knot 12 (Ref 4) [] = Some (Err ValueError, []) /\ 2 * length knot + 2 = 12.
Proof. split; [apply knot_ok|]. vm_compute. repeat match goal with |- _ /\ _ => split end; reflexivity. Qed.

(** C97: there is only one such text. *)
Theorem C97_text_unique : forall (h : list node) (x : item) (t t' : string), shows h [] x t -> shows h [] x t' -> t = t'.
Proof. exact c97_text_unique. Qed.
Print Assumptions C97_text_unique.

Example C97_text_unique_case : shows knot [] (Ref 3) "[[...], 7]".
Proof.
  apply (@sh_py_list knot [] 3 [Ref 3; Atom (Ok "7"%string)] ["[...]"%string; "7"%string]); [reflexivity|exact (fun H => H)|].
  constructor; [apply (@sh_inside knot [3] 3 (NPyList [Ref 3; Atom (Ok "7"%string)])); [reflexivity|discriminate|left; reflexivity]|].
  constructor; [constructor|constructor].
Qed.

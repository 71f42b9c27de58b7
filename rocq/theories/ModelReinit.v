(** * [SortedDict.__init__] called on a SortedDict again *)
From Verif Require Import PyBase Model History ListClass ModelSet ModelDict.
Local Set Implicit Arguments.

(** sorteddict.py:134-170: the items are not touched, [_list] is a new empty list with the key function given (here the
    same as before), then [update] runs. *)
Definition sd_reinit {S A B K} (T : listcls S A K) (eqb : A -> A -> bool) (a : darg A B) : M (sdict S A B) unit :=
  l <- liftr (l_new T []) ;;
  modify (fun s => mksd (d_items s) l) ;;;
  sd_update T eqb a.

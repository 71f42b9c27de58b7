(** * Operations a SortedDict offers with and without a key function *)
From Verif Require Import PyBase ListClass ModelDict DictSpec.

(** [bisect_key_left], [bisect_key_right] and [irange_key] exist only with a key function (sorteddict.py 164-168). *)
Definition keyless_op {A B K} (o : dop A B K) : Prop :=
  match o with DFwd (FBisectKeyLeft _) | DFwd (FBisectKeyRight _) | DFwd (FIRangeKey _ _ _ _ _) => False | _ => True end.

(** * Which sorted list a SortedSet or SortedDict is built on *)
From Verif Require Import PyBase Model Spec History ListClass.
Local Set Implicit Arguments.

(** Equality of hashable values is an equivalence. *)
Record Equiv {A} (eqb : A -> A -> bool) : Prop := {
  eqv_refl : forall x, eqb x x = true;
  eqv_sym : forall x y, eqb x y = true -> eqb y x = true;
  eqv_trans : forall x y z, eqb x y = true -> eqb y z = true -> eqb x z = true }.

(** What an exposed list method answers, and the list afterwards, in terms of the reference list:
    with values compared by [<], and with a key function. *)
Definition fwd_plain {V K} (ltb eqb : V -> V -> bool) (f : fwd V K) (l : list V) : out V * list V :=
  match fwd_op f with
  | KList o => sp_step ltb eqb ltb o l
  | _ => (RExn AttributeError, l)
  end.
Definition fwd_keyed {V K} (key : V -> K) (kltb : K -> K -> bool) (eqb : V -> V -> bool)
    (f : fwd V K) (l : list V) : out V * list V :=
  sp_kstep eqb eqb key kltb (fwd_op f) l.

(** [list_class T ltb eqb fref dflt]: the methods [T] are those of a SortedList whose values are
    totally ordered by [ltb] with equality [eqb], or those of a SortedKeyList whose keys are totally
    ordered, [ltb] being the order of the keys and [eqb] an equality of values that implies
    equal keys.  [fref] describes the exposed methods, [dflt] is the default load factor. *)
Inductive list_class {V K : Type} : forall S : Type, listcls S V K ->
    (V -> V -> bool) -> (V -> V -> bool) -> (fwd V K -> list V -> out V * list V) -> nat -> Prop :=
| class_plain : forall (ltb eqb : V -> V -> bool) dflt,
    TotalOrder ltb eqb -> 1 <= dflt ->
    list_class (plain (total2 ltb) (total2 eqb) dflt) ltb eqb (fwd_plain ltb eqb) dflt
| class_keyed : forall (key : V -> K) (kltb keqb : K -> K -> bool) (eqb : V -> V -> bool) dflt,
    TotalOrder kltb keqb -> Equiv eqb -> EqCompat (by_key key kltb) eqb -> 1 <= dflt ->
    list_class (keyed (total2 eqb) (total2 kltb) (total2 keqb) (total1 key) dflt)
      (by_key key kltb) eqb (fwd_keyed key kltb eqb) dflt.

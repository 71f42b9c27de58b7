(** * The comparisons that operations of a SortedSet and a SortedDict make

    The operations of ModelSet.v and ModelDict.v again, in the same words, with the list of comparisons their list makes (see Calls.v);
    lookups in the hash set or dict are not counted.  [addlog] and [removelog] are [l_add] and [l_remove] with their calls, [X] is the type of what is
    compared: the values themselves, or their keys. *)
From Verif Require Import PyBase Model History ListClass ModelSet ModelDict Calls.
Local Set Implicit Arguments.

(** [zoom] of PyBase.v and [forM]. *)
Definition lzoom {X S S1 A} (g : S -> S1) (p : S1 -> S -> S) (m : ML X S1 A) : ML X S A :=
  fun s => match m (g s) with (log, (r, x)) => (log, (r, p x s)) end.
Fixpoint lforM {X S A} (f : A -> ML X S unit) (l : list A) : ML X S unit :=
  match l with
  | [] => quiet (ret tt)
  | a :: l => f a ~; lforM f l
  end.

Section SetLog.
  Context {S V X : Type}.
  Variable eqb : V -> V -> bool.
  Variable ord : nat -> list V -> list V.
  Variables addlog removelog : V -> ML X S unit.
  Notation SS := (sset S V).
  Definition onlist_log {A} (m : ML X S A) : ML X SS A := lzoom (@s_list S V) (fun l s => mksset (s_set s) l (s_tick s)) m.

  (** [ss_add] (sortedset.py:320-338). *)
  Definition ss_add_log (value : V) : ML X SS unit :=
    m <~ quiet members ;;
    if set_mem eqb value m then quiet (ret tt)
    else quiet (put_set (set_add eqb value m)) ~; onlist_log (addlog value).
  (** [ss_discard] (sortedset.py:378-397), [ss_remove] (429-450). *)
  Definition ss_discard_log (value : V) : ML X SS unit :=
    m <~ quiet members ;;
    if set_mem eqb value m then quiet (set_remove eqb value) ~; onlist_log (removelog value) else quiet (ret tt).
  Definition ss_remove_log (value : V) : ML X SS unit :=
    quiet (set_remove eqb value) ~; onlist_log (removelog value).
  (** [ss_update] (sortedset.py:629-657), [ss_difference_update] (475-504) of a set that is at least four times as long as what is given. *)
  Definition ss_update_log (iterables : list (arg (V:=V))) : ML X SS unit :=
    vs <~ quiet (visit ord (set_of eqb (concat (map (@items V) iterables)))) ;; lforM ss_add_log vs.
  Definition ss_difference_update_log (iterables : list (arg (V:=V))) : ML X SS unit :=
    vs <~ quiet (visit ord (set_of eqb (concat (map (@items V) iterables)))) ;; lforM ss_discard_log vs.
End SetLog.

Section DictLog.
  Context {S A B X : Type}.
  Variable eqb : A -> A -> bool.
  Variables addlog removelog : A -> ML X S unit.
  Notation SD := (sdict S A B).
  Definition onkeys_log {Y} (m : ML X S Y) : ML X SD Y := lzoom (@d_list S A B) (fun l s => mksd (d_items s) l) m.

  (** [sd_setitem] (sorteddict.py:255-277). *)
  Definition sd_setitem_log (k : A) (v : B) : ML X SD unit :=
    d <~ quiet (@items_of S A B) ;;
    (if d_mem eqb k d then quiet (ret tt) else onkeys_log (addlog k)) ~;
    quiet (put_items (d_set eqb k v d)).
  (** [sd_delitem] (sorteddict.py:210-231). *)
  Definition sd_delitem_log (k : A) : ML X SD unit := quiet (dict_delitem eqb k) ~; onkeys_log (removelog k).
  (** [sd_pop] (sorteddict.py:360-390). *)
  Definition sd_pop_log (k : A) (default : option B) : ML X SD B :=
    d <~ quiet (@items_of S A B) ;;
    if d_mem eqb k d then
      onkeys_log (removelog k) ~; v <~ quiet (sd_getitem eqb k) ;; quiet (dict_delitem eqb k) ~; quiet (ret v)
    else match default with Some v => quiet (ret v) | None => quiet (raise KeyError) end.
  (** [sd_setdefault] (sorteddict.py:457-485). *)
  Definition sd_setdefault_log (k : A) (default : B) : ML X SD B :=
    d <~ quiet (@items_of S A B) ;;
    if d_mem eqb k d then quiet (sd_getitem eqb k)
    else quiet (put_items (d_set eqb k default d)) ~; onkeys_log (addlog k) ~; quiet (ret default).
  (** [sd_update] (sorteddict.py:487-518) of a dict, not empty, that has at least ten times as many items as are given. *)
  Definition sd_update_log (a : darg A B) : ML X SD unit :=
    lforM (fun p => sd_setitem_log (fst p) (snd p)) (match a with ADict ps => ps | APairs ps => d_of eqb ps end).
End DictLog.

(** * [__init__] called on an object again *)
From Verif Require Import PyBase Model History ListClass ModelSet.
Local Set Implicit Arguments.

(** [SortedList.__init__] (sortedlist.py:106-116): all attributes are set anew, then [update] runs.  Without an iterable [update] is not
    called; with nothing in it, it changes nothing, so that case is [it = []]. *)
Definition sl_again {V} (lt : V -> V -> res bool) (dflt : nat) (it : list V) : M (core V V) unit :=
  modify (fun _ => core_empty dflt) ;;; sl_update lt it.

(** [SortedKeyList.__init__] (sortedlist.py:1644-1655), with a key function that may be another than before. *)
Definition skl_again {V K} (klt : K -> K -> res bool) (kf : V -> res K) (dflt : nat) (it : list V) : M (skl V K) unit :=
  modify (fun _ => skl_empty dflt) ;;; skl_update klt kf it.

(** [SortedSet.__init__] (sortedset.py:121-157): [_set] stays if there is one, [_list] is a new sorted list of its members with the key
    function given; then [_update].  [T] is the class of that list, so the object may change from [S0] to [S].  On failure the object
    is left half changed, which is not modelled. *)
Definition ss_again {S0 S V K} (T : listcls S V K) (eqb : V -> V -> bool) (ord : nat -> list V -> list V)
    (iterable : option (arg (V:=V))) (s : sset S0 V) : res (sset S V) :=
  let! s := ss_fromset T ord (s_tick s) (s_set s) in
  match iterable with
  | None => Ok s
  | Some a => match ss_update T eqb ord [a] s with (Ok _, s') => Ok s' | (Err e, _) => Err e end
  end.

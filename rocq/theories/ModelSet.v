(** * Model of src/sortedcontainers/sortedset.py *)
From Verif Require Import PyBase Model History ListClass.
Local Set Implicit Arguments.

(** ** Python's built-in [set]

    A set is modelled by the list of its members, pairwise different under [eqb] (hash and [==]
    of hashable values, assumed coherent and total).  The list stands for the contents only: the
    order in which Python iterates a set is unspecified and may change whenever it is iterated,
    so every iteration asks the oracle [ord], see [sset] below. *)
Section PySet.
  Context {V : Type}.
  Variable eqb : V -> V -> bool.

  (** [x in s] *)
  Definition set_mem (x : V) (s : list V) : bool := existsb (fun y => eqb y x) s.
  (** [s.add(x)]: an equal member already there is kept. *)
  Definition set_add (x : V) (s : list V) : list V := if set_mem x s then s else s ++ [x].
  (** [s.discard(x)] *)
  Definition set_del (x : V) (s : list V) : list V := filter (fun y => negb (eqb y x)) s.
  (** [s.update(l)] *)
  Definition set_union (s l : list V) : list V := fold_left (fun s x => set_add x s) l s.
  (** [set(l)] *)
  Definition set_of (l : list V) : list V := set_union [] l.
  (** [s.difference_update(l)]; CPython computes [s.difference(l)] either like this or by
      filtering [s], with the same members. *)
  Definition set_diff (s l : list V) : list V := fold_left (fun s x => set_del x s) l s.
  (** [s.symmetric_difference_update(l)]: CPython first builds [set(l)], then toggles each of its
      members. *)
  Definition set_toggle (s : list V) (x : V) : list V :=
    if set_mem x s then set_del x s else s ++ [x].
  Definition set_sym (s l : list V) : list V := fold_left set_toggle (set_of l) s.
  (** [s.symmetric_difference(l)]: [set(l)] toggled with the members of [s]. *)
  Definition set_sym_new (s l : list V) : list V := fold_left set_toggle s (set_of l).

  (** An argument of a set method: a [set] (or frozenset), or any other iterable; the list gives
      the values in the order in which they are iterated.  A SortedSet is not a [set]. *)
  Inductive arg : Type := AIter (l : list V) | ASet (l : list V).
  Definition items (a : arg) : list V := match a with AIter l | ASet l => l end.

  (** [s.intersection(a)]: CPython iterates over [a] and keeps the members of [s], so that the
      result consists of values of [a]; if [a] is a set larger than [s] it iterates over [s]. *)
  Definition set_inter (s : list V) (a : arg) : list V :=
    let keep l other := set_of (filter (fun x => set_mem x other) l) in
    match a with
    | AIter l => keep l s
    | ASet l => if length s <? length l then keep s l else keep l s
    end.

  (** [s == o], [s <= o], ... for two sets (CPython [set_richcompare], [set_issubset]). *)
  Definition set_le (s o : list V) : bool :=
    (length s <=? length o) && forallb (fun x => set_mem x o) s.
  Definition set_cmp (op : cmpop) (s o : list V) : bool :=
    let eq := (length s =? length o) && set_le s o in
    match op with
    | Ceq => eq
    | Cne => negb eq
    | Cle => set_le s o
    | Cge => set_le o s
    | Clt => (length s <? length o) && set_le s o
    | Cgt => (length o <? length s) && set_le o s
    end.
End PySet.
Arguments AIter {V}. Arguments ASet {V}.

(** ** class SortedSet *)

(** Attributes of an instance: [_set] and [_list] (sortedset.py:127-130); [_key] is fixed by the
    class record [T].  [s_tick] counts the iterations of hash sets so far; it is not part of the
    object, it only lets the oracle answer differently each time. *)
Record sset (S V : Type) : Type := mksset { s_set : list V; s_list : S; s_tick : nat }.
Arguments mksset {S V}.

Section SortedSet.
  Context {S V K : Type}.
  Variable T : listcls S V K.
  Variable eqb : V -> V -> bool.
  (** [ord n s]: the order in which the [n]-th iteration visits the members of [s]. *)
  Variable ord : nat -> list V -> list V.
  Notation SS := (sset S V).

  (** Call a method of [self._list]. *)
  Definition onlist {A} (m : M S A) : M SS A :=
    zoom (@s_list S V) (fun l s => mksset (s_set s) l (s_tick s)) m.
  Definition put_set (x : list V) : M SS unit := modify (fun s => mksset x (s_list s) (s_tick s)).
  Definition members : M SS (list V) := s <- get ;; ret (s_set s).
  (** Iterate a hash set with members [x]. *)
  Definition visit (x : list V) : M SS (list V) :=
    s <- get ;;
    modify (fun s => mksset (s_set s) (s_list s) (s_tick s + 1)) ;;;
    ret (ord (s_tick s) x).

  (** [SortedSet.add] (sortedset.py:320-338): the hash set is changed before the list. *)
  Definition ss_add (value : V) : M SS unit :=
    m <- members ;;
    if set_mem eqb value m then ret tt
    else put_set (set_add eqb value m) ;;; onlist (l_add T value).

  (** [_list.clear(); _list.update(_set)] (sortedset.py:496-497, 551-552, 603-604, 651-652). *)
  Definition relist : M SS unit :=
    onlist (l_clear T) ;;;
    m <- members ;;
    vs <- visit m ;;
    onlist (l_update T vs).

  (** [SortedSet.update] (sortedset.py:629-657). *)
  Definition ss_update (iterables : list (arg (V:=V))) : M SS unit :=
    m <- members ;;
    let values := set_of eqb (concat (map (@items V) iterables)) in
    if length m <? 4 * length values then
      put_set (set_union eqb m values) ;;; relist
    else
      vs <- visit values ;; forM ss_add vs.

  (** The list part of [SortedSet.__init__] (sortedset.py:97-154) for an existing [_set], as in
      [_fromset] (sortedset.py:159-169). *)
  Definition ss_fromset (tick : nat) (values : list V) : res SS :=
    let! l := l_new T (ord tick values) in Ok (mksset values l (tick + 1)).

  (** [SortedSet(iterable, key)] (sortedset.py:97-157). *)
  Definition ss_new (tick : nat) (iterable : option (arg (V:=V))) : res SS :=
    let! s := ss_fromset tick [] in
    match iterable with
    | None => Ok s
    | Some a => match ss_update [a] s with (Ok _, s') => Ok s' | (Err e, _) => Err e end
    end.

  (** [SortedSet.__contains__], [count], [__len__] (sortedset.py:180-195, 363-376, 288-296). *)
  Definition ss_contains (value : V) : M SS bool := m <- members ;; ret (set_mem eqb value m).
  Definition ss_count (value : V) : M SS nat :=
    m <- members ;; ret (if set_mem eqb value m then 1 else 0).
  Definition ss_len : M SS nat := m <- members ;; ret (length m).

  (** [SortedSet.__getitem__], [__iter__], [__reversed__] (sortedset.py:197-219, 298-318). *)
  Definition ss_get (i : Z) : M SS V := onlist (l_get T i).
  Definition ss_slice (sl : slice) : M SS (list V) := onlist (l_slice T sl).
  Definition ss_iter : M SS (list V) := onlist (l_iter T).
  Definition ss_reversed : M SS (list V) := onlist (l_reversed T).

  (** [_set.remove(value)] *)
  Definition set_remove (value : V) : M SS unit :=
    m <- members ;;
    if set_mem eqb value m then put_set (set_del eqb value m) else raise KeyError.

  (** [SortedSet.__delitem__] (sortedset.py:221-250). *)
  Definition ss_del (i : Z) : M SS unit :=
    value <- onlist (l_get T i) ;;
    set_remove value ;;;
    onlist (l_del T i).
  Definition ss_del_slice (sl : slice) : M SS unit :=
    values <- onlist (l_slice T sl) ;;
    m <- members ;;
    put_set (set_diff eqb m values) ;;;
    onlist (l_del_slice T sl).

  (** [SortedSet.clear] (sortedset.py:342-349). *)
  Definition ss_clear : M SS unit := put_set [] ;;; onlist (l_clear T).

  (** [SortedSet.discard] (sortedset.py:378-397). *)
  Definition ss_discard (value : V) : M SS unit :=
    m <- members ;;
    if set_mem eqb value m then set_remove value ;;; onlist (l_remove T value) else ret tt.

  (** [SortedSet.pop] (sortedset.py:401-427). *)
  Definition ss_pop (i : Z) : M SS V :=
    value <- onlist (l_pop T i) ;; set_remove value ;;; ret value.

  (** [SortedSet.remove] (sortedset.py:429-450). *)
  Definition ss_remove (value : V) : M SS unit :=
    set_remove value ;;; onlist (l_remove T value).

  (** A new object built from a set of members; the receiver is unchanged. *)
  Definition fresh (mk : nat -> res SS) : M SS SS := s <- get ;; liftr (mk (s_tick s)).

  (** [SortedSet.copy] (sortedset.py:351-359). *)
  Definition ss_copy : M SS SS := m <- members ;; fresh (fun t => ss_fromset t m).

  (** [SortedSet.difference], [__sub__] (sortedset.py:452-473). *)
  Definition ss_difference (iterables : list (arg (V:=V))) : M SS SS :=
    m <- members ;;
    fresh (fun t => ss_fromset t (fold_left (fun s a => set_diff eqb s (items a)) iterables m)).

  (** [SortedSet.difference_update], [__isub__] (sortedset.py:475-504). *)
  Definition ss_difference_update (iterables : list (arg (V:=V))) : M SS unit :=
    m <- members ;;
    let values := set_of eqb (concat (map (@items V) iterables)) in
    if length m <? 4 * length values then
      put_set (set_diff eqb m values) ;;; relist
    else
      vs <- visit values ;; forM ss_discard vs.

  (** [SortedSet.intersection], [__and__], [__rand__] (sortedset.py:506-528). *)
  Definition ss_intersection (iterables : list (arg (V:=V))) : M SS SS :=
    m <- members ;; fresh (fun t => ss_fromset t (fold_left (set_inter eqb) iterables m)).

  (** [SortedSet.intersection_update], [__iand__] (sortedset.py:530-555). *)
  Definition ss_intersection_update (iterables : list (arg (V:=V))) : M SS unit :=
    m <- members ;;
    put_set (fold_left (set_inter eqb) iterables m) ;;; relist.

  (** [SortedSet.symmetric_difference], [__xor__], [__rxor__] (sortedset.py:557-579). *)
  Definition ss_symmetric_difference (other : arg (V:=V)) : M SS SS :=
    m <- members ;; fresh (fun t => ss_fromset t (set_sym_new eqb m (items other))).

  (** [SortedSet.symmetric_difference_update], [__ixor__] (sortedset.py:581-607). *)
  Definition ss_symmetric_difference_update (other : arg (V:=V)) : M SS unit :=
    m <- members ;;
    put_set (set_sym eqb m (items other)) ;;; relist.

  (** [SortedSet.union], [__or__], [__ror__] (sortedset.py:609-627). *)
  Definition ss_union (iterables : list (arg (V:=V))) : M SS SS :=
    l <- onlist (l_iter T) ;;
    fresh (fun t => ss_new t (Some (AIter (l ++ concat (map (@items V) iterables))))).

  (** [SortedSet.__reduce__] (sortedset.py:662-669) followed by the call pickle performs: the
      class called with the (pickled and rebuilt) set, iterated in some order. *)
  Definition ss_reduce : M SS SS :=
    m <- members ;; vs <- visit m ;; fresh (fun t => ss_new t (Some (ASet vs))).

  (** [SortedSet.__make_cmp] (sortedset.py:252-286) against a set or a SortedSet with members
      [other]. *)
  Definition ss_compare (op : cmpop) (other : list V) : M SS bool :=
    m <- members ;; ret (set_cmp eqb op m other).

  (** [isdisjoint], [issubset], [issuperset] of [_set] (sortedset.py:134-137). *)
  Definition ss_isdisjoint (a : arg (V:=V)) : M SS bool :=
    m <- members ;; ret (forallb (fun x => negb (set_mem eqb x m)) (items a)).
  Definition ss_issubset (a : arg (V:=V)) : M SS bool :=
    m <- members ;; ret (set_le eqb m (set_of eqb (items a))).
  Definition ss_issuperset (a : arg (V:=V)) : M SS bool :=
    m <- members ;; ret (set_le eqb (set_of eqb (items a)) m).

  (** Methods of the list exposed on the set (sortedset.py:141-154). *)
  Definition ss_fwd (f : fwd V K) (s : SS) : out V * SS :=
    let (r, l) := l_fwd T f (s_list s) in (r, mksset (s_set s) l (s_tick s)).

  (** [SortedSet._check] (sortedset.py:685-695). *)
  Definition ss_check : M SS unit :=
    s <- get ;;
    liftr (l_check T (s_list s)) ;;;
    n <- onlist (l_len T) ;;
    liftr (assertR (Ok (length (s_set s) =? n))) ;;;
    l <- onlist (l_iter T) ;;
    liftr (assertR (Ok (forallb (fun v => set_mem eqb v (s_set s)) l))).
End SortedSet.

(** ** Histories *)
Inductive sop (V K : Type) : Type :=
| SAdd (v : V)
| SDiscard (v : V)
| SRemove (v : V)
| SPop (i : Z)
| SClear
| SContains (v : V)
| SCount (v : V)
| SLen
| SIter
| SReversed
| SGet (i : Z)
| SSlice (sl : slice)
| SDel (i : Z)
| SDelSlice (sl : slice)
| SUpdate (its : list (arg (V:=V)))
| SDifferenceUpdate (its : list (arg (V:=V)))
| SIntersectionUpdate (its : list (arg (V:=V)))
| SSymmetricDifferenceUpdate (it : arg (V:=V))
| SUnion (its : list (arg (V:=V)))                  (** [ss = ss.union(...)], and so on *)
| SDifference (its : list (arg (V:=V)))
| SIntersection (its : list (arg (V:=V)))
| SSymmetricDifference (it : arg (V:=V))
| SCopy
| SReduce
| SCompare (op : cmpop) (other : list V)
| SIsDisjoint (a : arg (V:=V))
| SIsSubset (a : arg (V:=V))
| SIsSuperset (a : arg (V:=V))
| SFwd (f : fwd V K).

Arguments SAdd {V K}.
Arguments SDiscard {V K}.
Arguments SRemove {V K}.
Arguments SPop {V K}.
Arguments SClear {V K}.
Arguments SContains {V K}.
Arguments SCount {V K}.
Arguments SLen {V K}.
Arguments SIter {V K}.
Arguments SReversed {V K}.
Arguments SGet {V K}.
Arguments SSlice {V K}.
Arguments SDel {V K}.
Arguments SDelSlice {V K}.
Arguments SUpdate {V K}.
Arguments SDifferenceUpdate {V K}.
Arguments SIntersectionUpdate {V K}.
Arguments SSymmetricDifferenceUpdate {V K}.
Arguments SUnion {V K}.
Arguments SDifference {V K}.
Arguments SIntersection {V K}.
Arguments SSymmetricDifference {V K}.
Arguments SCopy {V K}.
Arguments SReduce {V K}.
Arguments SCompare {V K}.
Arguments SIsDisjoint {V K}.
Arguments SIsSubset {V K}.
Arguments SIsSuperset {V K}.
Arguments SFwd {V K}.

Definition fwd_ok {V K} (f : fwd V K) : Prop := match f with FReset ld => 1 <= ld | _ => True end.
Definition sop_ok {V K} (o : sop V K) : Prop := match o with SFwd f => fwd_ok f | _ => True end.

Section ExecSet.
  Context {S V K : Type}.
  Variable T : listcls S V K.
  Variable eqb : V -> V -> bool.
  Variable ord : nat -> list V -> list V.

  Definition ss_step (o : sop V K) (s : sset S V) : out V * sset S V :=
    match o with
    | SAdd v => observe runit (ss_add T eqb v) s
    | SDiscard v => observe runit (ss_discard T eqb v) s
    | SRemove v => observe runit (ss_remove T eqb v) s
    | SPop i => observe (@RVal V) (ss_pop T eqb i) s
    | SClear => observe runit (ss_clear T) s
    | SContains v => observe (@RBool V) (ss_contains eqb v) s
    | SCount v => observe (@RNat V) (ss_count eqb v) s
    | SLen => observe (@RNat V) ss_len s
    | SIter => observe (@RList V) (ss_iter T) s
    | SReversed => observe (@RList V) (ss_reversed T) s
    | SGet i => observe (@RVal V) (ss_get T i) s
    | SSlice sl => observe (@RList V) (ss_slice T sl) s
    | SDel i => observe runit (ss_del T eqb i) s
    | SDelSlice sl => observe runit (ss_del_slice T eqb sl) s
    | SUpdate its => observe runit (ss_update T eqb ord its) s
    | SDifferenceUpdate its => observe runit (ss_difference_update T eqb ord its) s
    | SIntersectionUpdate its => observe runit (ss_intersection_update T eqb ord its) s
    | SSymmetricDifferenceUpdate it => observe runit (ss_symmetric_difference_update T eqb ord it) s
    | SUnion its => rebind (ss_union T eqb ord its) s
    | SDifference its => rebind (ss_difference T eqb ord its) s
    | SIntersection its => rebind (ss_intersection T eqb ord its) s
    | SSymmetricDifference it => rebind (ss_symmetric_difference T eqb ord it) s
    | SCopy => rebind (ss_copy T ord) s
    | SReduce => rebind (ss_reduce T eqb ord) s
    | SCompare op other => observe (@RBool V) (ss_compare eqb op other) s
    | SIsDisjoint a => observe (@RBool V) (ss_isdisjoint eqb a) s
    | SIsSubset a => observe (@RBool V) (ss_issubset eqb a) s
    | SIsSuperset a => observe (@RBool V) (ss_issuperset eqb a) s
    | SFwd f => ss_fwd T f s
    end.
  Definition ss_run := run ss_step.
End ExecSet.

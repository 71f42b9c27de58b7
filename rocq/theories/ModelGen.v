(** * Arguments that run code while they are iterated

    The iterable given to a bulk operation may be a generator (or an iterator over the container
    itself): a program that, between the values it yields, calls public methods of the very
    container that is being updated, decides by their results what to do next, and may raise. *)
From Verif Require Import PyBase Model History ListClass ModelSet ModelDict.
Local Set Implicit Arguments.

(** A generator: it ends, raises, calls a method [o] of the container and goes on with [k] of the
    result, or yields [a].  Every run is finite; methods that bind the variable to a new object
    ([sl = sl + ...]) do not concern the object being updated and are left out by [in_place]
    below. *)
Inductive gen (Op Out A : Type) : Type :=
| GEnd
| GRaise (e : exn)
| GCall (o : Op) (k : Out -> gen Op Out A)
| GYield (a : A) (rest : gen Op Out A).
Arguments GEnd {Op Out A}. Arguments GRaise {Op Out A}. Arguments GCall {Op Out A}. Arguments GYield {Op Out A}.

(** Every call the generator can make satisfies [P]. *)
Fixpoint calls {Op Out A} (P : Op -> Prop) (g : gen Op Out A) : Prop :=
  match g with
  | GEnd | GRaise _ => True
  | GCall o k => P o /\ forall r, calls P (k r)
  | GYield _ g => calls P g
  end.
(** A generator that yields [l]. *)
Fixpoint yields {Op Out A} (l : list A) (rest : gen Op Out A) : gen Op Out A :=
  match l with [] => rest | a :: t => GYield a (yields t rest) end.

Section Drain.
  Context {S Op Out A : Type}.
  Variable step : Op -> S -> Out * S.
  (** [list(g)]: all yielded values, in the state the calls lead to. *)
  Fixpoint drain (g : gen Op Out A) : M S (list A) :=
    match g with
    | GEnd => ret []
    | GRaise e => raise e
    | GCall o k => fun s => let (r, s') := step o s in drain (k r) s'
    | GYield a g => l <- drain g ;; ret (a :: l)
    end.
End Drain.

(** Operations on the object itself. *)
Definition lop_in_place {V} (o : lop V) : Prop :=
  match o with LCopy | LPlus _ | LMul _ | LReduce => False | _ => lop_ok o end.
Definition kop_in_place {V K} (o : kop V K) : Prop :=
  match o with KList o => lop_in_place o | _ => True end.
Definition sop_in_place {V K} (o : sop V K) : Prop :=
  match o with
  | SUnion _ | SDifference _ | SIntersection _ | SSymmetricDifference _ | SCopy | SReduce => False
  | _ => sop_ok o
  end.
Definition dop_in_place {A B K} (o : dop A B K) : Prop :=
  match o with
  | DOr _ | DROr _ | DCopy | DReduce _ => False
  | DFwd f => fwd_ok f
  | _ => True
  end.

Section ListGen.
  Context {V : Type}.
  Variables lt eq : V -> V -> res bool.
  Variable dflt : nat.
  Notation LG := (gen (lop V) (out V) V).
  Notation SL := (core V V).
  Notation run := (drain (sl_step lt eq dflt)).

  (** [SortedList.update] (sortedlist.py:261-297): [values = sorted(iterable)] exhausts the
      iterable before the list is looked at. *)
  Definition sl_update_gen (g : LG) : M SL unit := vs <- run g ;; sl_update lt vs.
  (** [SortedList.__iadd__] (sortedlist.py:1390-1409): [self._update(other)]. *)
  Definition sl_iadd_gen (g : LG) : M SL unit := vs <- run g ;; iadd (sl_vt lt) vs.
  (** [SortedList.__add__] (sortedlist.py:1366-1388): the values of the list are collected
      before the iterable is exhausted.  The result is a new list. *)
  Definition sl_plus_gen (g : LG) : M SL SL :=
    c <- get ;; vs <- run g ;; liftr (sl_new lt dflt (contents c ++ vs)).
End ListGen.

Section KeyGen.
  Context {V K : Type}.
  Variables vlt eq : V -> V -> res bool.
  Variables klt keq : K -> K -> res bool.
  Variable kf : V -> res K.
  Variable dflt : nat.
  Notation KG := (gen (kop V K) (out V) V).
  Notation SKL := (skl V K).
  Notation run := (drain (skl_step vlt eq klt keq kf dflt)).

  (** [SortedKeyList.update] (sortedlist.py:1759-1798): [values = sorted(iterable, key=self._key)]
      comes first. *)
  Definition skl_update_gen (g : KG) : M SKL unit := vs <- run g ;; skl_update klt kf vs.
  (** [__iadd__], inherited. *)
  Definition skl_iadd_gen (g : KG) : M SKL unit := vs <- run g ;; iadd (skl_vt klt kf) vs.
  (** [SortedKeyList.__add__] (sortedlist.py:2386-2409) *)
  Definition skl_plus_gen (g : KG) : M SKL SKL :=
    s <- get ;; vs <- run g ;; liftr (skl_new klt kf dflt (contents (kc s) ++ vs)).
End KeyGen.

Section SetGen.
  Context {S V K : Type}.
  Variable T : listcls S V K.
  Variable eqb : V -> V -> bool.
  Variable ord : nat -> list V -> list V.
  Notation SS := (sset S V).
  Notation SG := (gen (sop V K) (out V) V).
  Notation run := (drain (ss_step T eqb ord)).

  (** [SortedSet.update], [|=] (sortedset.py:629-657): [values = set(chain( *iterables))] comes
      first; [_set] is the live object, its size is asked for afterwards. *)
  Definition ss_update_gen (g : SG) : M SS unit := vs <- run g ;; ss_update T eqb ord [AIter vs].
  (** [SortedSet.difference_update], [-=] (sortedset.py:475-504), likewise. *)
  Definition ss_difference_update_gen (g : SG) : M SS unit :=
    vs <- run g ;; ss_difference_update T eqb ord [AIter vs].
  (** [SortedSet.symmetric_difference_update], [^=] (sortedset.py:581-607): CPython's
      [set.symmetric_difference_update] builds a set of the argument first. *)
  Definition ss_symmetric_difference_update_gen (g : SG) : M SS unit :=
    vs <- run g ;; ss_symmetric_difference_update T eqb ord (AIter vs).
  (** [_set.intersection( g )] in CPython's [set_intersection]: each yielded value is looked up in
      the set as it is at that moment, and kept if found. *)
  Fixpoint keep_found (g : SG) (acc : list V) : M SS (list V) :=
    match g with
    | GEnd => ret acc
    | GRaise e => raise e
    | GCall o k => fun s => let (r, s') := ss_step T eqb ord o s in keep_found (k r) acc s'
    | GYield a g => m <- members ;; keep_found g (if set_mem eqb a m then set_add eqb a acc else acc)
    end.
  (** [SortedSet.intersection_update], [&=] (sortedset.py:530-555): [set.intersection_update]
      computes the intersection, then swaps it in. *)
  Definition ss_intersection_update_gen (g : SG) : M SS unit :=
    kept <- keep_found g [] ;; put_set kept ;;; relist T ord.
End SetGen.

Section DictGen.
  Context {S A B K : Type}.
  Variable T : listcls S A K.
  Variable eqb : A -> A -> bool.
  Variable veqb : B -> B -> bool.
  Notation SD := (sdict S A B).
  Notation DG := (gen (dop A B K) (dout A B) (A * B)).
  Notation step := (sd_step T eqb veqb).

  (** [dict.update(self, g)]: CPython's [PyDict_MergeFromSeq2] stores each pair as it comes. *)
  Fixpoint store_each (g : DG) : M SD unit :=
    match g with
    | GEnd => ret tt
    | GRaise e => raise e
    | GCall o k => fun s => let (r, s') := step o s in store_each (k r) s'
    | GYield p g => d <- items_of (S:=S) ;; put_items (d_set eqb (fst p) (snd p) d) ;;; store_each g
    end.
  (** [SortedDict.update], [|=] (sorteddict.py:487-518) with an argument that is not a dict. *)
  Definition sd_update_gen (g : DG) : M SD unit :=
    d <- items_of (S:=S) ;;
    if length d =? 0 then
      store_each g ;;; keys_update T
    else
      ps <- drain step g ;;
      let pairs := d_of eqb ps in
      n <- sd_len (S:=S) ;;
      if n <? 10 * length pairs then
        d <- items_of (S:=S) ;; put_items (d_update eqb d pairs) ;;; onkeys (l_clear T) ;;; keys_update T
      else
        forM (fun p => sd_setitem T eqb (fst p) (snd p)) pairs.
End DictGen.

(** * SortedSets as objects: references to [_set] and [_list], bound methods

    ModelSet.v treats a SortedSet as a value.  Here set objects and sorted list objects live on a heap, a
    SortedSet holds references to one of each, and the methods it exposes stay bound to the objects they were
    taken from when [__init__] ran.  A program may hold several SortedSets and several sets of its own. *)
From Verif Require Import PyBase Model History ListClass ModelSet.
Local Set Implicit Arguments.

(** The set objects, the SortedList/SortedKeyList objects; [h_tick] counts the iterations of hash sets, as [s_tick] does. *)
Record sheap (S V : Type) : Type := mksheap { h_sets : list (list V); h_lists : list S; h_tick : nat }.
Arguments mksheap {S V}.

(** The attributes of a SortedSet (sortedset.py:127-154): [self._set], [self._list], the set whose [isdisjoint],
    [issubset], [issuperset] it exposes, and the list whose [bisect_left], ..., [_reset] it exposes.  Simplified: the
    exposed methods of one kind are taken together, as they are all bound in the same place. *)
Record sobj : Type := mksobj { o_set : nat; o_list : nat; m_set : nat; m_list : nat }.

Section Objects.
  Context {S V K : Type}.
  Variable T : listcls S V K.
  Variable eqb : V -> V -> bool.
  Variable ord : nat -> list V -> list V.
  (** While a method runs: the heap and the attributes of [self]. *)
  Notation H := (sheap S V * sobj)%type.

  (** Contents of the set object [r]; replacing them in place; calling a method of the list object [r]. *)
  Definition deref (r : nat) : M H (list V) := s <- get ;; liftr (getn (h_sets (fst s)) r).
  Definition store (r : nat) (x : list V) : M H unit :=
    modifyR (fun s => let! c := setn (h_sets (fst s)) r x in Ok (mksheap c (h_lists (fst s)) (h_tick (fst s)), snd s)).
  Definition call {A} (r : nat) (m : S -> A * S) (dfl : exn -> A) : H -> A * H := fun s =>
    match getn (h_lists (fst s)) r with
    | Ok l =>
        let (a, l') := m l in
        match setn (h_lists (fst s)) r l' with
        | Ok ls => (a, (mksheap (h_sets (fst s)) ls (h_tick (fst s)), snd s))
        | Err e => (dfl e, s)
        end
    | Err e => (dfl e, s)
    end.
  (** New objects. *)
  Definition new_set (x : list V) : M H nat :=
    s <- get ;;
    modify (fun s => (mksheap (h_sets (fst s) ++ [x]) (h_lists (fst s)) (h_tick (fst s)), snd s)) ;;;
    ret (length (h_sets (fst s))).
  Definition new_list (l : S) : M H nat :=
    s <- get ;;
    modify (fun s => (mksheap (h_sets (fst s)) (h_lists (fst s) ++ [l]) (h_tick (fst s)), snd s)) ;;;
    ret (length (h_lists (fst s))).
  Definition hvisit (x : list V) : M H (list V) :=
    s <- get ;;
    modify (fun s => (mksheap (h_sets (fst s)) (h_lists (fst s)) (h_tick (fst s) + 1), snd s)) ;;;
    ret (ord (h_tick (fst s)) x).

  (** [self._set], [self._list] and assignments to them. *)
  Definition self : M H sobj := s <- get ;; ret (snd s).
  Definition hmembers : M H (list V) := o <- self ;; deref (o_set o).
  Definition hput (x : list V) : M H unit := o <- self ;; store (o_set o) x.
  Definition honlist {A} (m : M S A) : M H A := o <- self ;; call (o_list o) m (@Err A).

  (** [SortedSet.add] (sortedset.py:320-338). *)
  Definition hs_add (value : V) : M H unit :=
    m <- hmembers ;;
    if set_mem eqb value m then ret tt
    else hput (set_add eqb value m) ;;; honlist (l_add T value).

  (** [_list.clear(); _list.update(_set)] (sortedset.py:496-497, 551-552, 603-604, 651-652). *)
  Definition hrelist : M H unit :=
    honlist (l_clear T) ;;;
    m <- hmembers ;;
    vs <- hvisit m ;;
    honlist (l_update T vs).

  (** [SortedSet.update] (sortedset.py:629-657).  Here and below the temporary set [values] is no heap object. *)
  Definition hs_update (iterables : list (arg (V:=V))) : M H unit :=
    m <- hmembers ;;
    let values := set_of eqb (concat (map (@items V) iterables)) in
    if length m <? 4 * length values then
      hput (set_union eqb m values) ;;; hrelist
    else
      vs <- hvisit values ;; forM hs_add vs.

  (** [SortedSet.__init__] up to its last statement (sortedset.py:119-154).  [has_set]: [hasattr(self, '_set')].  The key
      function is the one of [T], also when [__init__] is called again. *)
  Definition hs_attach (has_set : bool) : M H unit :=
    (if has_set then ret tt
     else
       r <- new_set [] ;;
       modify (fun s => (fst s, mksobj r (o_list (snd s)) (m_set (snd s)) (m_list (snd s))))) ;;;
    m <- hmembers ;;
    vs <- hvisit m ;;
    l <- liftr (l_new T vs) ;;
    p <- new_list l ;;
    modify (fun s => (fst s, mksobj (o_set (snd s)) p (m_set (snd s)) (m_list (snd s)))) ;;;
    modify (fun s => (fst s, mksobj (o_set (snd s)) (o_list (snd s)) (o_set (snd s)) (o_list (snd s)))).
  (** [if iterable is not None: self._update(iterable)] (sortedset.py:156-157). *)
  Definition hs_fill (iterable : option (arg (V:=V))) : M H unit :=
    match iterable with None => ret tt | Some a => hs_update [a] end.

  (** A new SortedSet: [SortedSet(iterable)], or [SortedSet._fromset(r)] (sortedset.py:159-169) for a set object [r]. *)
  Definition construct (r : option nat) (iterable : option (arg (V:=V))) : M H sobj := fun s =>
    let (has_set, o0) := match r with Some r => (true, mksobj r 0 0 0) | None => (false, mksobj 0 0 0 0) end in
    match (hs_attach has_set ;;; hs_fill iterable) (fst s, o0) with
    | (Ok _, (h, o)) => (Ok o, (h, snd s))
    | (Err e, (h, _)) => (Err e, (h, snd s))
    end.
  Definition hs_fromset (values : list V) : M H sobj := r <- new_set values ;; construct (Some r) None.

  (** Queries: see the methods of the same name in ModelSet.v for the lines. *)
  Definition hs_contains (value : V) : M H bool := m <- hmembers ;; ret (set_mem eqb value m).
  Definition hs_count (value : V) : M H nat := m <- hmembers ;; ret (if set_mem eqb value m then 1 else 0).
  Definition hs_len : M H nat := m <- hmembers ;; ret (length m).
  Definition hs_compare (op : cmpop) (other : list V) : M H bool := m <- hmembers ;; ret (set_cmp eqb op m other).

  (** [_set.remove(value)] *)
  Definition hset_remove (value : V) : M H unit :=
    m <- hmembers ;;
    if set_mem eqb value m then hput (set_del eqb value m) else raise KeyError.

  (** [SortedSet.__delitem__] (sortedset.py:221-250). *)
  Definition hs_del (i : Z) : M H unit :=
    value <- honlist (l_get T i) ;;
    hset_remove value ;;;
    honlist (l_del T i).
  Definition hs_del_slice (sl : slice) : M H unit :=
    values <- honlist (l_slice T sl) ;;
    m <- hmembers ;;
    hput (set_diff eqb m values) ;;;
    honlist (l_del_slice T sl).

  (** [SortedSet.clear], [discard], [pop], [remove] (sortedset.py:342-349, 378-450). *)
  Definition hs_clear : M H unit := hput [] ;;; honlist (l_clear T).
  Definition hs_discard (value : V) : M H unit :=
    m <- hmembers ;;
    if set_mem eqb value m then hset_remove value ;;; honlist (l_remove T value) else ret tt.
  Definition hs_pop (i : Z) : M H V :=
    value <- honlist (l_pop T i) ;; hset_remove value ;;; ret value.
  Definition hs_remove (value : V) : M H unit :=
    hset_remove value ;;; honlist (l_remove T value).

  (** [SortedSet.copy]: [self._fromset(set(self._set))] (sortedset.py:351-359). *)
  Definition hs_copy : M H sobj := m <- hmembers ;; hs_fromset m.

  (** [SortedSet.difference], [intersection], [symmetric_difference] (sortedset.py:452-473, 506-528, 557-579): the
      method of [_set] returns a new set object, which the new SortedSet takes over. *)
  Definition hs_difference (iterables : list (arg (V:=V))) : M H sobj :=
    m <- hmembers ;; hs_fromset (fold_left (fun s a => set_diff eqb s (items a)) iterables m).
  Definition hs_intersection (iterables : list (arg (V:=V))) : M H sobj :=
    m <- hmembers ;; hs_fromset (fold_left (set_inter eqb) iterables m).
  Definition hs_symmetric_difference (other : arg (V:=V)) : M H sobj :=
    m <- hmembers ;; hs_fromset (set_sym_new eqb m (items other)).

  (** The in-place versions (sortedset.py:475-504, 530-555, 581-607) change the set object. *)
  Definition hs_difference_update (iterables : list (arg (V:=V))) : M H unit :=
    m <- hmembers ;;
    let values := set_of eqb (concat (map (@items V) iterables)) in
    if length m <? 4 * length values then
      hput (set_diff eqb m values) ;;; hrelist
    else
      vs <- hvisit values ;; forM hs_discard vs.
  Definition hs_intersection_update (iterables : list (arg (V:=V))) : M H unit :=
    m <- hmembers ;;
    hput (fold_left (set_inter eqb) iterables m) ;;; hrelist.
  Definition hs_symmetric_difference_update (other : arg (V:=V)) : M H unit :=
    m <- hmembers ;;
    hput (set_sym eqb m (items other)) ;;; hrelist.

  (** [SortedSet.union] (sortedset.py:609-627). *)
  Definition hs_union (iterables : list (arg (V:=V))) : M H sobj :=
    l <- honlist (l_iter T) ;;
    construct None (Some (AIter (l ++ concat (map (@items V) iterables)))).

  (** [SortedSet.__reduce__] (sortedset.py:662-669), then the call of the class by pickle or [copy.copy]. *)
  Definition hs_reduce : M H sobj :=
    m <- hmembers ;; vs <- hvisit m ;; construct None (Some (ASet vs)).

  (** The exposed methods of [_set] and [_list] (sortedset.py:134-154) act on the objects they are bound to. *)
  Definition bound_set {A} (f : list V -> A) : M H A := o <- self ;; m <- deref (m_set o) ;; ret (f m).
  Definition hs_isdisjoint (a : arg (V:=V)) : M H bool :=
    bound_set (fun m => forallb (fun x => negb (set_mem eqb x m)) (items a)).
  Definition hs_issubset (a : arg (V:=V)) : M H bool := bound_set (fun m => set_le eqb m (set_of eqb (items a))).
  Definition hs_issuperset (a : arg (V:=V)) : M H bool := bound_set (fun m => set_le eqb (set_of eqb (items a)) m).
  Definition hs_fwd (f : fwd V K) (s : H) : out V * H := call (m_list (snd s)) (l_fwd T f) (@RExn V) s.

  (** One operation on a SortedSet: the result, and the new SortedSet if it makes one. *)
  Definition made (m : M H sobj) (s : H) : (out V * option sobj) * H :=
    match m s with
    | (Ok o, s') => ((RUnit, Some o), s')
    | (Err e, s') => ((RExn e, None), s')
    end.
  Definition gives {A} (inj : A -> out V) (m : M H A) (s : H) : (out V * option sobj) * H :=
    let (r, s') := observe inj m s in ((r, None), s').
  Definition hs_do (o : sop V K) (s : H) : (out V * option sobj) * H :=
    match o with
    | SAdd v => gives runit (hs_add v) s
    | SDiscard v => gives runit (hs_discard v) s
    | SRemove v => gives runit (hs_remove v) s
    | SPop i => gives (@RVal V) (hs_pop i) s
    | SClear => gives runit hs_clear s
    | SContains v => gives (@RBool V) (hs_contains v) s
    | SCount v => gives (@RNat V) (hs_count v) s
    | SLen => gives (@RNat V) hs_len s
    | SIter => gives (@RList V) (honlist (l_iter T)) s
    | SReversed => gives (@RList V) (honlist (l_reversed T)) s
    | SGet i => gives (@RVal V) (honlist (l_get T i)) s
    | SSlice sl => gives (@RList V) (honlist (l_slice T sl)) s
    | SDel i => gives runit (hs_del i) s
    | SDelSlice sl => gives runit (hs_del_slice sl) s
    | SUpdate its => gives runit (hs_update its) s
    | SDifferenceUpdate its => gives runit (hs_difference_update its) s
    | SIntersectionUpdate its => gives runit (hs_intersection_update its) s
    | SSymmetricDifferenceUpdate it => gives runit (hs_symmetric_difference_update it) s
    | SUnion its => made (hs_union its) s
    | SDifference its => made (hs_difference its) s
    | SIntersection its => made (hs_intersection its) s
    | SSymmetricDifference it => made (hs_symmetric_difference it) s
    | SCopy => made hs_copy s
    | SReduce => made hs_reduce s
    | SCompare op other => gives (@RBool V) (hs_compare op other) s
    | SIsDisjoint a => gives (@RBool V) (hs_isdisjoint a) s
    | SIsSubset a => gives (@RBool V) (hs_issubset a) s
    | SIsSuperset a => gives (@RBool V) (hs_issuperset a) s
    | SFwd f => let (r, s') := hs_fwd f s in ((r, None), s')
    end.
End Objects.

(** ** Programs *)

(** An argument written out, a set of the program, a SortedSet of the program. *)
Inductive parg (V : Type) : Type := PLit (l : list V) | PMine (u : nat) | PObj (i : nat).
Arguments PLit {V}. Arguments PMine {V}. Arguments PObj {V}.

(** The methods with arguments of any number, and with one argument (also written as operators). *)
Inductive many : Type := BUpdate | BDifferenceUpdate | BIntersectionUpdate | BUnion | BDifference | BIntersection.
Inductive one : Type := BSymmetricDifferenceUpdate | BSymmetricDifference | BIsDisjoint | BIsSubset | BIsSuperset.
Definition many_op {V K} (c : many) (its : list (arg (V:=V))) : sop V K :=
  match c with
  | BUpdate => SUpdate its | BDifferenceUpdate => SDifferenceUpdate its | BIntersectionUpdate => SIntersectionUpdate its
  | BUnion => SUnion its | BDifference => SDifference its | BIntersection => SIntersection its
  end.
Definition one_op {V K} (c : one) (a : arg (V:=V)) : sop V K :=
  match c with
  | BSymmetricDifferenceUpdate => SSymmetricDifferenceUpdate a | BSymmetricDifference => SSymmetricDifference a
  | BIsDisjoint => SIsDisjoint a | BIsSubset => SIsSubset a | BIsSuperset => SIsSuperset a
  end.

Inductive pop (V K : Type) : Type :=
| PSet (a : parg V)                                  (** [u = set(a)] *)
| PAdd (u : nat) (v : V)                             (** [u.add(v)] *)
| PDiscard (u : nat) (v : V)                         (** [u.discard(v)] *)
| PLook (u : nat)                                    (** [list(u)] *)
| PNew (a : option (parg V))                         (** [SortedSet(a)] *)
| PInit (i : nat) (a : option (parg V))              (** [ss.__init__(a)] once more *)
| POp (i : nat) (o : sop V K)                        (** any method, arguments written out *)
| PMany (i : nat) (c : many) (args : list (parg V))
| POne (i : nat) (c : one) (a : parg V)
| PCompare (i : nat) (op : cmpop) (a : parg V).      (** [ss == a] and so on, for a set or SortedSet *)
Arguments PSet {V K}. Arguments PAdd {V K}. Arguments PDiscard {V K}. Arguments PLook {V K}. Arguments PNew {V K}.
Arguments PInit {V K}. Arguments POp {V K}. Arguments PMany {V K}. Arguments POne {V K}. Arguments PCompare {V K}.

(** The SortedSets and sets the program holds, in the order in which it made them. *)
Record pworld (S V : Type) : Type := mkpworld { p_heap : sheap S V; p_objs : list sobj; p_mine : list nat }.
Arguments mkpworld {S V}.

Section Program.
  Context {S V K : Type}.
  Variable T : listcls S V K.
  Variable eqb : V -> V -> bool.
  Variable ord : nat -> list V -> list V.
  Notation W := (pworld S V).

  (** Run a method on the [i]-th SortedSet. *)
  Definition with_self {A} (i : nat) (m : sheap S V * sobj -> A * (sheap S V * sobj)) (dfl : exn -> A) (w : W) : A * W :=
    match getn (p_objs w) i with
    | Ok o =>
        let '(a, (h, o')) := m (p_heap w, o) in
        match setn (p_objs w) i o' with
        | Ok objs => (a, mkpworld h objs (p_mine w))
        | Err e => (dfl e, w)
        end
    | Err e => (dfl e, w)
    end.
  (** Use of the heap without a SortedSet. *)
  Definition on_heap {A} (m : M (sheap S V * sobj) A) (w : W) : res A * W :=
    let '(a, (h, _)) := m (p_heap w, mksobj 0 0 0 0) in (a, mkpworld h (p_objs w) (p_mine w)).

  (** What an argument is iterated as: a set in hash order, a SortedSet by [SortedSet.__iter__]. *)
  Definition eval (a : parg V) : M W (arg (V:=V)) := fun w =>
    match a with
    | PLit l => (Ok (AIter l), w)
    | PMine u =>
        match getn (p_mine w) u with
        | Ok r => on_heap (m <- deref r ;; vs <- hvisit ord m ;; ret (ASet vs)) w
        | Err e => (Err e, w)
        end
    | PObj i =>
        with_self i (l <- honlist (l_iter T) ;; ret (AIter l)) (@Err _) w
    end.
  (** The members an operand of a comparison has: [other._set] or [other] (sortedset.py:257-262). *)
  Definition operand (a : parg V) : M W (list V) := fun w =>
    match a with
    | PLit l => (Ok l, w)
    | PMine u => match getn (p_mine w) u with Ok r => on_heap (deref r) w | Err e => (Err e, w) end
    | PObj i => with_self i hmembers (@Err _) w
    end.

  Definition add_obj (o : option sobj) (w : W) : W :=
    match o with Some o => mkpworld (p_heap w) (p_objs w ++ [o]) (p_mine w) | None => w end.
  Definition p_do (i : nat) (o : sop V K) (w : W) : out V * W :=
    let '((r, new), w') := with_self i (hs_do T eqb ord o) (fun e => (RExn e, None)) w in (r, add_obj new w').
  Definition after_eval {A} (m : M W A) (k : A -> W -> out V * W) (w : W) : out V * W :=
    match m w with (Ok a, w') => k a w' | (Err e, w') => (RExn e, w') end.
  Definition eval_opt (a : option (parg V)) : M W (option (arg (V:=V))) :=
    match a with None => ret None | Some a => x <- eval a ;; ret (Some x) end.

  Definition p_step (o : pop V K) : W -> out V * W :=
    match o with
    | PSet a => after_eval (eval a) (fun x w =>
        match on_heap (new_set (set_of eqb (items x))) w with
        | (Ok r, w') => (RUnit, mkpworld (p_heap w') (p_objs w') (p_mine w' ++ [r]))
        | (Err e, w') => (RExn e, w')
        end)
    | PAdd u v => fun w =>
        match getn (p_mine w) u with
        | Ok r => after_eval (on_heap (m <- deref r ;; store r (set_add eqb v m))) (fun _ w => (RUnit, w)) w
        | Err e => (RExn e, w)
        end
    | PDiscard u v => fun w =>
        match getn (p_mine w) u with
        | Ok r => after_eval (on_heap (m <- deref r ;; store r (set_del eqb v m))) (fun _ w => (RUnit, w)) w
        | Err e => (RExn e, w)
        end
    | PLook u => after_eval (eval (PMine u)) (fun x w => (RList (items x), w))
    | PNew a => after_eval (eval_opt a) (fun x w =>
        match on_heap (construct T eqb ord None x) w with
        | (Ok o, w') => (RUnit, add_obj (Some o) w')
        | (Err e, w') => (RExn e, w')
        end)
    | PInit i a =>
        (* the argument is iterated by [_update], when [_list] is new already *)
        after_eval (with_self i (hs_attach T ord true) (@Err _)) (fun _ =>
        after_eval (eval_opt a) (fun x => with_self i (observe runit (hs_fill T eqb ord x)) (@RExn V)))
    | POp i o => p_do i o
    | PMany i c args => after_eval (mapM eval args) (fun its => p_do i (many_op c its))
    | POne i c a => after_eval (eval a) (fun x => p_do i (one_op c x))
    | PCompare i op a => after_eval (operand a) (fun l => p_do i (SCompare op l))
    end.
End Program.

(** A program: each operation sees its own orders of the hash sets. *)
Section RunProgram.
  Context {S V K : Type}.
  Variable T : listcls S V K.
  Variable eqb : V -> V -> bool.
  Variable ord : nat -> nat -> list V -> list V.
  Definition rewind (w : pworld S V) : pworld S V :=
    mkpworld (mksheap (h_sets (p_heap w)) (h_lists (p_heap w)) 0) (p_objs w) (p_mine w).
  Fixpoint p_run (n : nat) (ops : list (pop V K)) (w : pworld S V) : list (out V) * pworld S V :=
    match ops with
    | [] => ([], w)
    | o :: t =>
        let (r, w1) := p_step T eqb (ord n) o (rewind w) in
        let (rs, w2) := p_run (n + 1) t w1 in
        (r :: rs, w2)
    end.
  Definition p_init : pworld S V := mkpworld (mksheap [] [] 0) [] [].
End RunProgram.

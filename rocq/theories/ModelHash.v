(** * Hash tables whose lookups may raise

    The other files take hash and [==] of set members and dict keys to be total.  Here [hash(v)] may raise (a value that
    cannot be hashed) and so may [==]. *)
From Verif Require Import PyBase Model History ListClass ModelSet ModelDict.
Local Set Implicit Arguments.

Definition yes (r : res bool) : bool := match r with Ok true => true | _ => false end.

Section Hash.
  Context {V : Type}.
  (** [hash(v)]; entries keep the hash they had when they were stored, which is the same since [hash] is a function. *)
  Variable hash : V -> res Z.
  (** [x is v or x == v] for an entry [x] and a value [v] that is looked up: a function of both, which may raise. *)
  Variable heq : V -> V -> res bool.
  (** The entries of a table in the order in which a lookup with this hash meets them. *)
  Variable probe : list V -> Z -> list V.

  (** Does [x] have this hash? *)
  Definition hashed (h : Z) (x : V) : bool := match hash x with Ok g => Z.eqb g h | Err _ => false end.
  (** Compare [v] with entries until one is equal. *)
  Fixpoint scan (v : V) (l : list V) : res bool :=
    match l with [] => Ok false | x :: t => let! b := heq x v in if b then Ok true else scan v t end.
  (** CPython's set_lookkey and dict lookup: only entries with the same hash are compared.  In CPython the probe also
      meets entries with other hashes and skips them. *)
  Definition h_mem (v : V) (m : list V) : res bool := let! h := hash v in scan v (filter (hashed h) (probe m h)).

  (** *** set *)
  (** [v in s], [s.add(v)], [s.discard(v)], [s.remove(v)] of a built-in set; the state is its list of members.  An entry that is removed
      is the only one equal to [v]. *)
  Definition t_mem (v : V) : M (list V) bool := m <- get ;; liftr (h_mem v m).
  Definition t_add (v : V) : M (list V) unit := b <- t_mem v ;; if b then ret tt else modify (fun m => m ++ [v]).
  Definition t_drop (v : V) (m : list V) : list V := filter (fun x => negb (yes (heq x v))) m.
  Definition t_discard (v : V) : M (list V) unit := b <- t_mem v ;; if b then modify (t_drop v) else ret tt.
  Definition t_remove (v : V) : M (list V) unit := b <- t_mem v ;; if b then modify (t_drop v) else raise KeyError.
  (** One step of [s.symmetric_difference_update]. *)
  Definition t_toggle (v : V) : M (list V) unit := b <- t_mem v ;; modify (fun m => if b then t_drop v m else m ++ [v]).
  (** [set(l)] *)
  Definition t_of (l : list V) : res (list V) := match forM t_add l [] with (Ok _, m) => Ok m | (Err e, _) => Err e end.

  Section Sets.
  Context {S K : Type}.
  Variable T : listcls S V K.
  Variable ord : nat -> list V -> list V.
  Notation SS := (sset S V).
  Definition onset {A} (m : M (list V) A) : M SS A := zoom (@s_set S V) (fun x s => mksset x (s_list s) (s_tick s)) m.

  (** [SortedSet.__contains__], [count] (sortedset.py:180-195, 363-376). *)
  Definition hs_contains (v : V) : M SS bool := onset (t_mem v).
  Definition hs_count (v : V) : M SS nat := b <- onset (t_mem v) ;; ret (if b then 1 else 0).
  (** [SortedSet.add] (sortedset.py:320-338): [value not in _set] and [_set.add(value)] both look [value] up. *)
  Definition hs_add (v : V) : M SS unit :=
    b <- onset (t_mem v) ;; if b then ret tt else onset (t_add v) ;;; onlist (l_add T v).
  (** [SortedSet.discard] (sortedset.py:378-397), [remove] (429-450). *)
  Definition hs_discard (v : V) : M SS unit :=
    b <- onset (t_mem v) ;; if b then onset (t_remove v) ;;; onlist (l_remove T v) else ret tt.
  Definition hs_remove (v : V) : M SS unit := onset (t_remove v) ;;; onlist (l_remove T v).
  (** [SortedSet.pop] (sortedset.py:401-427), [__delitem__] with an integer (221-250). *)
  Definition hs_pop (i : Z) : M SS V := v <- onlist (l_pop T i) ;; onset (t_remove v) ;;; ret v.
  Definition hs_del (i : Z) : M SS unit := v <- onlist (l_get T i) ;; onset (t_remove v) ;;; onlist (l_del T i).
  (** [SortedSet.clear] (sortedset.py:342-349). *)
  Definition hs_clear : M SS unit := onset (modify (fun _ => [])) ;;; onlist (l_clear T).
  (** [SortedSet.update] (sortedset.py:629-657): [set(chain(...))] looks every value up in the new set, [_set.update(values)]
      looks every value up in [_set].  [its] are the values of the iterables.  The order in which [_set.update] visits [values] is that of
      the list that stands for [values]. *)
  Definition hs_update (its : list V) : M SS unit :=
    values <- liftr (t_of its) ;;
    m <- members ;;
    if length m <? 4 * length values then onset (forM t_add values) ;;; relist T ord
    else vs <- visit ord values ;; forM hs_add vs.
  (** [SortedSet.difference_update] (sortedset.py:475-504). *)
  Definition hs_difference_update (its : list V) : M SS unit :=
    values <- liftr (t_of its) ;;
    m <- members ;;
    if length m <? 4 * length values then onset (forM t_discard values) ;;; relist T ord
    else vs <- visit ord values ;; forM hs_discard vs.
  (** [SortedSet.symmetric_difference_update] (sortedset.py:581-607) with an iterable that is no set. *)
  Definition hs_symmetric_difference_update (its : list V) : M SS unit :=
    values <- liftr (t_of its) ;; onset (forM t_toggle values) ;;; relist T ord.
  (** [SortedSet.intersection_update] (sortedset.py:530-555) with an iterable that is no set: CPython computes the intersection and then
      exchanges the tables. *)
  Definition hs_intersection_update (its : list V) : M SS unit :=
    m <- members ;;
    kept <- liftr (match forM (fun v => b <- liftr (h_mem v m) ;; if b then t_add v else ret tt) its [] with
                   (Ok _, x) => Ok x | (Err e, _) => Err e end) ;;
    onset (modify (fun _ => kept)) ;;; relist T ord.
  End Sets.

  (** *** dict *)
  Section Dicts.
  Context {S B K : Type}.
  Variable T : listcls S V K.
  Notation SD := (sdict S V B).
  Definition heqb (x v : V) : bool := yes (heq x v).
  (** [k in d], [d[k]], [d[k] = v], [del d[k]] of a built-in dict; what is done with the entry found is as in ModelDict.v. *)
  Definition g_mem (k : V) : M (list (V * B)) bool := d <- get ;; liftr (h_mem k (map fst d)).
  Definition g_get (k : V) : M (list (V * B)) B := b <- g_mem k ;; d <- get ;; liftr (if b then d_get heqb k d else Err KeyError).
  Definition g_set (k : V) (v : B) : M (list (V * B)) unit :=
    b <- g_mem k ;; modify (fun d => if b then map (fun p => if heqb (fst p) k then (fst p, v) else p) d else d ++ [(k, v)]).
  Definition g_del (k : V) : M (list (V * B)) unit :=
    b <- g_mem k ;; if b then modify (d_del heqb k) else raise KeyError.
  Definition g_of (ps : list (V * B)) : res (list (V * B)) :=
    match forM (fun p => g_set (fst p) (snd p)) ps [] with (Ok _, d) => Ok d | (Err e, _) => Err e end.
  Definition ondict {X} (m : M (list (V * B)) X) : M SD X := zoom (@d_items S V B) (fun d s => mksd d (d_list s)) m.

  (** [dict.__contains__], [dict.__getitem__], inherited. *)
  Definition hd_contains (k : V) : M SD bool := ondict (g_mem k).
  Definition hd_getitem (k : V) : M SD B := ondict (g_get k).
  (** [SortedDict.__setitem__] (sorteddict.py:255-277). *)
  Definition hd_setitem (k : V) (v : B) : M SD unit :=
    b <- ondict (g_mem k) ;; (if b then ret tt else onkeys (l_add T k)) ;;; ondict (g_set k v).
  (** [SortedDict.__delitem__] (sorteddict.py:210-231). *)
  Definition hd_delitem (k : V) : M SD unit := ondict (g_del k) ;;; onkeys (l_remove T k).
  (** [SortedDict.pop] (sorteddict.py:360-390); [dict.pop] finds the entry once. *)
  Definition hd_pop (k : V) (default : option B) : M SD B :=
    b <- ondict (g_mem k) ;;
    if b then onkeys (l_remove T k) ;;; v <- ondict (g_get k) ;; ondict (g_del k) ;;; ret v
    else match default with Some v => ret v | None => raise KeyError end.
  (** [SortedDict.popitem] (sorteddict.py:392-425), [peekitem] (427-455). *)
  Definition hd_popitem (i : Z) : M SD (V * B) :=
    d <- items_of (S:=S) ;;
    if length d =? 0 then raise KeyError
    else k <- onkeys (l_pop T i) ;; v <- ondict (g_get k) ;; ondict (g_del k) ;;; ret (k, v).
  Definition hd_peekitem (i : Z) : M SD (V * B) := k <- onkeys (l_get T i) ;; v <- ondict (g_get k) ;; ret (k, v).
  (** [SortedDict.setdefault] (sorteddict.py:457-485). *)
  Definition hd_setdefault (k : V) (default : B) : M SD B :=
    b <- ondict (g_mem k) ;;
    if b then ondict (g_get k) else ondict (g_set k default) ;;; onkeys (l_add T k) ;;; ret default.
  (** [SortedDict.clear] (sorteddict.py:201-208). *)
  Definition hd_clear : M SD unit := ondict (modify (fun _ => [])) ;;; onkeys (l_clear T).
  (** [SortedDict.update] (sorteddict.py:487-518). *)
  Definition hd_update (a : darg V B) : M SD unit :=
    d <- items_of (S:=S) ;;
    if length d =? 0 then ondict (forM (fun p => g_set (fst p) (snd p)) (pairs_of a)) ;;; keys_update T
    else
      pairs <- liftr (match a with ADict ps => Ok ps | APairs ps => g_of ps end) ;;
      if length d <? 10 * length pairs then
        ondict (forM (fun p => g_set (fst p) (snd p)) pairs) ;;; onkeys (l_clear T) ;;; keys_update T
      else forM (fun p => hd_setitem (fst p) (snd p)) pairs.
  End Dicts.
End Hash.

(** ** Histories *)
Inductive hsop (V : Type) : Type :=
| HAdd (v : V) | HDiscard (v : V) | HRemove (v : V) | HPop (i : Z) | HDel (i : Z) | HClear | HContains (v : V) | HCount (v : V)
| HUpdate (its : list V) | HDifferenceUpdate (its : list V) | HSymmetricDifferenceUpdate (its : list V) | HIntersectionUpdate (its : list V).
Arguments HAdd {V}. Arguments HDiscard {V}. Arguments HRemove {V}. Arguments HPop {V}. Arguments HDel {V}. Arguments HClear {V}.
Arguments HContains {V}. Arguments HCount {V}. Arguments HUpdate {V}. Arguments HDifferenceUpdate {V}. Arguments HSymmetricDifferenceUpdate {V}.
Arguments HIntersectionUpdate {V}.
Inductive hdop (V B : Type) : Type :=
| GSet (k : V) (v : B) | GDel (k : V) | GPop (k : V) (default : option B) | GPopItem (i : Z) | GPeekItem (i : Z)
| GSetDefault (k : V) (v : B) | GGet (k : V) | GContains (k : V) | GClear | GUpdate (a : darg V B).
Arguments GSet {V B}. Arguments GDel {V B}. Arguments GPop {V B}. Arguments GPopItem {V B}. Arguments GPeekItem {V B}.
Arguments GSetDefault {V B}. Arguments GGet {V B}. Arguments GContains {V B}. Arguments GClear {V B}. Arguments GUpdate {V B}.

(** What an operation returns. *)
Inductive hval (V B : Type) : Type := HvNone | HvBool (b : bool) | HvNat (n : nat) | HvKey (v : V) | HvVal (v : B) | HvPair (p : V * B).
Arguments HvNone {V B}. Arguments HvBool {V B}. Arguments HvNat {V B}. Arguments HvKey {V B}. Arguments HvVal {V B}. Arguments HvPair {V B}.
Definition gives {S A X} (f : A -> X) (m : M S A) : M S X := x <- m ;; ret (f x).

Section Steps.
  Context {S V B K : Type}.
  Variable hash : V -> res Z.
  Variable heq : V -> V -> res bool.
  Variable probe : list V -> Z -> list V.
  Variable T : listcls S V K.
  Variable ord : nat -> list V -> list V.
  Definition hs_step (o : hsop V) : M (sset S V) (hval V B) :=
    match o with
    | HAdd v => gives (fun _ => HvNone) (hs_add hash heq probe T v)
    | HDiscard v => gives (fun _ => HvNone) (hs_discard hash heq probe T v)
    | HRemove v => gives (fun _ => HvNone) (hs_remove hash heq probe T v)
    | HPop i => gives HvKey (hs_pop hash heq probe T i)
    | HDel i => gives (fun _ => HvNone) (hs_del hash heq probe T i)
    | HClear => gives (fun _ => HvNone) (hs_clear T)
    | HContains v => gives HvBool (hs_contains hash heq probe v)
    | HCount v => gives HvNat (hs_count hash heq probe v)
    | HUpdate its => gives (fun _ => HvNone) (hs_update hash heq probe T ord its)
    | HDifferenceUpdate its => gives (fun _ => HvNone) (hs_difference_update hash heq probe T ord its)
    | HSymmetricDifferenceUpdate its => gives (fun _ => HvNone) (hs_symmetric_difference_update hash heq probe T ord its)
    | HIntersectionUpdate its => gives (fun _ => HvNone) (hs_intersection_update hash heq probe T ord its)
    end.
  Definition hd_step (o : hdop V B) : M (sdict S V B) (hval V B) :=
    match o with
    | GSet k v => gives (fun _ => HvNone) (hd_setitem hash heq probe T k v)
    | GDel k => gives (fun _ => HvNone) (hd_delitem hash heq probe T k)
    | GPop k v => gives HvVal (hd_pop hash heq probe T k v)
    | GPopItem i => gives HvPair (hd_popitem hash heq probe T i)
    | GPeekItem i => gives HvPair (hd_peekitem hash heq probe T i)
    | GSetDefault k v => gives HvVal (hd_setdefault hash heq probe T k v)
    | GGet k => gives HvVal (hd_getitem hash heq probe k)
    | GContains k => gives HvBool (hd_contains hash heq probe k)
    | GClear => gives (fun _ => HvNone) (hd_clear T)
    | GUpdate a => gives (fun _ => HvNone) (hd_update hash heq probe T a)
    end.
  (** Exceptions are caught and the history goes on. *)
  Fixpoint hs_run (ops : list (hsop V)) (s : sset S V) : sset S V := match ops with [] => s | o :: t => hs_run t (snd (hs_step o s)) end.
  Fixpoint hd_run (ops : list (hdop V B)) (s : sdict S V B) : sdict S V B := match ops with [] => s | o :: t => hd_run t (snd (hd_step o s)) end.
End Steps.

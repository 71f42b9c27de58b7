(** * Model of src/sortedcontainers/sorteddict.py *)
From Verif Require Import PyBase Model History ListClass ModelSet.
Local Set Implicit Arguments.

(** ** Python's built-in [dict]

    The items in insertion order, keys pairwise different under [eqb] (hash and [==] of hashable
    keys, assumed coherent and total). *)
Section PyDict.
  Context {A B : Type}.
  Variable eqb : A -> A -> bool.

  (** [dict.__contains__] *)
  Definition d_mem (k : A) (d : list (A * B)) : bool := existsb (fun p => eqb (fst p) k) d.
  (** [dict.__getitem__] *)
  Definition d_get (k : A) (d : list (A * B)) : res B :=
    match find (fun p => eqb (fst p) k) d with Some p => Ok (snd p) | None => Err KeyError end.
  (** [dict.__setitem__]: an equal key already there is kept, in its place. *)
  Definition d_set (k : A) (v : B) (d : list (A * B)) : list (A * B) :=
    if d_mem k d then map (fun p => if eqb (fst p) k then (fst p, v) else p) d else d ++ [(k, v)].
  (** [dict.__delitem__] of a key that is present *)
  Definition d_del (k : A) (d : list (A * B)) : list (A * B) := filter (fun p => negb (eqb (fst p) k)) d.
  (** [dict.update] with pairs in the order in which they are visited *)
  Definition d_update (d ps : list (A * B)) : list (A * B) :=
    fold_left (fun d p => d_set (fst p) (snd p) d) ps d.
  (** [dict(pairs)] *)
  Definition d_of (ps : list (A * B)) : list (A * B) := d_update [] ps.
  (** [dict.__eq__]: CPython [dict_equal]; [veqb] is [==] (or identity) of values. *)
  Definition d_equal (veqb : B -> B -> bool) (d o : list (A * B)) : bool :=
    (length d =? length o) &&
    forallb (fun p => match find (fun q => eqb (fst q) (fst p)) o with
                      | Some q => veqb (snd p) (snd q)
                      | None => false
                      end) d.
End PyDict.

(** The argument of [update] and friends: a [dict] (or SortedDict), given by its items in the
    order in which it is iterated, or any other mapping or iterable of pairs, keyword
    arguments being appended as further pairs. *)
Inductive darg (A B : Type) : Type := ADict (ps : list (A * B)) | APairs (ps : list (A * B)).
Arguments ADict {A B}. Arguments APairs {A B}.
Definition pairs_of {A B} (a : darg A B) : list (A * B) := match a with ADict ps | APairs ps => ps end.

(** ** class SortedDict *)

(** The dict itself and its attribute [_list] (sorteddict.py:141); [_key] is fixed by the class
    record [T], and the cached bound methods (sorteddict.py:146-168) always refer to [_list]. *)
Record sdict (S A B : Type) : Type := mksd { d_items : list (A * B); d_list : S }.
Arguments mksd {S A B}.

Section SortedDict.
  Context {S A B K : Type}.
  Variable T : listcls S A K.
  Variable eqb : A -> A -> bool.
  Notation SD := (sdict S A B).

  (** Call a method of [self._list]. *)
  Definition onkeys {X} (m : M S X) : M SD X := zoom (@d_list S A B) (fun l s => mksd (d_items s) l) m.
  Definition items_of : M SD (list (A * B)) := s <- get ;; ret (d_items s).
  Definition put_items (d : list (A * B)) : M SD unit := modify (fun s => mksd d (d_list s)).

  (** [dict.__getitem__(self, key)], [dict.__delitem__(self, key)] *)
  Definition sd_getitem (k : A) : M SD B := d <- items_of ;; liftr (d_get eqb k d).
  Definition dict_delitem (k : A) : M SD unit :=
    d <- items_of ;; if d_mem eqb k d then put_items (d_del eqb k d) else raise KeyError.

  (** [dict.__contains__], [dict.get], [dict.__len__], inherited. *)
  Definition sd_contains (k : A) : M SD bool := d <- items_of ;; ret (d_mem eqb k d).
  Definition sd_get (k : A) (default : B) : M SD B :=
    d <- items_of ;; ret (match d_get eqb k d with Ok v => v | Err _ => default end).
  Definition sd_len : M SD nat := d <- items_of ;; ret (length d).

  (** [SortedDict.clear] (sorteddict.py:201-208). *)
  Definition sd_clear : M SD unit := put_items [] ;;; onkeys (l_clear T).

  (** [SortedDict.__delitem__] (sorteddict.py:210-231). *)
  Definition sd_delitem (k : A) : M SD unit := dict_delitem k ;;; onkeys (l_remove T k).

  (** [SortedDict.__iter__], [__reversed__] (sorteddict.py:233-253). *)
  Definition sd_iter : M SD (list A) := onkeys (l_iter T).
  Definition sd_reversed : M SD (list A) := onkeys (l_reversed T).

  (** [SortedDict.__setitem__] (sorteddict.py:255-277): the list is changed before the dict. *)
  Definition sd_setitem (k : A) (v : B) : M SD unit :=
    d <- items_of ;;
    (if d_mem eqb k d then ret tt else onkeys (l_add T k)) ;;;
    put_items (d_set eqb k v d).

  (** Iteration of [sd.items()] and [sd.values()]: the mixin methods of
      [collections.abc.ItemsView] and [ValuesView] look every key of the mapping up. *)
  Definition sd_items : M SD (list (A * B)) :=
    ks <- sd_iter ;; mapM (fun k => v <- sd_getitem k ;; ret (k, v)) ks.
  Definition sd_values : M SD (list B) := ks <- sd_iter ;; mapM sd_getitem ks.

  (** [self._list_update(dict.__iter__(self))] (sorteddict.py:502, 513). *)
  Definition keys_update : M SD unit := d <- items_of ;; onkeys (l_update T (map fst d)).

  (** [SortedDict.update] (sorteddict.py:487-518). *)
  Definition sd_update (a : darg A B) : M SD unit :=
    d <- items_of ;;
    if length d =? 0 then
      put_items (d_update eqb d (pairs_of a)) ;;; keys_update
    else
      let pairs := match a with ADict ps => ps | APairs ps => d_of eqb ps end in
      if length d <? 10 * length pairs then
        put_items (d_update eqb d pairs) ;;; onkeys (l_clear T) ;;; keys_update
      else
        forM (fun p => sd_setitem (fst p) (snd p)) pairs.

  (** [SortedDict.__init__] (sorteddict.py:97-170). *)
  Definition sd_new (a : darg A B) : res SD :=
    let! l := l_new T [] in
    match sd_update a (mksd [] l) with (Ok _, s) => Ok s | (Err e, _) => Err e end.

  (** [SortedDict.__or__], [__ror__], [__ior__] (sorteddict.py:279-293) with a mapping; with
      anything else [__or__] and [__ror__] return [NotImplemented], which is not modelled. *)
  Definition sd_or (other : list (A * B)) : M SD SD :=
    l <- sd_items ;; liftr (sd_new (APairs (l ++ other))).
  Definition sd_ror (other : list (A * B)) : M SD SD :=
    l <- sd_items ;; liftr (sd_new (APairs (other ++ l))).
  Definition sd_ior (a : darg A B) : M SD unit := sd_update a.

  (** [SortedDict.copy] (sorteddict.py:295-305). *)
  Definition sd_copy : M SD SD := l <- sd_items ;; liftr (sd_new (APairs l)).

  (** [SortedDict.fromkeys] (sorteddict.py:307-319): never with a key function. *)
  Definition sd_fromkeys (ks : list A) (v : B) : res SD := sd_new (APairs (map (fun k => (k, v)) ks)).

  (** [SortedDict.pop] (sorteddict.py:360-390). *)
  Definition sd_pop (k : A) (default : option B) : M SD B :=
    d <- items_of ;;
    if d_mem eqb k d then
      onkeys (l_remove T k) ;;; v <- sd_getitem k ;; dict_delitem k ;;; ret v
    else match default with Some v => ret v | None => raise KeyError end.

  (** [SortedDict.popitem] (sorteddict.py:392-425). *)
  Definition sd_popitem (i : Z) : M SD (A * B) :=
    d <- items_of ;;
    if length d =? 0 then raise KeyError
    else k <- onkeys (l_pop T i) ;; v <- sd_getitem k ;; dict_delitem k ;;; ret (k, v).

  (** [SortedDict.peekitem] (sorteddict.py:427-455). *)
  Definition sd_peekitem (i : Z) : M SD (A * B) :=
    k <- onkeys (l_get T i) ;; v <- sd_getitem k ;; ret (k, v).

  (** [SortedDict.setdefault] (sorteddict.py:457-485): the dict is changed before the list. *)
  Definition sd_setdefault (k : A) (default : B) : M SD B :=
    d <- items_of ;;
    if d_mem eqb k d then sd_getitem k
    else put_items (d_set eqb k default d) ;;; onkeys (l_add T k) ;;; ret default.

  (** [SortedDict.__reduce__] (sorteddict.py:520-528) followed by the call pickle performs.
      [dict.copy] of a dict subclass that overrides [__iter__] copies through [keys()], hence in
      key order, in recent CPython and in insertion order in old ones: both are covered. *)
  Definition sd_reduce (insertion : bool) : M SD SD :=
    d <- items_of ;;
    l <- (if insertion then ret d else sd_items) ;;
    liftr (sd_new (ADict l)).

  (** [SortedKeysView.__getitem__], [SortedItemsView.__getitem__], [SortedValuesView.__getitem__]
      (sorteddict.py:611-638, 658-693, 709-744). *)
  Definition kv_get (i : Z) : M SD A := onkeys (l_get T i).
  Definition kv_slice (sl : slice) : M SD (list A) := onkeys (l_slice T sl).
  Definition iv_get (i : Z) : M SD (A * B) :=
    k <- onkeys (l_get T i) ;; v <- sd_getitem k ;; ret (k, v).
  Definition iv_slice (sl : slice) : M SD (list (A * B)) :=
    ks <- onkeys (l_slice T sl) ;; mapM (fun k => v <- sd_getitem k ;; ret (k, v)) ks.
  Definition vv_get (i : Z) : M SD B := k <- onkeys (l_get T i) ;; sd_getitem k.
  Definition vv_slice (sl : slice) : M SD (list B) :=
    ks <- onkeys (l_slice T sl) ;; mapM sd_getitem ks.

  (** [_view_delitem] (sorteddict.py:558-593), the [__delitem__] of all three views. *)
  Definition view_del (i : Z) : M SD unit := k <- onkeys (l_pop T i) ;; dict_delitem k.
  Definition view_del_slice (sl : slice) : M SD unit :=
    ks <- onkeys (l_slice T sl) ;; onkeys (l_del_slice T sl) ;;; forM dict_delitem ks.

  (** [reversed(view)]: [collections.abc.Sequence.__reversed__] indexes from the end. *)
  Definition view_reversed {X} (at_ : Z -> M SD X) : M SD (list X) :=
    n <- sd_len ;; mapM (fun i => at_ (Z.of_nat i)) (rev (seq 0 n)).

  (** [item in sd.items()] and [v in sd.values()]: mixin methods of [collections.abc.ItemsView]
      and [ValuesView]; [veqb] is [==] (or identity) of values. *)
  Definition iv_contains (veqb : B -> B -> bool) (k : A) (v : B) : M SD bool :=
    d <- items_of ;; ret (match d_get eqb k d with Ok w => veqb w v | Err _ => false end).
  Definition vv_contains (veqb : B -> B -> bool) (v : B) : M SD bool :=
    l <- sd_values ;; ret (existsb (fun w => veqb w v) l).

  (** [sd == other] for a dict [other]: inherited [dict.__eq__]. *)
  Definition sd_eq (veqb : B -> B -> bool) (other : list (A * B)) : M SD bool :=
    d <- items_of ;; ret (d_equal eqb veqb d other).

  (** Methods of the list exposed on the dict (sorteddict.py:156-168). *)
  Definition sd_fwd (f : fwd A K) (s : SD) : out A * SD :=
    let (r, l) := l_fwd T f (d_list s) in (r, mksd (d_items s) l).

  (** [SortedDict._check] (sorteddict.py:546-555). *)
  Definition sd_check : M SD unit :=
    s <- get ;;
    liftr (l_check T (d_list s)) ;;;
    n <- onkeys (l_len T) ;;
    liftr (assertR (Ok (length (d_items s) =? n))) ;;;
    l <- onkeys (l_iter T) ;;
    liftr (assertR (Ok (forallb (fun k => d_mem eqb k (d_items s)) l))).
End SortedDict.

(** ** Histories *)
Inductive dop (A B K : Type) : Type :=
| DSet (k : A) (v : B)
| DDel (k : A)
| DGetItem (k : A)
| DGet (k : A) (default : B)
| DContains (k : A)
| DLen
| DIter
| DReversed
| DClear
| DPop (k : A) (default : option B)
| DPopItem (i : Z)
| DPeekItem (i : Z)
| DSetDefault (k : A) (default : B)
| DUpdate (a : darg A B)
| DIOr (a : darg A B)
| DOr (other : list (A * B))          (** [sd = sd | other] *)
| DROr (other : list (A * B))         (** [sd = other | sd] *)
| DCopy                               (** [sd = sd.copy()] *)
| DReduce (insertion : bool)          (** [sd = pickle.loads(pickle.dumps(sd))] *)
| DItems | DValues                    (** [list(sd.items())], [list(sd.values())] *)
| DItemsReversed | DValuesReversed | DKeysReversed
| DItemIn (k : A) (v : B) | DValueIn (v : B)
| DKeyAt (i : Z) | DItemAt (i : Z) | DValueAt (i : Z)
| DKeySlice (sl : slice) | DItemSlice (sl : slice) | DValueSlice (sl : slice)
| DViewDel (i : Z)
| DViewDelSlice (sl : slice)
| DEq (other : list (A * B))
| DFwd (f : fwd A K).
Arguments DSet {A B K}. Arguments DDel {A B K}. Arguments DGetItem {A B K}. Arguments DGet {A B K}.
Arguments DContains {A B K}. Arguments DLen {A B K}. Arguments DIter {A B K}. Arguments DReversed {A B K}.
Arguments DClear {A B K}. Arguments DPop {A B K}. Arguments DPopItem {A B K}. Arguments DPeekItem {A B K}.
Arguments DSetDefault {A B K}. Arguments DUpdate {A B K}. Arguments DIOr {A B K}. Arguments DOr {A B K}.
Arguments DROr {A B K}. Arguments DCopy {A B K}. Arguments DReduce {A B K}. Arguments DItems {A B K}.
Arguments DValues {A B K}. Arguments DItemsReversed {A B K}. Arguments DValuesReversed {A B K}.
Arguments DKeysReversed {A B K}. Arguments DItemIn {A B K}. Arguments DValueIn {A B K}.
Arguments DKeyAt {A B K}. Arguments DItemAt {A B K}. Arguments DValueAt {A B K}. Arguments DKeySlice {A B K}.
Arguments DItemSlice {A B K}. Arguments DValueSlice {A B K}. Arguments DViewDel {A B K}.
Arguments DViewDelSlice {A B K}. Arguments DEq {A B K}. Arguments DFwd {A B K}.

(** What an operation returns or raises. *)
Inductive dout (A B : Type) : Type :=
| ONone
| OBool (b : bool)
| ONat (n : nat)
| OKey (k : A)
| OVal (v : B)
| OItem (p : A * B)
| OKeys (l : list A)
| OVals (l : list B)
| OItems (l : list (A * B))
| OFwd (r : out A)
| OExn (e : exn).
Arguments ONone {A B}. Arguments OBool {A B}. Arguments ONat {A B}. Arguments OKey {A B}. Arguments OVal {A B}.
Arguments OItem {A B}. Arguments OKeys {A B}. Arguments OVals {A B}. Arguments OItems {A B}.
Arguments OFwd {A B}. Arguments OExn {A B}.

Section ExecDict.
  Context {S A B K : Type}.
  Variable T : listcls S A K.
  Variable eqb : A -> A -> bool.
  Variable veqb : B -> B -> bool.
  Notation SD := (sdict S A B).

  Definition dsee {X} (inj : X -> dout A B) (m : M SD X) (s : SD) : dout A B * SD :=
    match m s with (Ok x, s') => (inj x, s') | (Err e, s') => (OExn e, s') end.
  Definition drebind (m : M SD SD) (s : SD) : dout A B * SD :=
    match m s with (Ok n, _) => (ONone, n) | (Err e, s') => (OExn e, s') end.
  Definition onone (_ : unit) : dout A B := ONone.

  Definition sd_step (o : dop A B K) (s : SD) : dout A B * SD :=
    match o with
    | DSet k v => dsee onone (sd_setitem T eqb k v) s
    | DDel k => dsee onone (sd_delitem T eqb k) s
    | DGetItem k => dsee OVal (sd_getitem eqb k) s
    | DGet k v => dsee OVal (sd_get eqb k v) s
    | DContains k => dsee OBool (sd_contains eqb k) s
    | DLen => dsee ONat (@sd_len S A B) s
    | DIter => dsee OKeys (sd_iter T) s
    | DReversed => dsee OKeys (sd_reversed T) s
    | DClear => dsee onone (sd_clear T) s
    | DPop k v => dsee OVal (sd_pop T eqb k v) s
    | DPopItem i => dsee OItem (sd_popitem T eqb i) s
    | DPeekItem i => dsee OItem (sd_peekitem T eqb i) s
    | DSetDefault k v => dsee OVal (sd_setdefault T eqb k v) s
    | DUpdate a => dsee onone (sd_update T eqb a) s
    | DIOr a => dsee onone (sd_ior T eqb a) s
    | DOr o => drebind (sd_or T eqb o) s
    | DROr o => drebind (sd_ror T eqb o) s
    | DCopy => drebind (sd_copy T eqb) s
    | DReduce b => drebind (sd_reduce T eqb b) s
    | DItems => dsee OItems (sd_items T eqb) s
    | DValues => dsee OVals (sd_values T eqb) s
    | DItemsReversed => dsee OItems (view_reversed (iv_get T eqb)) s
    | DValuesReversed => dsee OVals (view_reversed (vv_get T eqb)) s
    | DKeysReversed => dsee OKeys (view_reversed (kv_get (B:=B) T)) s
    | DItemIn k v => dsee OBool (iv_contains eqb veqb k v) s
    | DValueIn v => dsee OBool (vv_contains T eqb veqb v) s
    | DKeyAt i => dsee OKey (kv_get T i) s
    | DItemAt i => dsee OItem (iv_get T eqb i) s
    | DValueAt i => dsee OVal (vv_get T eqb i) s
    | DKeySlice sl => dsee OKeys (kv_slice T sl) s
    | DItemSlice sl => dsee OItems (iv_slice T eqb sl) s
    | DValueSlice sl => dsee OVals (vv_slice T eqb sl) s
    | DViewDel i => dsee onone (view_del T eqb i) s
    | DViewDelSlice sl => dsee onone (view_del_slice T eqb sl) s
    | DEq o => dsee OBool (sd_eq eqb veqb o) s
    | DFwd f => let (r, s') := sd_fwd T f s in (OFwd r, s')
    end.
  Definition sd_run := run sd_step.
End ExecDict.

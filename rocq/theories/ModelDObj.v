(** * SortedDicts as objects: the reference to [_list], cached and exposed bound methods, views

    ModelDict.v treats a SortedDict as a value.  Here sorted list objects live on a heap; a SortedDict holds its items
    itself (it is a [dict]), a reference to its [_list], and bound methods taken from a list when [__init__] ran.  A
    program may hold several SortedDicts, views of them, and several dicts of its own. *)
From Verif Require Import PyBase Model History ListClass ModelSet ModelDict.
Local Set Implicit Arguments.

(** The items of the dict, [self._list], the list whose methods are cached in [_list_add], ..., [_list_update], and
    the list whose methods are exposed as [bisect_left], ..., [_reset] (sorteddict.py:141-168).  Simplified: the
    methods of one kind are taken together, as they are all bound in the same place. *)
Record dobj (A B : Type) : Type := mkdobj { q_items : list (A * B); q_list : nat; q_cached : nat; q_exposed : nat }.
Arguments mkdobj {A B}.

Section DictObjects.
  Context {S A B K : Type}.
  Variable T : listcls S A K.
  Variable eqb : A -> A -> bool.
  Variable veqb : B -> B -> bool.
  (** While a method runs: the list objects, and the attributes of [self]. *)
  Notation H := (list S * dobj A B)%type.

  (** Calling a method of the list object [r]. *)
  Definition qcall {X} (r : nat) (m : S -> X * S) (dfl : exn -> X) : H -> X * H := fun s =>
    match getn (fst s) r with
    | Ok l =>
        let (x, l') := m l in
        match setn (fst s) r l' with
        | Ok ls => (x, (ls, snd s))
        | Err e => (dfl e, s)
        end
    | Err e => (dfl e, s)
    end.
  Definition qself : M H (dobj A B) := s <- get ;; ret (snd s).
  (** [self._list.m()]; [self._list_m()] *)
  Definition q_on {X} (m : M S X) : M H X := o <- qself ;; qcall (q_list o) m (@Err X).
  Definition q_call {X} (m : M S X) : M H X := o <- qself ;; qcall (q_cached o) m (@Err X).
  Definition q_dict : M H (list (A * B)) := o <- qself ;; ret (q_items o).
  Definition q_put (d : list (A * B)) : M H unit :=
    modify (fun s => (fst s, mkdobj d (q_list (snd s)) (q_cached (snd s)) (q_exposed (snd s)))).

  (** The methods: see those of the same name in ModelDict.v for the lines. *)
  Definition qd_getitem (k : A) : M H B := d <- q_dict ;; liftr (d_get eqb k d).
  Definition q_delitem (k : A) : M H unit :=
    d <- q_dict ;; if d_mem eqb k d then q_put (d_del eqb k d) else raise KeyError.
  Definition qd_contains (k : A) : M H bool := d <- q_dict ;; ret (d_mem eqb k d).
  Definition qd_get (k : A) (default : B) : M H B :=
    d <- q_dict ;; ret (match d_get eqb k d with Ok v => v | Err _ => default end).
  Definition qd_len : M H nat := d <- q_dict ;; ret (length d).
  (** sorteddict.py:201-277: [clear], [__delitem__], [__iter__], [__reversed__], [__setitem__] *)
  Definition qd_clear : M H unit := q_put [] ;;; q_call (l_clear T).
  Definition qd_delitem (k : A) : M H unit := q_delitem k ;;; q_call (l_remove T k).
  Definition qd_iter : M H (list A) := q_call (l_iter T).
  Definition qd_reversed : M H (list A) := q_call (l_reversed T).
  Definition qd_setitem (k : A) (v : B) : M H unit :=
    d <- q_dict ;;
    (if d_mem eqb k d then ret tt else q_call (l_add T k)) ;;;
    q_put (d_set eqb k v d).
  Definition qd_items : M H (list (A * B)) :=
    ks <- qd_iter ;; mapM (fun k => v <- qd_getitem k ;; ret (k, v)) ks.
  Definition qd_values : M H (list B) := ks <- qd_iter ;; mapM qd_getitem ks.
  (** [SortedDict.update] (sorteddict.py:487-518) *)
  Definition q_keys_update : M H unit := d <- q_dict ;; q_call (l_update T (map fst d)).
  Definition qd_update (a : darg A B) : M H unit :=
    d <- q_dict ;;
    if length d =? 0 then
      q_put (d_update eqb d (pairs_of a)) ;;; q_keys_update
    else
      let pairs := match a with ADict ps => ps | APairs ps => d_of eqb ps end in
      if length d <? 10 * length pairs then
        q_put (d_update eqb d pairs) ;;; q_call (l_clear T) ;;; q_keys_update
      else
        forM (fun p => qd_setitem (fst p) (snd p)) pairs.

  (** [SortedDict.__init__] up to its last statement (sorteddict.py:134-168), for a new dict and for one that is
      initialized again: the items are left alone, [_list] is a new empty list, the methods are those of that list.
      The key function is the one of [T], also when [__init__] is called again. *)
  Definition qd_attach : M H unit :=
    l <- liftr (l_new T []) ;;
    s <- get ;;
    modify (fun s => (fst s ++ [l], snd s)) ;;;
    let p := length (fst s) in
    modify (fun s => (fst s, mkdobj (q_items (snd s)) p (q_cached (snd s)) (q_exposed (snd s)))) ;;;
    modify (fun s => (fst s, mkdobj (q_items (snd s)) (q_list (snd s)) (q_list (snd s)) (q_list (snd s)))).
  (** [SortedDict(key, a)]: an empty dict, then [__init__] (sorteddict.py:97-170). *)
  Definition q_construct (a : darg A B) : M H (dobj A B) := fun s =>
    match (qd_attach ;;; qd_update a) (fst s, mkdobj [] 0 0 0) with
    | (Ok _, (h, o)) => (Ok o, (h, snd s))
    | (Err e, (h, _)) => (Err e, (h, snd s))
    end.

  (** sorteddict.py:279-305, 520-528: [__or__], [__ror__], [copy], [__reduce__] *)
  Definition qd_or (other : list (A * B)) : M H (dobj A B) := l <- qd_items ;; q_construct (APairs (l ++ other)).
  Definition qd_ror (other : list (A * B)) : M H (dobj A B) := l <- qd_items ;; q_construct (APairs (other ++ l)).
  Definition qd_copy : M H (dobj A B) := l <- qd_items ;; q_construct (APairs l).
  Definition qd_reduce (insertion : bool) : M H (dobj A B) :=
    d <- q_dict ;; l <- (if insertion then ret d else qd_items) ;; q_construct (ADict l).

  (** sorteddict.py:360-485: [pop], [popitem], [peekitem], [setdefault] *)
  Definition qd_pop (k : A) (default : option B) : M H B :=
    d <- q_dict ;;
    if d_mem eqb k d then
      q_call (l_remove T k) ;;; v <- qd_getitem k ;; q_delitem k ;;; ret v
    else match default with Some v => ret v | None => raise KeyError end.
  Definition qd_popitem (i : Z) : M H (A * B) :=
    d <- q_dict ;;
    if length d =? 0 then raise KeyError
    else k <- q_call (l_pop T i) ;; v <- qd_getitem k ;; q_delitem k ;;; ret (k, v).
  Definition qd_peekitem (i : Z) : M H (A * B) := k <- q_on (l_get T i) ;; v <- qd_getitem k ;; ret (k, v).
  Definition qd_setdefault (k : A) (default : B) : M H B :=
    d <- q_dict ;;
    if d_mem eqb k d then qd_getitem k
    else q_put (d_set eqb k default d) ;;; q_call (l_add T k) ;;; ret default.

  (** The views (sorteddict.py:558-746) reach through [self._mapping._list]. *)
  Definition qkv_get (i : Z) : M H A := q_on (l_get T i).
  Definition qkv_slice (sl : slice) : M H (list A) := q_on (l_slice T sl).
  Definition qiv_get (i : Z) : M H (A * B) := k <- q_on (l_get T i) ;; v <- qd_getitem k ;; ret (k, v).
  Definition qiv_slice (sl : slice) : M H (list (A * B)) :=
    ks <- q_on (l_slice T sl) ;; mapM (fun k => v <- qd_getitem k ;; ret (k, v)) ks.
  Definition qvv_get (i : Z) : M H B := k <- q_on (l_get T i) ;; qd_getitem k.
  Definition qvv_slice (sl : slice) : M H (list B) := ks <- q_on (l_slice T sl) ;; mapM qd_getitem ks.
  Definition qview_del (i : Z) : M H unit := k <- q_on (l_pop T i) ;; q_delitem k.
  Definition qview_del_slice (sl : slice) : M H unit :=
    ks <- q_on (l_slice T sl) ;; q_on (l_del_slice T sl) ;;; forM q_delitem ks.
  Definition qview_reversed {X} (at_ : Z -> M H X) : M H (list X) :=
    n <- qd_len ;; mapM (fun i => at_ (Z.of_nat i)) (rev (seq 0 n)).
  Definition qiv_contains (k : A) (v : B) : M H bool :=
    d <- q_dict ;; ret (match d_get eqb k d with Ok w => veqb w v | Err _ => false end).
  Definition qvv_contains (v : B) : M H bool := l <- qd_values ;; ret (existsb (fun w => veqb w v) l).
  Definition qd_eq (other : list (A * B)) : M H bool := d <- q_dict ;; ret (d_equal eqb veqb d other).
  (** The exposed methods (sorteddict.py:156-168). *)
  Definition qd_fwd (f : fwd A K) (s : H) : out A * H := qcall (q_exposed (snd s)) (l_fwd T f) (@RExn A) s.

  (** One operation: the result, and the new SortedDict if it makes one. *)
  Definition qmade (m : M H (dobj A B)) (s : H) : (dout A B * option (dobj A B)) * H :=
    match m s with
    | (Ok o, s') => ((ONone, Some o), s')
    | (Err e, s') => ((OExn e, None), s')
    end.
  Definition qsee {X} (inj : X -> dout A B) (m : M H X) (s : H) : (dout A B * option (dobj A B)) * H :=
    match m s with (Ok x, s') => ((inj x, None), s') | (Err e, s') => ((OExn e, None), s') end.
  Definition qd_do (o : dop A B K) (s : H) : (dout A B * option (dobj A B)) * H :=
    match o with
    | DSet k v => qsee (@onone A B) (qd_setitem k v) s
    | DDel k => qsee (@onone A B) (qd_delitem k) s
    | DGetItem k => qsee OVal (qd_getitem k) s
    | DGet k v => qsee OVal (qd_get k v) s
    | DContains k => qsee OBool (qd_contains k) s
    | DLen => qsee ONat qd_len s
    | DIter => qsee OKeys qd_iter s
    | DReversed => qsee OKeys qd_reversed s
    | DClear => qsee (@onone A B) qd_clear s
    | DPop k v => qsee OVal (qd_pop k v) s
    | DPopItem i => qsee OItem (qd_popitem i) s
    | DPeekItem i => qsee OItem (qd_peekitem i) s
    | DSetDefault k v => qsee OVal (qd_setdefault k v) s
    | DUpdate a => qsee (@onone A B) (qd_update a) s
    | DIOr a => qsee (@onone A B) (qd_update a) s
    | DOr o => qmade (qd_or o) s
    | DROr o => qmade (qd_ror o) s
    | DCopy => qmade qd_copy s
    | DReduce b => qmade (qd_reduce b) s
    | DItems => qsee OItems qd_items s
    | DValues => qsee OVals qd_values s
    | DItemsReversed => qsee OItems (qview_reversed qiv_get) s
    | DValuesReversed => qsee OVals (qview_reversed qvv_get) s
    | DKeysReversed => qsee OKeys (qview_reversed qkv_get) s
    | DItemIn k v => qsee OBool (qiv_contains k v) s
    | DValueIn v => qsee OBool (qvv_contains v) s
    | DKeyAt i => qsee OKey (qkv_get i) s
    | DItemAt i => qsee OItem (qiv_get i) s
    | DValueAt i => qsee OVal (qvv_get i) s
    | DKeySlice sl => qsee OKeys (qkv_slice sl) s
    | DItemSlice sl => qsee OItems (qiv_slice sl) s
    | DValueSlice sl => qsee OVals (qvv_slice sl) s
    | DViewDel i => qsee (@onone A B) (qview_del i) s
    | DViewDelSlice sl => qsee (@onone A B) (qview_del_slice sl) s
    | DEq o => qsee OBool (qd_eq o) s
    | DFwd f => let (r, s') := qd_fwd f s in ((OFwd r, None), s')
    end.
End DictObjects.

(** ** Programs *)

(** An argument: pairs written out, a dict of the program, a SortedDict of the program. *)
Inductive qarg (A B : Type) : Type := QLit (ps : list (A * B)) | QMine (u : nat) | QObj (i : nat).
Arguments QLit {A B}. Arguments QMine {A B}. Arguments QObj {A B}.

Inductive qop (A B K : Type) : Type :=
| QDict (a : qarg A B)                               (** [d = dict(a)] *)
| QDictSet (u : nat) (k : A) (v : B)                 (** [d[k] = v] *)
| QDictPop (u : nat) (k : A)                         (** [d.pop(k, None)] *)
| QDictLook (u : nat)                                (** [list(d.items())] *)
| QNew (a : qarg A B)                                (** [SortedDict(key, a)] *)
| QInit (i : nat) (a : qarg A B)                     (** [sd.__init__(key, a)] once more *)
| QOp (i : nat) (o : dop A B K)                      (** any method, arguments written out *)
| QUpdate (i : nat) (a : qarg A B)                   (** [sd.update(a)], [sd |= a] *)
| QOr (i : nat) (a : qarg A B)                       (** [sd | a] *)
| QROr (i : nat) (a : qarg A B)                      (** [a | sd] *)
| QEq (i : nat) (a : qarg A B)                       (** [sd == a] *)
| QView (i : nat)                                    (** keep [sd.keys()], [sd.items()] or [sd.values()] *)
| QViewOp (n : nat) (o : dop A B K).                 (** any method of a view kept *)
Arguments QDict {A B K}. Arguments QDictSet {A B K}. Arguments QDictPop {A B K}. Arguments QDictLook {A B K}.
Arguments QNew {A B K}. Arguments QInit {A B K}. Arguments QOp {A B K}. Arguments QUpdate {A B K}. Arguments QOr {A B K}.
Arguments QROr {A B K}. Arguments QEq {A B K}. Arguments QView {A B K}. Arguments QViewOp {A B K}.

(** The list objects, the SortedDicts, the dicts of the program (a dict object is the cell holding it, so a SortedDict
    and a dict never share one: every method copies items), the views ([_mapping]: which SortedDict). *)
Record qworld (S A B : Type) : Type :=
  mkqworld { w_lists : list S; w_dicts : list (dobj A B); w_mine : list (list (A * B)); w_views : list nat }.
Arguments mkqworld {S A B}.

Section DictProgram.
  Context {S A B K : Type}.
  Variable T : listcls S A K.
  Variable eqb : A -> A -> bool.
  Variable veqb : B -> B -> bool.
  Notation W := (qworld S A B).

  (** Run a method on the [i]-th SortedDict. *)
  Definition q_with {X} (i : nat) (m : list S * dobj A B -> X * (list S * dobj A B)) (dfl : exn -> X) (w : W) : X * W :=
    match getn (w_dicts w) i with
    | Ok o =>
        let '(a, (h, o')) := m (w_lists w, o) in
        match setn (w_dicts w) i o' with
        | Ok objs => (a, mkqworld h objs (w_mine w) (w_views w))
        | Err e => (dfl e, w)
        end
    | Err e => (dfl e, w)
    end.
  (** The items an argument is iterated as: those of a SortedDict in key order ([keys()] and then
      [__getitem__], or [items()]).  Simplified: they are all read before the operation changes anything, which makes a
      difference only where a SortedDict has lost track of its keys, after comparisons that raised. *)
  Definition q_eval (a : qarg A B) : M W (darg A B) := fun w =>
    match a with
    | QLit ps => (Ok (APairs ps), w)
    | QMine u => (let! d := getn (w_mine w) u in Ok (ADict d), w)
    | QObj i => q_with i (l <- qd_items T eqb ;; ret (ADict l)) (@Err _) w
    end.
  (** The other side of [dict.__eq__]: the items of the dict itself. *)
  Definition q_operand (a : qarg A B) : M W (list (A * B)) := fun w =>
    match a with
    | QLit ps => (Ok (d_of eqb ps), w)
    | QMine u => (getn (w_mine w) u, w)
    | QObj i => q_with i (@q_dict S A B) (@Err _) w
    end.
  Definition q_add (o : option (dobj A B)) (w : W) : W :=
    match o with Some o => mkqworld (w_lists w) (w_dicts w ++ [o]) (w_mine w) (w_views w) | None => w end.
  Definition q_do (i : nat) (o : dop A B K) (w : W) : dout A B * W :=
    let '((r, new), w') := q_with i (qd_do T eqb veqb o) (fun e => (OExn e, None)) w in (r, q_add new w').
  Definition q_then {X} (m : M W X) (k : X -> W -> dout A B * W) (w : W) : dout A B * W :=
    match m w with (Ok a, w') => k a w' | (Err e, w') => (OExn e, w') end.
  Definition q_own (u : nat) (f : list (A * B) -> list (A * B)) (w : W) : dout A B * W :=
    match (let! d := getn (w_mine w) u in setn (w_mine w) u (f d)) with
    | Ok m => (ONone, mkqworld (w_lists w) (w_dicts w) m (w_views w))
    | Err e => (OExn e, w)
    end.

  Definition q_step (o : qop A B K) : W -> dout A B * W :=
    match o with
    | QDict a => q_then (q_eval a) (fun x w =>
        (ONone, mkqworld (w_lists w) (w_dicts w) (w_mine w ++ [d_of eqb (pairs_of x)]) (w_views w)))
    | QDictSet u k v => q_own u (d_set eqb k v)
    | QDictPop u k => q_own u (d_del eqb k)
    | QDictLook u => q_then (q_eval (QMine u)) (fun x w => (OItems (pairs_of x), w))
    | QNew a => q_then (q_eval a) (fun x w =>
        let '(r, (h, _)) := q_construct T eqb x (w_lists w, mkdobj [] 0 0 0) in
        let w' := mkqworld h (w_dicts w) (w_mine w) (w_views w) in
        match r with Ok o => (ONone, q_add (Some o) w') | Err e => (OExn e, w') end)
    | QInit i a =>
        (* the argument is read by [_update], when [_list] is new already *)
        q_then (q_with i (qd_attach T) (@Err _)) (fun _ => q_then (q_eval a) (fun x => q_do i (DUpdate x)))
    | QOp i o => q_do i o
    | QUpdate i a => q_then (q_eval a) (fun x => q_do i (DUpdate x))
    | QOr i a => q_then (q_eval a) (fun x => q_do i (DOr (pairs_of x)))
    | QROr i a => q_then (q_eval a) (fun x => q_do i (DROr (pairs_of x)))
    | QEq i a => q_then (q_operand a) (fun x => q_do i (DEq x))
    | QView i => fun w =>
        match getn (w_dicts w) i with
        | Ok _ => (ONone, mkqworld (w_lists w) (w_dicts w) (w_mine w) (w_views w ++ [i]))
        | Err e => (OExn e, w)
        end
    | QViewOp n o => fun w => match getn (w_views w) n with Ok i => q_do i o w | Err e => (OExn e, w) end
    end.
  Definition q_run := run q_step.
  Definition q_init : W := mkqworld [] [] [] [].
End DictProgram.

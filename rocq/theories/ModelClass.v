(** * Which class a constructor makes, and the class and key function of what methods return

    The four classes and subclasses of them that override nothing, with their key functions as attributes.  [SortedList(iterable, key)]
    decides in [__new__] which class to make; SortedSet and SortedDict have a list made in this way, and call its methods, whichever
    class it has.  In ListClass.v this decision is taken beforehand. *)
From Coq Require Import String.
From Verif Require Import PyBase Model History ListClass ModelSet ModelDict.
Local Set Implicit Arguments.

(** A subclass of [SortedList] that is not one of [SortedKeyList], or one of [SortedKeyList] ([c_keyed]); the class itself
    ([c_user = None]) or one that the user has derived from it. *)
Record lclass : Set := mklclass { c_keyed : bool; c_user : option nat }.
Definition SortedList_ : lclass := mklclass false None.
Definition SortedKeyList_ : lclass := mklclass true None.

(** An argument [key], which may be left out, or be [None], or a function. *)
Inductive given (F : Type) : Type := Omitted | Given (k : option F).
Arguments Omitted {F}. Arguments Given {F}.

Section Classes.
  Context {V K B F : Type}.
  Variables lt eq : V -> V -> res bool.
  Variables klt keq : K -> K -> res bool.
  (** Calling a key function; the function [identity] (sortedlist.py 1589-1591). *)
  Variable den : F -> V -> res K.
  Variable ident : F.
  Variable dflt : nat.
  (** Equality of hashable values, order in which sets are iterated, equality of the values of dicts. *)
  Variable eqb : V -> V -> bool.
  Variable ord : nat -> list V -> list V.
  Variable veqb : B -> B -> bool.

  (** ** Lists *)

  (** The attributes of a SortedList; those of a SortedKeyList, with [_key]; a SortedKeyList whose [_key] is [None], which can only be
      empty (only its making is modelled). *)
  Inductive lstate : Type := LPlain (s : core V V) | LKeyed (f : F) (s : skl V K) | LNone.
  Record lobj : Type := mklobj { o_class : lclass; o_state : lstate }.

  (** [SortedList.__new__] (sortedlist.py 118-145), [SortedKeyList.__new__] (sortedlist.py 1656-1657): the class of the new object. *)
  Definition new_ (cls : lclass) (key : given F) : res lclass :=
    if c_keyed cls then Ok cls
    else match key with
         | Omitted | Given None => Ok cls
         | Given (Some _) => match c_user cls with
                             | None => Ok SortedKeyList_
                             | Some _ => Err TypeError
                             end
         end.
  (** [SortedKeyList.update] of a new object whose [_key] is [None] (sortedlist.py 1756-1790): [sorted(iterable, key=None)], then
      [map(None, ...)], which raises when there is something to map. *)
  Definition none_update (l : list V) : res lstate :=
    let! vs := py_sorted lt l in
    match vs with [] => Ok LNone | _ => Err TypeError end.
  (** [__init__] of the new object's class (sortedlist.py 89-116, 1620-1654). *)
  Definition init_ (cls : lclass) (iterable : option (list V)) (key : given F) : res lstate :=
    let l := match iterable with Some l => l | None => [] end in
    if c_keyed cls then
      match key with
      | Omitted => let! s := skl_new klt (den ident) dflt l in Ok (LKeyed ident s)
      | Given (Some f) => let! s := skl_new klt (den f) dflt l in Ok (LKeyed f s)
      | Given None => none_update l
      end
    else
      match key with
      | Given (Some _) => Err AssertionError
      | _ => let! s := sl_new lt dflt l in Ok (LPlain s)
      end.
  (** [cls(iterable, key)]: [__new__], then [__init__], as what [__new__] makes is always an instance of [cls]. *)
  Definition construct (cls : lclass) (iterable : option (list V)) (key : given F) : res lobj :=
    let! c := new_ cls key in
    let! s := init_ c iterable key in
    Ok (mklobj c s).

  (** The property [key] (sortedlist.py 147-154, 1659-1662). *)
  Definition key_of (s : lstate) : option F := match s with LKeyed f _ => Some f | _ => None end.

  (** A method that both classes have, called on an object. *)
  Definition virtual {A} (p : M (core V V) A) (q : F -> M (skl V K) A) : M lobj A := fun o =>
    match o_state o with
    | LPlain s => let (r, s) := p s in (r, mklobj (o_class o) (LPlain s))
    | LKeyed f s => let (r, s) := q f s in (r, mklobj (o_class o) (LKeyed f s))
    | LNone => (Err TypeError, o)
    end.
  (** An operation of History.v that does not make a new list; [irange_key] and [bisect_key_*] are methods of SortedKeyList only. *)
  Definition l_do (op : kop V K) (o : lobj) : out V * lobj :=
    match o_state o with
    | LPlain s =>
        match op with
        | KList op => let (r, s) := sl_step lt eq dflt op s in (r, mklobj (o_class o) (LPlain s))
        | _ => (RExn AttributeError, o)
        end
    | LKeyed f s => let (r, s) := skl_step lt eq klt keq (den f) dflt op s in (r, mklobj (o_class o) (LKeyed f s))
    | LNone => (RExn TypeError, o)
    end.
  (** The arguments after the values with which the methods call [self.__class__] (SortedList: sortedlist.py 1189-1197, 1366-1386,
      1411-1427, 1500-1502; SortedKeyList: 2290-2298, 2386-2432). *)
  Definition same_key (s : lstate) : given F :=
    match s with LPlain _ => Omitted | LKeyed f _ => Given (Some f) | LNone => Given None end.
  Definition values_of (s : lstate) : list V :=
    match s with LPlain s => contents s | LKeyed _ s => contents (kc s) | LNone => [] end.
  Definition again (o : lobj) (values : list V) : res lobj := construct (o_class o) (Some values) (same_key (o_state o)).
  (** [copy], [+], [*], and unpickling what [__reduce__] gives. *)
  Definition l_makes (op : kop V K) : bool := match op with KList (LCopy | LPlus _ | LMul _ | LReduce) => true | _ => false end.
  Definition l_make (op : kop V K) (o : lobj) : res lobj :=
    match op with
    | KList (LPlus l) => again o (values_of (o_state o) ++ l)
    | KList (LMul n) => again o (list_mul (values_of (o_state o)) n)
    | _ => again o (values_of (o_state o))
    end.

  (** ** The list inside a SortedSet or SortedDict *)

  (** [SortedList(iterable, key=key)] (sortedset.py 128, sorteddict.py 141) and the methods called on it.  The key variants of the
      exposed methods are exposed if [key] is not [None] (sortedset.py 150-154, sorteddict.py 164-168). *)
  Definition inner (key : option F) : listcls lobj V K :=
    {| l_new l := construct SortedList_ (Some l) (Given key);
       l_add v := virtual (sl_add lt v) (fun f => skl_add klt (den f) v);
       l_clear := virtual sl_clear (fun _ => skl_clear);
       l_update l := virtual (sl_update lt l) (fun f => skl_update klt (den f) l);
       l_remove v := virtual (sl_remove lt eq v) (fun f => skl_remove eq klt keq (den f) v);
       l_pop i := virtual (pop (sl_vt lt) i) (fun f => pop (skl_vt klt (den f)) i);
       l_get i := virtual (getitem_int i) (fun f => oncore (skl_vt klt (den f)) (getitem_int i));
       l_slice sl := virtual (getitem_slice sl) (fun f => oncore (skl_vt klt (den f)) (getitem_slice sl));
       l_del i := virtual (delitem_int (sl_vt lt) i) (fun f => delitem_int (skl_vt klt (den f)) i);
       l_del_slice sl := virtual (delitem_slice (sl_vt lt) sl) (fun f => delitem_slice (skl_vt klt (den f)) sl);
       l_iter := virtual iter (fun f => oncore (skl_vt klt (den f)) iter);
       l_reversed := virtual reversed (fun f => oncore (skl_vt klt (den f)) reversed);
       l_len := virtual length_of (fun f => oncore (skl_vt klt (den f)) length_of);
       l_check o := match o_state o with
                    | LPlain s => sl_check lt eq s
                    | LKeyed f s => skl_check klt keq (den f) s
                    | LNone => Err TypeError
                    end;
       l_fwd g o := match key, fwd_op g with
                    | None, (KBisectLeft _ | KBisectRight _ | KIRange _ _ _ _ _) => (RExn AttributeError, o)
                    | _, op => l_do op o
                    end |}.

  (** ** SortedSet *)

  (** The class ([None]: SortedSet itself), the attribute [_key], and the rest. *)
  Record sobj : Type := mksobj { so_user : option nat; so_key : option F; so_set : sset lobj V }.
  (** [cls(iterable, key)] (sortedset.py 97-157). *)
  Definition set_new (cls : option nat) (iterable : option (arg (V:=V))) (key : given F) (tick : nat) : res sobj :=
    let k := match key with Omitted => None | Given k => k end in
    let! s := ss_new (inner k) eqb ord tick iterable in
    Ok (mksobj cls k s).
  Definition set_makes_new (o : sop V K) : bool :=
    match o with SUnion _ | SDifference _ | SIntersection _ | SSymmetricDifference _ | SCopy | SReduce => true | _ => false end.
  (** The methods that make a new set: [self.__class__(..., key=self._key)] (sortedset.py 624), [self._fromset(..., key=self._key)]
      (sortedset.py 159-169, 359, 471, 525, 576), [type(self)] called with the set and [self._key] (sortedset.py 669). *)
  Definition set_make (o : sop V K) (x : sobj) : res sobj :=
    let cls := so_user x in
    let T := inner (so_key x) in
    let from r := let! s := fst (r (so_set x)) in Ok (mksobj cls (so_key x) s) in
    match o with
    | SUnion its =>
        let! l := fst (onlist (l_iter T) (so_set x)) in
        set_new cls (Some (AIter (l ++ List.concat (map (@items V) its)))) (Given (so_key x)) (s_tick (so_set x))
    | SReduce => set_new cls (Some (ASet (ord (s_tick (so_set x)) (s_set (so_set x))))) (Given (so_key x)) (s_tick (so_set x) + 1)
    | SDifference its => from (ss_difference T eqb ord its)
    | SIntersection its => from (ss_intersection T eqb ord its)
    | SSymmetricDifference it => from (ss_symmetric_difference T eqb ord it)
    | _ => from (ss_copy T ord)
    end.
  Definition set_act (o : sop V K) (x : sobj) : out V * sobj :=
    let (r, s) := ss_step (inner (so_key x)) eqb ord o (so_set x) in (r, mksobj (so_user x) (so_key x) s).

  (** ** SortedDict *)

  (** A positional argument: [None]; a function; a mapping or iterable of pairs; a mapping or iterable that can be called. *)
  Inductive parg : Type := PNone | PFun (f : F) | PData (a : darg V B) | PBoth (f : F) (a : darg V B).
  Record dobj : Type := mkdobj { do_user : option nat; do_key : option F; do_dict : sdict lobj V B }.
  (** sorteddict.py 133-139. *)
  Definition take_key (args : list parg) : option F * list parg :=
    match args with
    | PNone :: t => (None, t)
    | PFun f :: t | PBoth f _ :: t => (Some f, t)
    | _ => (None, args)
    end.
  (** [self._update( *args, **kwargs)] of an empty dict: [dict.update] takes at most one positional argument and iterates over it. *)
  Definition update_arg (args : list parg) (kwargs : list (V * B)) : res (darg V B) :=
    match args with
    | [] => Ok (APairs kwargs)
    | [PData a] | [PBoth _ a] => Ok (match kwargs with [] => a | _ => APairs (pairs_of a ++ kwargs) end)
    | _ => Err TypeError
    end.
  (** [cls( *args, **kwargs)] (sorteddict.py 97-170). *)
  Definition dict_new (cls : option nat) (args : list parg) (kwargs : list (V * B)) : res dobj :=
    let (k, args) := take_key args in
    let! a := update_arg args kwargs in
    let! s := sd_new (inner k) eqb a in
    Ok (mkdobj cls k s).
  (** [cls.fromkeys(iterable, value)] (sorteddict.py 307-319). *)
  Definition dict_fromkeys (cls : option nat) (l : list V) (v : B) : res dobj := dict_new cls [PData (APairs (map (fun k => (k, v)) l))] [].
  Definition dict_makes_new (o : dop V B K) : bool := match o with DOr _ | DROr _ | DCopy | DReduce _ => true | _ => false end.
  Definition key_arg (k : option F) : parg := match k with Some f => PFun f | None => PNone end.
  (** The methods that make a new dict: [self.__class__(self._key, ...)] (sorteddict.py 279-305, 520-528). *)
  Definition dict_make (o : dop V B K) (x : dobj) : res dobj :=
    let! l := fst (sd_items (inner (do_key x)) eqb (do_dict x)) in
    let from a := dict_new (do_user x) [key_arg (do_key x); PData a] [] in
    match o with
    | DOr other => from (APairs (l ++ other))
    | DROr other => from (APairs (other ++ l))
    | DReduce true => from (ADict (d_items (do_dict x)))
    | DReduce false => from (ADict l)
    | _ => from (APairs l)
    end.
  Definition dict_act (o : dop V B K) (x : dobj) : dout V B * dobj :=
    let (r, s) := sd_step (inner (do_key x)) eqb veqb o (do_dict x) in (r, mkdobj (do_user x) (do_key x) s).

  (** ** Text *)

  (** [repr] of values, of the values of dicts, of key functions, and [__name__] of classes: 0 SortedList, 1 SortedKeyList, 2 SortedSet,
      3 SortedDict, and subclasses of these. *)
  Variable vtext : V -> res string.
  Variable btext : B -> res string.
  Variable ftext : F -> res string.
  Variable user_name : nat -> string.
  Local Open Scope string_scope.

  (** [', '.join(...)], [repr] of a list. *)
  Definition list_text (l : list V) : res string := let! ts := mapR vtext l in Ok ("[" ++ String.concat ", " ts ++ "]").
  Definition named (std : string) (user : option nat) : string := match user with Some n => user_name n | None => std end.
  (** [SortedList.__repr__], [SortedKeyList.__repr__] (sortedlist.py 1504-1513, 2434-2444).  The decorator [recursive_repr] matters only for
      objects that contain themselves. *)
  Definition l_repr (o : lobj) : res string :=
    match o_state o with
    | LPlain s => let! t := list_text (contents s) in Ok (named "SortedList" (c_user (o_class o)) ++ "(" ++ t ++ ")")
    | LKeyed f s =>
        let! t := list_text (contents (kc s)) in
        let! k := ftext f in
        Ok (named "SortedKeyList" (c_user (o_class o)) ++ "(" ++ t ++ ", key=" ++ k ++ ")")
    | LNone => Ok (named "SortedKeyList" (c_user (o_class o)) ++ "([], key=None)")
    end.
  (** [SortedSet.__repr__] (sortedset.py 671-683). *)
  Definition set_repr (x : sobj) : res string :=
    let! key := match so_key x with None => Ok "" | Some f => let! k := ftext f in Ok (", key=" ++ k) end in
    let! l := fst (onlist (l_iter (inner (so_key x))) (so_set x)) in
    let! t := list_text l in
    Ok (named "SortedSet" (so_user x) ++ "(" ++ t ++ key ++ ")").
  (** [SortedDict.__repr__] (sorteddict.py 530-544). *)
  Definition dict_repr (x : dobj) : res string :=
    let! key_arg := match do_key x with None => Ok "" | Some f => let! k := ftext f in Ok (k ++ ", ") end in
    let! ks := fst (l_iter (inner (do_key x)) (d_list (do_dict x))) in
    let! ts := mapR (fun k =>
      let! v := d_get eqb k (d_items (do_dict x)) in
      let! s := vtext k in let! t := btext v in Ok (s ++ ": " ++ t)) ks in
    Ok (named "SortedDict" (do_user x) ++ "(" ++ key_arg ++ "{" ++ String.concat ", " ts ++ "})").

  (** ** A program *)
  Inductive pobj : Type := PL (o : lobj) | PS (x : sobj) | PD (x : dobj).
  Inductive pclass : Type := PList (c : lclass) | PSet (user : option nat) | PDict (user : option nat).
  Definition type_of (x : pobj) : pclass := match x with PL o => PList (o_class o) | PS x => PSet (so_user x) | PD x => PDict (do_user x) end.
  (** The properties [key] (also sortedset.py 171-178, sorteddict.py 172-179). *)
  Definition key_attr (x : pobj) : option F := match x with PL o => key_of (o_state o) | PS x => so_key x | PD x => do_key x end.
  Definition repr_of (x : pobj) : res string := match x with PL o => l_repr o | PS x => set_repr x | PD x => dict_repr x end.

  (** Objects are numbered in the order in which they are made. *)
  Inductive pcall : Type :=
  | CList (cls : lclass) (iterable : option (list V)) (key : given F)
  | CSet (cls : option nat) (iterable : option (arg (V:=V))) (key : given F) (tick : nat)
  | CDict (cls : option nat) (args : list parg) (kwargs : list (V * B))
  | CFromKeys (cls : option nat) (l : list V) (v : B).
  Inductive pop_ : Type :=
  | PCall (c : pcall)               (** one more object *)
  | PType (i : nat) | PKey (i : nat) | PRepr (i : nat)
  | PListOp (i : nat) (o : kop V K) (** a method of the [i]-th object; if it makes a new object, this is one more *)
  | PSetOp (i : nat) (o : sop V K)
  | PDictOp (i : nat) (o : dop V B K).
  Inductive pout : Type :=
  | UMade | UType (c : pclass) | UKey (k : option F) | UText (t : string) | UOut (r : out V) | UDict (r : dout V B) | UExn (e : exn)
  | UOther. (** nothing is called: the operation is one of another class (operations of lists, sets and dicts are told apart) *)

  Definition call (c : pcall) : res pobj :=
    match c with
    | CList cls l k => let! o := construct cls l k in Ok (PL o)
    | CSet cls l k t => let! x := set_new cls l k t in Ok (PS x)
    | CDict cls a kw => let! x := dict_new cls a kw in Ok (PD x)
    | CFromKeys cls l v => let! x := dict_fromkeys cls l v in Ok (PD x)
    end.
  Fixpoint put_obj (i : nat) (x : pobj) (w : list pobj) : list pobj :=
    match w, i with
    | [], _ => []
    | _ :: t, O => x :: t
    | y :: t, Datatypes.S i => y :: put_obj i x t
    end.
  Definition push (r : res pobj) (w : list pobj) : pout * list pobj :=
    match r with Ok x => (UMade, (w ++ [x])%list) | Err e => (UExn e, w) end.
  Definition prog_step (o : pop_) (w : list pobj) : pout * list pobj :=
    let at_ i (f : pobj -> pout * list pobj) := match getn w i with Ok x => f x | Err e => (UExn e, w) end in
    match o with
    | PCall c => push (call c) w
    | PType i => at_ i (fun x => (UType (type_of x), w))
    | PKey i => at_ i (fun x => (UKey (key_attr x), w))
    | PRepr i => at_ i (fun x => (match repr_of x with Ok t => UText t | Err e => UExn e end, w))
    | PListOp i o => at_ i (fun x =>
        match x with
        | PL x => if l_makes o then push (let! y := l_make o x in Ok (PL y)) w
                  else let (r, x) := l_do o x in (UOut r, put_obj i (PL x) w)
        | _ => (UOther, w)
        end)
    | PSetOp i o => at_ i (fun x =>
        match x with
        | PS x => if set_makes_new o then push (let! y := set_make o x in Ok (PS y)) w
                  else let (r, x) := set_act o x in (UOut r, put_obj i (PS x) w)
        | _ => (UOther, w)
        end)
    | PDictOp i o => at_ i (fun x =>
        match x with
        | PD x => if dict_makes_new o then push (let! y := dict_make o x in Ok (PD y)) w
                  else let (r, x) := dict_act o x in (UDict r, put_obj i (PD x) w)
        | _ => (UOther, w)
        end)
    end.
  Definition prog_run := run prog_step.
End Classes.

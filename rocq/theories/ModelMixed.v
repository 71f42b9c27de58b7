(** * Programs that hold SortedLists and SortedKeyLists

    The objects of such a program, and the lists it owns, live on one heap of Python lists. *)
From Verif Require Import PyBase Model History ModelHeap ModelKHeap.
Local Set Implicit Arguments.

(** A SortedList, or a SortedKeyList with its key function: [None] is [identity] (sortedlist.py 1589-1591), [Some k] a function of the
    program.  Simplified: the functions of the program have numbers. *)
Inductive mobj (V : Type) : Type := OList (o : hsl V) | OKey (k : option nat) (o : khsl V).

(** The reflected comparison: [a < b] may be asked of [b] as [b > a]. *)
Definition cmp_flip (op : cmpop) : cmpop :=
  match op with Ceq => Ceq | Cne => Cne | Clt => Cgt | Cgt => Clt | Cle => Cge | Cge => Cle end.

Section MixedObj.
  Context {V : Type}.
  Variables lt eq : V -> V -> res bool.
  (** The key functions of the program. *)
  Variable kfn : nat -> V -> res V.
  Variable dflt : nat.
  Notation ST := (heap V * mobj V)%type.

  Definition keyof (k : option nat) (v : V) : res V := match k with None => Ok v | Some n => kfn n v end.

  (** A method call: the class of the object decides. *)
  Definition m_do {A} (p : heap V * hsl V -> A * (heap V * hsl V)) (q : option nat -> heap V * khsl V -> A * (heap V * khsl V)) (s : ST) : A * ST :=
    match snd s with
    | OList o => let '(r, (h, o)) := p (fst s, o) in (r, (h, OList o))
    | OKey k o => let '(r, (h, o)) := q k (fst s, o) in (r, (h, OKey k o))
    end.

  (** Methods that take no iterable and give back no list or object.  SortedList has no [bisect_key_left], [bisect_key_right] and
      [irange_key]. *)
  Definition m_step (o : kop V V) : ST -> out V * ST :=
    m_do (match o with KList o => h_step lt eq o | _ => observe (@RNat V) (raise AttributeError) end)
         (fun k => k_step lt eq (keyof k) o).
  Definition m_update (a : harg) : ST -> out V * ST :=
    m_do (observe runit (h_update lt a)) (fun k => observe runit (k_update lt (keyof k) a)).
  (** [SortedList.__make_cmp] (sortedlist.py 1452-1482), inherited by SortedKeyList. *)
  Definition m_compare (op : cmpop) (other : list V) : ST -> out V * ST :=
    m_do (observe (@RBool V) (reading (compare lt eq op other)))
         (fun _ => observe (@RBool V) (onbase (reading (compare lt eq op other)))).
  Definition m_slice (sl : slice) : ST -> res ref * ST := m_do (h_getitem_slice sl) (fun _ => k_getitem_slice sl).

  Definition as_list {S} (m : M S (hsl V)) : M S (mobj V) := o <- m ;; ret (OList o).
  Definition as_key {S} (k : option nat) (m : M S (khsl V)) : M S (mobj V) := o <- m ;; ret (OKey k o).
  Definition m_copy : ST -> res (mobj V) * ST :=
    m_do (as_list (h_copy lt dflt)) (fun k => as_key k (k_copy lt (keyof k) dflt)).
  Definition m_plus (a : harg) : ST -> res (mobj V) * ST :=
    m_do (as_list (h_plus lt dflt a)) (fun k => as_key k (k_plus lt (keyof k) dflt a)).
  Definition m_mul (n : Z) : ST -> res (mobj V) * ST :=
    m_do (as_list (h_mul lt dflt n)) (fun k => as_key k (k_mul lt (keyof k) dflt n)).
  Definition m_reduce : ST -> res (mobj V) * ST :=
    m_do (as_list (h_reduce lt dflt)) (fun k => as_key k (k_reduce lt (keyof k) dflt)).
  (** [n * x]: [__rmul__] is [SortedList.__mul__] for both classes (sortedlist.py 1411-1429; SortedKeyList defines none), which calls
      [self.__class__(values)], for a SortedKeyList with [key=identity] (1620). *)
  Definition m_rmul (n : Z) : ST -> res (mobj V) * ST :=
    m_do (as_list (h_mul lt dflt n)) (fun _ => as_key None (k_mul lt (keyof None) dflt n)).
  (** Calls of the classes; [SortedList(a, key=f)] gives a SortedKeyList (sortedlist.py 118-145). *)
  Definition m_new (k : option (option nat)) (a : harg) (h : heap V) : res (mobj V) * heap V :=
    match k with
    | None => let (r, h) := h_new lt dflt a h in (let! o := r in Ok (OList o), h)
    | Some k => let (r, h) := k_new lt (keyof k) dflt a h in (let! o := r in Ok (OKey k o), h)
    end.
  (** The lists of [_lists], which iteration reads. *)
  Definition m_rows (o : mobj V) : list ref := match o with OList o => rows o | OKey _ o => rows (kbase o) end.
End MixedObj.

(** The heap, the objects of the program, the lists of the program. *)
Record mworld (V : Type) : Type := mkmworld { m_heap : heap V; m_objs : list (mobj V); m_user : list ref }.

Inductive mop (V : Type) : Type :=
| MW (o : wop V)                              (** as in ModelHeap.v; [WNew] makes a SortedList *)
| MNewKey (k : option nat) (a : warg)         (** a new SortedKeyList *)
| MKey (i : nat) (o : kop V V)                (** an operation without iterables, lists or new objects *)
| MRMul (i : nat) (n : Z).                    (** [n * x] *)
Arguments MNewKey {V}. Arguments MRMul {V}.

Section MixedWorld.
  Context {V : Type}.
  Variables lt eq : V -> V -> res bool.
  Variable kfn : nat -> V -> res V.
  Variable dflt : nat.
  Notation W := (mworld V).

  Definition m_arg (w : W) (a : warg) : res harg :=
    match a with
    | WUser i => let! r := getn (m_user w) i in Ok (HList r)
    | WObj j => let! o := getn (m_objs w) j in Ok (HRows (m_rows o))
    end.
  Fixpoint set_mobj (l : list (mobj V)) (i : nat) (o : mobj V) : list (mobj V) :=
    match l, i with
    | [], _ => []
    | _ :: t, O => o :: t
    | x :: t, S i => x :: set_mobj t i o
    end.
  Definition on_mobj {A} (i : nat) (m : heap V * mobj V -> A * (heap V * mobj V)) (bad : exn -> A) (w : W) : A * W :=
    match getn (m_objs w) i with
    | Err e => (bad e, w)
    | Ok o => let '(r, (h, o)) := m (m_heap w, o) in (r, mkmworld h (set_mobj (m_objs w) i o) (m_user w))
    end.
  Definition new_mobj (p : res (mobj V) * W) : out V * W :=
    match p with
    | (Ok o, w) => (RUnit, mkmworld (m_heap w) (m_objs w ++ [o]) (m_user w))
    | (Err e, w) => (RExn e, w)
    end.
  Definition with_marg (a : warg) (f : harg -> W -> out V * W) (w : W) : out V * W :=
    match m_arg w a with Ok x => f x w | Err e => (RExn e, w) end.
  (** SortedKeyList is a subclass of SortedList and has a [__radd__] of its own (sortedlist.py 1594, 2409), so the right operand
      comes first if it is a SortedKeyList and the left one a SortedList; for comparisons no method of its own is needed. *)
  Definition right_first (w : W) (i : nat) (a : warg) : option nat :=
    match a with
    | WObj j => match getn (m_objs w) i, getn (m_objs w) j with Ok (OList _), Ok (OKey _ _) => Some j | _, _ => None end
    | WUser _ => None
    end.
  Definition m_binary (i : nat) (a : warg) (f : bool -> nat -> harg -> W -> out V * W) (w : W) : out V * W :=
    match right_first w i a with
    | Some j => with_marg (WObj i) (f true j) w
    | None => with_marg a (f false i) w
    end.

  Definition mnew (k : option (option nat)) (a : warg) : W -> out V * W :=
    with_marg a (fun x w => let (r, h) := m_new lt kfn dflt k x (m_heap w) in new_mobj (r, mkmworld h (m_objs w) (m_user w))).
  Definition mw_step (o : wop V) (w : W) : out V * W :=
    match o with
    | WList l => let (r, h) := alloc (m_heap w) l in (RUnit, mkmworld h (m_objs w) (m_user w ++ [r]))
    | WMutate i l =>
        match getn (m_user w) i with
        | Ok r => (RUnit, mkmworld (write (m_heap w) r l) (m_objs w) (m_user w))
        | Err e => (RExn e, w)
        end
    | WLook i =>
        match getn (m_user w) i with
        | Ok r => (RList (cell (m_heap w) r), w)
        | Err e => (RExn e, w)
        end
    | WNew a => mnew None a w
    | WOp i o => on_mobj i (m_step lt eq kfn (KList o)) (@RExn V) w
    | WUpdate i a | WIAdd i a => with_marg a (fun x => on_mobj i (m_update lt kfn x) (@RExn V)) w
    | WCompare i op a =>
        m_binary i a (fun swap j x w =>
          on_mobj j (m_compare lt eq (if swap then cmp_flip op else op) (elems (m_heap w) x)) (@RExn V) w) w
    | WSlice i sl =>
        match on_mobj i (m_slice sl) Err w with
        | (Ok r, w) => (RList (cell (m_heap w) r), mkmworld (m_heap w) (m_objs w) (m_user w ++ [r]))
        | (Err e, w) => (RExn e, w)
        end
    | WCopy i => new_mobj (on_mobj i (m_copy lt kfn dflt) Err w)
    | WPlus i a => m_binary i a (fun _ j x w => new_mobj (on_mobj j (m_plus lt kfn dflt x) Err w)) w
    | WMul i n => new_mobj (on_mobj i (m_mul lt kfn dflt n) Err w)
    | WReduce i => new_mobj (on_mobj i (m_reduce lt kfn dflt) Err w)
    end.
  Definition mop_step (o : mop V) (w : W) : out V * W :=
    match o with
    | MW o => mw_step o w
    | MNewKey k a => mnew (Some k) a w
    | MKey i o => on_mobj i (m_step lt eq kfn o) (@RExn V) w
    | MRMul i n => new_mobj (on_mobj i (m_rmul lt kfn dflt n) Err w)
    end.
  Definition mw_run := run mop_step.
  Definition mw_init : W := mkmworld [] [] [].
End MixedWorld.

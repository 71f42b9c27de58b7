(** * Comparison operators between objects of different classes

    Which method Python asks (Python data model, "rich comparison" methods), and what the methods of the library
    and of the built-in types answer to an operand of each class. *)
From Verif Require Import PyBase Model History ListClass ModelSet ModelDict ModelView ModelMixed.
Local Set Implicit Arguments.

Section Operands.
  Context {S V K : Type}.
  Variable T : listcls S V K.
  Variables lt eq : V -> V -> res bool.
  (** [==] of hashable values. *)
  Variable eqb : V -> V -> bool.
  (** Lexicographic comparison of two built-in lists, or of two tuples. *)
  Variable seq_cmp : cmpop -> list V -> list V -> bool.

  (** Operands.  SortedItemsView has pairs for elements and is left out; a dict has no comparison with any of these and is an
      [OOther] ([dict] with [dict]: [sd_eq] in ModelDict.v). *)
  Inductive operand : Type :=
  | OPyList (l : list V) | OPyTuple (l : list V)
  | OPySet (l : list V) | OFrozen (l : list V) | ODictKeys (l : list V)   (** members *)
  | OSorted (c : core V V) | OSortedKey (s : skl V K)
  | OSet (s : sset S V)
  | OKeys (d : sdict S V V) | OValues (d : sdict S V V)
  | OOther.

  (** The values an instance of [collections.abc.Sequence] yields.  [len(other)] is their number. *)
  Definition seq_of (x : operand) : option (res (list V)) :=
    match x with
    | OPyList l | OPyTuple l => Some (Ok l)
    | OSorted c => Some (fst (iter c))
    | OSortedKey s => Some (fst (iter (kc s)))
    | OSet s => Some (fst (ss_iter T s))
    | OKeys d => Some (fst (sd_iter T d))
    | OValues d => Some (fst (sd_values T eqb d))
    | _ => None
    end.
  (** The members of an instance of [collections.abc.Set]. *)
  Definition set_members (x : operand) : option (list V) :=
    match x with
    | OPySet l | OFrozen l | ODictKeys l => Some l
    | OSet s => Some (s_set s)
    | OKeys d => Some (map fst (d_items d))
    | _ => None
    end.

  (** The answer of the method of [x]; [None] is [NotImplemented].  Here for the operands that are no SortedSets: [SortedList.__make_cmp]
      (sortedlist.py:1452-1472, inherited by SortedKeyList), the mixin methods of [Set] for SortedKeysView, [object] for
      SortedValuesView; [set_richcompare], [dictview_richcompare], [list_richcompare] and [tuplerichcompare] of CPython. *)
  Definition answer0 (op : cmpop) (x y : operand) : option (res bool) :=
    match x with
    | OPyList l => match y with OPyList l' => Some (Ok (seq_cmp op l l')) | _ => None end
    | OPyTuple l => match y with OPyTuple l' => Some (Ok (seq_cmp op l l')) | _ => None end
    | OPySet l | OFrozen l => match y with OPySet l' | OFrozen l' => Some (Ok (set_cmp eqb op l l')) | _ => None end
    | ODictKeys l => match y with OPySet l' | OFrozen l' | ODictKeys l' => Some (Ok (set_cmp eqb op l l')) | _ => None end
    | OSorted c => match seq_of y with Some r => Some (let! l := r in fst (compare lt eq op l c)) | None => None end
    | OSortedKey s => match seq_of y with Some r => Some (let! l := r in fst (compare lt eq op l (kc s))) | None => None end
    | OKeys d => match set_members y with Some l => Some (fst (mix_compare (keys_view T eqb) eqb op l d)) | None => None end
    | OSet _ | OValues _ | OOther => None
    end.
  (** [x op y]: the reflected method of [y] comes first if the class of [y] is a subclass of that of [x] and not the same. *)
  Definition subclass (y x : operand) : bool := match x, y with OSorted _, OSortedKey _ => true | _, _ => false end.
  Definition protocol (answer : cmpop -> operand -> operand -> option (res bool)) (op : cmpop) (same : bool) (x y : operand) : res bool :=
    let this := answer op x y in
    let that := answer (cmp_flip op) y x in
    match (if subclass y x then that else this), (if subclass y x then this else that) with
    | Some r, _ => r
    | None, Some r => r
    | None, None => match op with Ceq => Ok same | Cne => Ok (negb same) | _ => Err TypeError end
    end.
  (** [SortedSet.__make_cmp] (sortedset.py:241-250): [set_op(self._set, other._set)] or [set_op(self._set, other)]. *)
  Definition answer (op : cmpop) (x y : operand) : option (res bool) :=
    match x with
    | OSet s =>
        match y with
        | OSet s' => Some (protocol answer0 op false (OPySet (s_set s)) (OPySet (s_set s')))
        | _ => match set_members y with Some _ => Some (protocol answer0 op false (OPySet (s_set s)) y) | None => None end
        end
    | _ => answer0 op x y
    end.
  (** [x op y]; [same]: whether [x] and [y] are the same object. *)
  Definition rich (op : cmpop) (same : bool) (x y : operand) : res bool := protocol answer op same x y.
End Operands.
Arguments OPyList {S V K}. Arguments OPyTuple {S V K}. Arguments OPySet {S V K}. Arguments OFrozen {S V K}. Arguments ODictKeys {S V K}.
Arguments OSorted {S V K}. Arguments OSortedKey {S V K}. Arguments OSet {S V K}. Arguments OKeys {S V K}. Arguments OValues {S V K}.
Arguments OOther {S V K}.

(** * The operator [|] between a SortedDict and other mappings, and [|=]

    Which method Python asks (Python data model, "emulating numeric types"), and what the methods of the library and of
    the mappings of CPython 3.11 answer. *)
From Verif Require Import PyBase Model ListClass ModelSet ModelDict.
Local Set Implicit Arguments.

(** The classes of operands: SortedDict, [dict], [collections.OrderedDict], [collections.defaultdict], [types.MappingProxyType] of a
    [dict], [collections.UserDict], a class with the interface of [collections.abc.Mapping] and no operators, an iterable of pairs that
    is not a mapping, and anything else. *)
Inductive mkind : Set := YSorted | YDict | YOrdered | YDefault | YProxy | YUser | YMapping | YPairs | YNone.
(** [isinstance(x, Mapping)] *)
Definition is_mapping (k : mkind) : bool := match k with YPairs | YNone => false | _ => true end.

Section Operand.
  Context {S A B K : Type}.
  Variable T : listcls S A K.
  Variable eqb : A -> A -> bool.
  (** Objects of other classes are given by their items, in the order of iteration. *)
  Inductive mapping : Type := PSorted (d : sdict S A B) | PPy (k : mkind) (l : list (A * B)).
  Definition mkind_of (x : mapping) : mkind := match x with PSorted _ => YSorted | PPy k _ => k end.
  (** [x.items()]; the pairs of what is not a mapping. *)
  Definition mitems (x : mapping) : res (list (A * B)) := match x with PSorted d => fst (sd_items T eqb d) | PPy _ l => Ok l end.
End Operand.
Arguments mapping S A B : clear implicits.
Arguments PSorted {S A B}. Arguments PPy {S A B}.

Section Operators.
  Context {S S' A B K K' : Type}.
  (** SortedDicts on the left and on the right may have different key functions. *)
  Variable T : listcls S A K.
  Variable T' : listcls S' A K'.
  Variable eqb : A -> A -> bool.
  Notation pairs := (list (A * B)).

  Inductive dmade : Type := DLeft (d : sdict S A B) | DRight (d : sdict S' A B) | DPy (k : mkind) (l : pairs).
  Definition rmap {X Y} (f : X -> Y) (r : res X) : res Y := let! a := r in Ok (f a).
  Definition made_items (r : dmade) : res pairs :=
    match r with DLeft d => fst (sd_items T eqb d) | DRight d => fst (sd_items T' eqb d) | DPy _ l => Ok l end.

  (** [SortedDict.__or__], [__ror__] (sorteddict.py:279-289); [None] is [NotImplemented]. *)
  Definition ask_or (d : sdict S A B) (k : mkind) (items : res pairs) : option (res dmade) :=
    if is_mapping k then Some (let! ps := items in rmap DLeft (fst (sd_or T eqb ps d))) else None.
  Definition ask_ror (d : sdict S' A B) (k : mkind) (items : res pairs) : option (res dmade) :=
    if is_mapping k then Some (let! ps := items in rmap DRight (fst (sd_ror T' eqb ps d))) else None.

  (** [l | d] for a [dict] [l]: SortedDict is a proper subclass of [dict] with a [__ror__] of its own, which goes first; [dict.__or__]
      copies and updates. *)
  Definition dict_or (l : pairs) (d : sdict S' A B) : res dmade :=
    match ask_ror d YDict (Ok l) with
    | Some r => r
    | None => let! ps := fst (sd_items T' eqb d) in Ok (DPy YDict (d_update eqb l ps))
    end.
  (** [x.__or__(d)].  [OrderedDict] and [defaultdict] copy the left operand, keeping its class, and update ([odict_or], [defdict_or] of
      CPython); a proxy is replaced by what it stands for ([mappingproxy_or]); [UserDict.__or__] is [self.__class__(self.data | other)]. *)
  Definition py_or (k : mkind) (l : pairs) (d : sdict S' A B) : option (res dmade) :=
    match k with
    | YDict | YOrdered | YDefault => Some (let! ps := fst (sd_items T' eqb d) in Ok (DPy k (d_update eqb l ps)))
    | YProxy => Some (dict_or l d)
    | YUser => Some (let! r := dict_or l d in let! ps := made_items r in Ok (DPy YUser (d_update eqb [] ps)))
    | _ => None
    end.
  (** [x | y].  Without a SortedDict among them nothing of the library is used; this is left out. *)
  Definition dbinop (x : mapping S A B) (y : mapping S' A B) : res dmade :=
    match x, y with
    | PSorted d, _ =>
        match ask_or d (mkind_of y) (mitems T' eqb y) with
        | Some r => r
        | None => Err TypeError   (* no class of operands that is not a mapping has __ror__ *)
        end
    | PPy YDict l, PSorted d => dict_or l d
    | PPy k l, PSorted d =>
        match py_or k l d with
        | Some r => r
        | None => match ask_ror d k (Ok l) with Some r => r | None => Err TypeError end
        end
    | PPy _ _, PPy _ _ => Err TypeError
    end.
  (** [x |= y]: the object that [x] names afterwards.  [SortedDict.__ior__] (sorteddict.py:291-293) is [update]; those of [dict],
      [OrderedDict], [defaultdict] and [UserDict] are their [update] too; proxies raise TypeError; others have none. *)
  Definition daugmented (x : mapping S A B) (y : mapping S' A B) : res dmade :=
    match x, y with
    | PSorted d, _ =>
        match mkind_of y with
        | YNone => Err TypeError
        | YPairs => let! ps := mitems T' eqb y in let (r, d') := sd_ior T eqb (APairs ps) d in let! _ := r in Ok (DLeft d')
        | _ => let! ps := mitems T' eqb y in let (r, d') := sd_ior T eqb (ADict ps) d in let! _ := r in Ok (DLeft d')
        end
    | PPy ((YDict | YOrdered | YDefault | YUser) as k) l, PSorted d =>
        let! ps := fst (sd_items T' eqb d) in Ok (DPy k (d_update eqb l ps))
    | PPy YProxy _, _ => Err TypeError
    | _, _ => dbinop x y
    end.
End Operators.
Arguments DLeft {S S' A B}. Arguments DRight {S S' A B}. Arguments DPy {S S' A B}.

(** * Histories of calls answered by the text

    A caller uses one SortedList whose methods are whatever the parser reads
    from a text; the operations below are answered by running that text. *)
From Coq Require Import String.
From Verif Require Import PyBase Model Spec History SourceSyntax SourceSem.
Local Open Scope string_scope.
Local Open Scope nat_scope.
Local Open Scope list_scope.
Local Unset Implicit Arguments.

(** The methods a text defines; none if it is not in the subset. *)
Definition methods_of (text : string) : list item :=
  match parse text with Some l => l | None => [] end.

(** [SortedList()] as __init__ leaves it (sortedlist.py:106-116, no iterable,
    DEFAULT_LOAD_FACTOR = [dflt]): the lists for [_lists], [_maxes] and [_index]
    are the objects 0, 1 and 2, all empty.  __init__ itself is not run. *)
Definition fresh {V} (dflt : nat) : st V :=
  mkst (fun _ => []) 3
    [("_len", VInt 0); ("_load", VInt (Z.of_nat dflt)); ("_lists", VList 0);
     ("_maxes", VList 1); ("_index", VList 2); ("_offset", VInt 0)].

(** [None] as an argument *)
Definition elt_arg {V} (o : option V) : val V :=
  match o with Some x => VElt x | None => VNone end.
Definition opt_arg {V} (o : option Z) : val V :=
  match o with Some z => VInt z | None => VNone end.

(** What the statement of the caller needs of the returned value: [sl += it] and
    [sl *= n] bind [sl] to it, so that it must be [self] for the history to go on
    with this list; iter, reversed, islice and irange must give an iterator. *)
Inductive want := WValue | WSelf | WIter.

(** What the caller sees of a returned value: of a list or an iterator the values
    in it.  A value of another kind than wanted is shown as [TypeError]. *)
Definition shown {V} (w : want) (s : st V) (v : val V) : out V :=
  match w, v with
  | WSelf, VSelf => RUnit
  | WIter, VIter q => match elts_of (heap s q) with Ok l => RList l | Err e => RExn e end
  | WValue, VNone => RUnit
  | WValue, VBool b => RBool b
  | WValue, VInt z => if (z <? 0)%Z then RExn ValueError else RNat (Z.to_nat z)
  | WValue, VElt x => RVal x
  | WValue, VList q => match elts_of (heap s q) with Ok l => RList l | Err e => RExn e end
  | _, _ => RExn TypeError
  end.
Definition seen {V} (w : want) (r : res (val V) * st V) : out V * st V :=
  match r with (Ok v, s) => (shown w s v, s) | (Err e, s) => (RExn e, s) end.

(** The operations whose methods are in SourceText.v: all but those that make a
    new SortedList ([copy], [+], [*], pickling), comparisons with a sequence and
    the methods that only raise. *)
Definition in_text {V} (o : lop V) : bool :=
  match o with
  | LCopy | LPlus _ | LMul _ | LReduce | LCompare _ _ | LUnsupported => false
  | _ => true
  end.

Section Text.
  Context {V : Type}.
  Variables lt eq : V -> V -> res bool.
  Variable class : list item.
  Variables fuel depth : nat.

  Definition invoked (w : want) (m : string) (args : list (val V)) (s : st V) : out V * st V :=
    seen w (call lt eq class fuel depth m args s).

  (** The argument is a list the caller makes. *)
  Definition invoked_on (w : want) (m : string) (it : list V) (s : st V) : out V * st V :=
    seen w ((r <- new_list (map VElt it) ;; call lt eq class fuel depth m [r]) s).

  Definition text_step (o : lop V) (s : st V) : out V * st V :=
    match o with
    | LAdd v => invoked WValue "add" [VElt v] s
    | LUpdate it => invoked_on WValue "update" it s
    | LReset ld => invoked WValue "_reset" [VInt (Z.of_nat ld)] s
    | LIAdd it => invoked_on WSelf "__iadd__" it s
    | LIMul n => invoked WSelf "__imul__" [VInt n] s
    | LClear => invoked WValue "clear" [] s
    | LDiscard v => invoked WValue "discard" [VElt v] s
    | LRemove v => invoked WValue "remove" [VElt v] s
    | LContains v => invoked WValue "__contains__" [VElt v] s
    | LGet i => invoked WValue "__getitem__" [VInt i] s
    | LSlice sl => invoked WValue "__getitem__" [VSlice sl] s
    | LDel i => invoked WValue "__delitem__" [VInt i] s
    | LDelSlice sl => invoked WValue "__delitem__" [VSlice sl] s
    | LLen => invoked WValue "__len__" [] s
    | LIter => invoked WIter "__iter__" [] s
    | LReversed => invoked WIter "__reversed__" [] s
    | LPop i => invoked WValue "pop" [VInt i] s
    | LBisectLeft v => invoked WValue "bisect_left" [VElt v] s
    | LBisectRight v => invoked WValue "bisect_right" [VElt v] s
    | LCount v => invoked WValue "count" [VElt v] s
    | LIndex v a b => invoked WValue "index" [VElt v; opt_arg a; opt_arg b] s
    | LISlice a b rv => invoked WIter "islice" [opt_arg a; opt_arg b; VBool rv] s
    | LIRange mn mx imin imax rv =>
        invoked WIter "irange" [elt_arg mn; elt_arg mx; VTup [VBool imin; VBool imax]; VBool rv] s
    | _ => (RExn AttributeError, s)
    end.
End Text.

(** The values in the lists that [self._lists] lists, in order. *)
Definition kept {V} (s : st V) : list (val V) :=
  match find "_lists" (attrs s) with
  | Some (VList r) =>
      concat (map (fun x => match x with VList q => heap s q | _ => [] end) (heap s r))
  | _ => []
  end.

(** * What a program that keeps iterators over an object should see

    An iterator yields the values that were there when it was made, in order, as long as nothing is called that adds, deletes or
    rebuilds; once it has reported the end it stays at the end, whatever happens.  After such a call it yields values, or ends, or,
    if it was made by [islice], [irange] or [irange_key], raises IndexError. *)
From Verif Require Import PyBase Model Spec History Reach ListClass ClassSpec ModelSet SetSpec ModelDict DictSpec ModelHeap ModelKHeap ModelIter ModelViewIter ViewIterSpec ModelKeep.
Local Set Implicit Arguments.

(** Compare [heap_class]. *)
Inductive keep_class : forall (S V K : Type), ilist S V K ->
    (V -> V -> bool) -> (V -> V -> bool) -> (fwd V K -> list V -> out V * list V) -> nat -> Prop :=
| kclass_plain : forall (V K : Type) (ltb eqb : V -> V -> bool) dflt,
    TotalOrder ltb eqb -> 1 <= dflt ->
    keep_class (iplain (K:=K) (total2 ltb) (total2 eqb) dflt) ltb eqb (fwd_plain ltb eqb) dflt
| kclass_keyed : forall (V : Type) (key : V -> V) (ltb eqb : V -> V -> bool) dflt,
    TotalOrder ltb eqb -> EqCompat (by_key key ltb) eqb -> 1 <= dflt ->
    keep_class (ikeyed (total2 ltb) (total2 eqb) (total1 key) dflt) (by_key key ltb) eqb (fwd_keyed key ltb eqb) dflt.

(** The methods that return an iterator. *)
Definition gives_iterator {V K} (m : imeth V K) : Prop :=
  match m with
  | MIter | MReversed | MFwd (FISlice _ _ _) | MFwd (FIRange _ _ _ _ _) | MFwd (FIRangeKey _ _ _ _ _) => True
  | _ => False
  end.
Definition xop_ok {Op V K} (ok : Op -> Prop) (o : xop Op V K) : Prop :=
  match o with XDo o => ok o | XMake m => gives_iterator m | XNext _ => True end.
(** Made by [islice], [irange] or [irange_key]. *)
Definition ranged {V K} (m : imeth V K) : bool := match m with MFwd _ => true | _ => false end.

(** The values still to come; disturbed; at the end. *)
Inductive xrit (V : Type) : Type := XLive (ranged : bool) (l : list V) | XLost (ranged : bool) | XEnded.
Arguments XEnded {V}. Arguments XLost {V}.

Section Ref.
  Context {V K D Op Out : Type}.
  Variable fref : fwd V K -> list V -> out V * list V.
  (** [eff o d r d']: in an object that stands for [d], [o] gives [r] and makes it stand for [d']. *)
  Variable eff : Op -> D -> Out -> D -> Prop.
  (** The values to iterate over. *)
  Variable vals : D -> list V.
  (** [o] may add or delete values or reorganise the list inside. *)
  Variable moves : Op -> D -> bool.

  (** What a method iterates over. *)
  Definition ranges (m : imeth V K) (l : list V) : res (list V) :=
    match m with
    | MIter => Ok l
    | MReversed => Ok (rev l)
    | MFwd f => match fst (fref f l) with RList x => Ok x | RExn e => Err e | _ => Err TypeError end
    end.
  Definition x_lose (x : xrit V) : xrit V := match x with XLive b _ => XLost b | _ => x end.

  Inductive xr_step : xop Op V K -> D * list (xrit V) -> xout Out V -> D * list (xrit V) -> Prop :=
  | xr_do : forall o d its r d', eff o d r d' ->
      xr_step (XDo o) (d, its) (XOut r) (d', if moves o d then map x_lose its else its)
  | xr_make : forall m d its l, ranges m (vals d) = Ok l ->
      xr_step (XMake m) (d, its) XMade (d, its ++ [XLive (ranged m) l])
  | xr_make_err : forall m d its e, ranges m (vals d) = Err e ->
      xr_step (XMake m) (d, its) (XExn e) (d, its)
  | xr_none : forall j d its, nth_error its j = None -> xr_step (XNext j) (d, its) (XExn IndexError) (d, its)
  | xr_value : forall j d its b v l, nth_error its j = Some (XLive b (v :: l)) ->
      xr_step (XNext j) (d, its) (XVal v) (d, firstn j its ++ XLive b l :: skipn (S j) its)
  | xr_stop : forall j d its b, nth_error its j = Some (XLive b []) ->
      xr_step (XNext j) (d, its) XStop (d, firstn j its ++ XEnded :: skipn (S j) its)
  | xr_ended : forall j d its, nth_error its j = Some XEnded -> xr_step (XNext j) (d, its) XStop (d, its)
  | xr_lost_stop : forall j d its b, nth_error its j = Some (XLost b) ->
      xr_step (XNext j) (d, its) XStop (d, firstn j its ++ XEnded :: skipn (S j) its)
  | xr_lost_value : forall j d its b v, nth_error its j = Some (XLost b) -> xr_step (XNext j) (d, its) (XVal v) (d, its)
  | xr_lost_error : forall j d its, nth_error its j = Some (XLost true) ->
      xr_step (XNext j) (d, its) (XExn IndexError) (d, its).

  Inductive xr_run : list (xop Op V K) -> D * list (xrit V) -> list (xout Out V) -> D * list (xrit V) -> Prop :=
  | xr_nil : forall s, xr_run [] s [] s
  | xr_cons : forall o ops s r s1 rs s2, xr_step o s r s1 -> xr_run ops s1 rs s2 -> xr_run (o :: ops) s (r :: rs) s2.
End Ref.

(** ** SortedKeyList *)
Definition kl_eff {V} (ltb eqb : V -> V -> bool) (key : V -> V) (o : kop V V) (l : list V) (r : out V) (l' : list V) : Prop :=
  sp_kstep eqb ltb key ltb o l = (r, l').
Definition kl_moves {V} (o : kop V V) (l : list V) : bool :=
  match o with
  | KList (LAdd _ | LUpdate _ | LIAdd _ | LClear | LDiscard _ | LRemove _ | LDel _ | LDelSlice _ | LPop _ | LReset _ | LIMul _) => true
  | _ => false
  end.
(** The operations that make a new SortedKeyList are left out. *)
Definition kl_ok {V} (o : kop V V) : Prop :=
  match o with
  | KList (LPlus _ | LCopy | LMul _ | LReduce) => False
  | _ => kop_ok o
  end.

(** ** SortedSet *)
Definition makes_set {V K} (o : sop V K) : bool :=
  match o with SUnion _ | SDifference _ | SIntersection _ | SSymmetricDifference _ | SCopy | SReduce => true | _ => false end.
Definition set_eff {V K} (ltb eqb : V -> V -> bool) (fref : fwd V K -> list V -> out V * list V) (o : sop V K) (l : list V) (r : out V) (l' : list V) : Prop :=
  if makes_set o then r = RUnit /\ l' = l
  else set_effect eqb fref o l r l' /\ sorted ltb l' /\ distinct eqb l'.
Definition set_moves {V K} (eqb : V -> V -> bool) (o : sop V K) (l : list V) : bool :=
  match o with
  | SAdd v => negb (existsb (fun x => eqb x v) l)
  | SDiscard v | SRemove v => existsb (fun x => eqb x v) l
  | SPop _ | SClear | SDel _ | SDelSlice _ | SUpdate _ | SDifferenceUpdate _ | SIntersectionUpdate _ | SSymmetricDifferenceUpdate _ => true
  | SFwd (FReset _) => true
  | _ => false
  end.

(** ** SortedDict *)
Definition dict_eff {A B K} (ltb eqb : A -> A -> bool) (veqb : B -> B -> bool) (fref : fwd A K -> list A -> out A * list A)
    (o : dop A B K) (d : list (A * B)) (r : dout A B) (d' : list (A * B)) : Prop :=
  r = fst (ref_step ltb eqb veqb fref o d) /\
  d' = match o with DOr _ | DROr _ | DCopy | DReduce _ => d | _ => snd (ref_step ltb eqb veqb fref o d) end.

(** ** Claims that fail *)

(** The values that the [j]-th iterator yields in a history. *)
Fixpoint values_yielded {Op Out V K} (j : nat) (ops : list (xop Op V K)) (outs : list (xout Out V)) : list V :=
  match ops, outs with
  | XNext i :: ops, XVal v :: outs => if i =? j then v :: values_yielded j ops outs else values_yielded j ops outs
  | _ :: ops, _ :: outs => values_yielded j ops outs
  | _, _ => []
  end.
(** Only [update] is called, with iterables of members of [l], and iterators are advanced: the set stays what it is. *)
Definition adds_nothing {V K} (eqb : V -> V -> bool) (l : list V) (o : xop (sop V K) V K) : Prop :=
  match o with
  | XDo (SUpdate its) => forall x, in_any eqb x its -> member eqb x l
  | XDo _ => False
  | _ => True
  end.
(** No iterator has been made yet. *)
Definition no_iterators {Op V K} (ops : list (xop Op V K)) : Prop := Forall (fun o => match o with XDo _ => True | _ => False end) ops.
(** Iterator number [j] is made by [m], and it is the first one. *)
Definition first_made {Op V K} (m : imeth V K) (j : nat) (ops : list (xop Op V K)) : Prop :=
  j = 0 /\ exists a b, no_iterators a /\ ops = a ++ XMake m :: b.

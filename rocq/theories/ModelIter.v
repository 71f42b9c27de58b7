(** * Iterators that a program keeps

    In Model.v an iterator is the list of what it yields.  Here it is an object with a position, over the heap of ModelHeap.v: it
    refers to [_lists] and to internal lists, and reads them when it is advanced.  The iterators are those of CPython: [iter] and
    [reversed] of a list, [map], [range], [itertools.chain]. *)
From Verif Require Import PyBase Model History ModelHeap.
Local Set Implicit Arguments.

(** [iter(row)] at the next index; [reversed(row)] at one more than the next index. *)
Inductive inner : Set := IFwd (r : ref) (i : nat) | IBack (r : ref) (k : nat).
(** What [chain.from_iterable] is given (sortedlist.py 856, 867, 976, 980, 986, 990): [_lists], [reversed(_lists)],
    [map(_lists.__getitem__, indices)] with the indices that remain; or nothing, when it has been used up. *)
Inductive outer : Set := OFwd (i : nat) | OBack (k : nat) | OAt (indices : list nat) | ODone.
(** [map(row.__getitem__, indices)] with the indices that remain, [chain.from_iterable] with the internal list it is in;
    [back] if the internal lists go through [map(reversed, ...)]. *)
Inductive seg : Set := SAt (r : ref) (indices : list nat) | SFlat (o : outer) (back : bool) (cur : option inner).
(** [chain(seg, ...)]; [iter(())] is the empty chain. *)
Definition iterator : Set := list seg.

Section Next.
  Context {V : Type}.
  Variable h : heap V.
  Variable rs : list ref.   (** [_lists] *)

  (** [next] of a list iterator: an iterator that has met the end is dropped by the caller. *)
  Definition inner_next (x : inner) : option (V * inner) :=
    match x with
    | IFwd r i => match nth_error (cell h r) i with Some v => Some (v, IFwd r (S i)) | None => None end
    | IBack r O => None
    | IBack r (S j) => match nth_error (cell h r) j with Some v => Some (v, IBack r j) | None => None end
    end.
  Definition outer_next (x : outer) : res (option ref) * outer :=
    match x with
    | OFwd i => match nth_error rs i with Some r => (Ok (Some r), OFwd (S i)) | None => (Ok None, ODone) end
    | OBack O => (Ok None, ODone)
    | OBack (S j) => match nth_error rs j with Some r => (Ok (Some r), OBack j) | None => (Ok None, ODone) end
    | OAt [] => (Ok None, ODone)
    | OAt (i :: t) => match getn rs i with Ok r => (Ok (Some r), OAt t) | Err e => (Err e, ODone) end
    | ODone => (Ok None, ODone)
    end.
  Definition enter (back : bool) (r : ref) : inner := if back then IBack r (length (cell h r)) else IFwd r 0.
  (** [chain.from_iterable(...).__next__]: an exhausted or failing source is dropped. *)
  Fixpoint flat_next (fuel : nat) (o : outer) (back : bool) (cur : option inner) : res (option V) * seg :=
    match fuel with
    | O => (Err OutOfFuel, SFlat o back cur)
    | S fuel =>
        match cur with
        | Some x => match inner_next x with
                    | Some (v, x) => (Ok (Some v), SFlat o back (Some x))
                    | None => flat_next fuel o back None
                    end
        | None => match outer_next o with
                  | (Ok (Some r), o) => flat_next fuel o back (Some (enter back r))
                  | (Ok None, _) => (Ok None, SFlat ODone back None)
                  | (Err e, _) => (Err e, SFlat ODone back None)
                  end
        end
    end.
  (** Every round but the first uses up an internal list. *)
  Definition flat_fuel (o : outer) : nat :=
    2 * (length rs + match o with OAt l => length l | _ => 0 end) + 4.
  Definition seg_next (s : seg) : res (option V) * seg :=
    match s with
    | SAt r [] => (Ok None, SAt r [])
    | SAt r (i :: t) => (let! v := getn (cell h r) i in Ok (Some v), SAt r t)
    | SFlat o back cur => flat_next (flat_fuel o) o back cur
    end.
  (** [next(it)]: a value, or [None] for [StopIteration]. *)
  Fixpoint next (it : iterator) : res (option V) * iterator :=
    match it with
    | [] => (Ok None, [])
    | s :: t => match seg_next s with
                | (Ok None, _) => next t
                | (r, s) => (r, s :: t)
                end
    end.

  (** [SortedList._islice] (sortedlist.py 931-992). *)
  Definition it_pairs (min_pos min_idx max_pos max_idx : nat) (reverse : bool) : res iterator :=
    if max_pos <? min_pos then Ok []
    else if min_pos =? max_pos then
      let! r := getn rs min_pos in
      let indices := rangen min_idx max_idx in
      Ok [SAt r (if reverse then rev indices else indices)]
    else
      let next_pos := min_pos + 1 in
      let! rmin := getn rs min_pos in
      let! rmax := getn rs max_pos in
      let min_indices := rangen min_idx (length (cell h rmin)) in
      let max_indices := rangen 0 max_idx in
      if next_pos =? max_pos then
        if reverse then Ok [SAt rmax (rev max_indices); SAt rmin (rev min_indices)]
        else Ok [SAt rmin min_indices; SAt rmax max_indices]
      else
        let sublist_indices := rangen next_pos max_pos in
        if reverse then
          Ok [SAt rmax (rev max_indices); SFlat (OAt (rev sublist_indices)) true None; SAt rmin (rev min_indices)]
        else
          Ok [SAt rmin min_indices; SFlat (OAt sublist_indices) false None; SAt rmax max_indices].
End Next.

Section Make.
  Context {V : Type}.
  Variable lt : V -> V -> res bool.
  Notation ST := (heap V * hsl V)%type.
  Notation MH := (M ST).

  (** [SortedList.__iter__], [__reversed__] (sortedlist.py 847-867). *)
  Definition it_iter : MH iterator := ret [SFlat (OFwd 0) false None].
  Definition it_reversed : MH iterator := fun s => (Ok [SFlat (OBack (length (rows (snd s)))) true None], s).

  Definition it_islice_ (p : option (nat * nat * (nat * nat))) (reverse : bool) : MH iterator := fun s =>
    (match p with
     | None => Ok []
     | Some (min_pos, min_idx, (max_pos, max_idx)) => it_pairs (fst s) (rows (snd s)) min_pos min_idx max_pos max_idx reverse
     end, s).

  (** [SortedList.islice] (sortedlist.py 909-929) up to the call of [_islice]. *)
  Definition islice_pos (start stop : option Z) : M (core V V) (option (nat * nat * (nat * nat))) :=
    c <- get ;;
    if len c =? 0 then ret None
    else
      t <- liftr (slice_indices (mkslice start stop None) (len c)) ;;
      let '(start, stop, _) := t in
      if (stop <=? start)%Z then ret None
      else
        p <- pos_of start ;;
        q <- (if (stop =? Z.of_nat (len c))%Z then
                ll <- liftr (getlast (lists c)) ;;
                ret (length (lists c) - 1, length ll)
              else pos_of stop) ;;
        ret (Some (p, q)).
  (** [SortedList.irange] (sortedlist.py 1020-1073) up to the call of [_islice]. *)
  Definition irange_pos (minimum maximum : option V) (incl_min incl_max : bool) : M (core V V) (option (nat * nat * (nat * nat))) :=
    c <- get ;;
    if is_nil (maxes c) then ret None
    else
      mn <- (match minimum with
             | None => ret (Some (0, 0))
             | Some m =>
                 let bis := if incl_min then bisect_left lt else bisect_right lt in
                 min_pos <- liftr (bis (maxes c) m) ;;
                 if min_pos =? length (maxes c) then ret None
                 else
                   l <- liftr (getn (lists c) min_pos) ;;
                   min_idx <- liftr (bis l m) ;;
                   ret (Some (min_pos, min_idx))
             end) ;;
      match mn with
      | None => ret None
      | Some p =>
          q <- (match maximum with
                | None =>
                    let max_pos := length (maxes c) - 1 in
                    l <- liftr (getn (lists c) max_pos) ;;
                    ret (max_pos, length l)
                | Some m =>
                    let bis := if incl_max then bisect_right lt else bisect_left lt in
                    max_pos <- liftr (bis (maxes c) m) ;;
                    if max_pos =? length (maxes c) then
                      let max_pos := max_pos - 1 in
                      l <- liftr (getn (lists c) max_pos) ;;
                      ret (max_pos, length l)
                    else
                      l <- liftr (getn (lists c) max_pos) ;;
                      max_idx <- liftr (bis l m) ;;
                      ret (max_pos, max_idx)
                end) ;;
          ret (Some (p, q))
      end.
  Definition it_islice (start stop : option Z) (reverse : bool) : MH iterator :=
    p <- reading (islice_pos start stop) ;; it_islice_ p reverse.
  Definition it_irange (minimum maximum : option V) (incl_min incl_max reverse : bool) : MH iterator :=
    p <- reading (irange_pos minimum maximum incl_min incl_max) ;; it_islice_ p reverse.

  (** The methods that return iterators. *)
  Definition it_make (o : lop V) : MH iterator :=
    match o with
    | LIter => it_iter
    | LReversed => it_reversed
    | LISlice a b r => it_islice a b r
    | LIRange mn mx a b r => it_irange mn mx a b r
    | _ => raise TypeError
    end.
End Make.

(** ** A program that also keeps iterators *)
Inductive iop (V : Type) : Type :=
| IOp (o : wop V)
| IMake (i : nat) (o : lop V)   (** the [i]-th SortedList returns one more iterator *)
| INext (k : nat).              (** [next] of the [k]-th iterator *)
Arguments INext {V}.
Inductive iout (V : Type) : Type := IOut (r : out V) | IStop.
Arguments IStop {V}.

Section IWorld.
  Context {V : Type}.
  Variables lt eq : V -> V -> res bool.
  Variable dflt : nat.
  (** Each iterator belongs to a SortedList. *)
  Notation IW := (world V * list (nat * iterator))%type.
  Fixpoint set_it (l : list (nat * iterator)) (k : nat) (x : nat * iterator) : list (nat * iterator) :=
    match l, k with
    | [], _ => []
    | _ :: t, O => x :: t
    | y :: t, S k => y :: set_it t k x
    end.
  Definition i_step (o : iop V) (s : IW) : iout V * IW :=
    let (w, its) := s in
    match o with
    | IOp o => let (r, w) := w_step lt eq dflt o w in (IOut r, (w, its))
    | IMake i o =>
        match on_obj i (it_make lt o) Err w with
        | (Ok it, w) => (IOut RUnit, (w, its ++ [(i, it)]))
        | (Err e, w) => (IOut (RExn e), (w, its))
        end
    | INext k =>
        match getn its k with
        | Err e => (IOut (RExn e), s)
        | Ok (i, it) =>
            match getn (w_objs w) i with
            | Err e => (IOut (RExn e), s)
            | Ok ob =>
                let (r, it) := next (w_heap w) (rows ob) it in
                (match r with Ok (Some v) => IOut (RVal v) | Ok None => IStop | Err e => IOut (RExn e) end, (w, set_it its k (i, it)))
            end
        end
    end.
  Definition i_run := run i_step.
  Definition i_init : IW := (w_init, []).
End IWorld.

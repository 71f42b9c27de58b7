(** * Iterators over a SortedKeyList, a SortedSet or a SortedDict that a program keeps

    The iterators of ModelIter.v, now made by every method that returns one: [iter], [reversed], [islice], [irange], [irange_key].
    A SortedSet and a SortedDict have the last three from the list inside (sortedset.py 141-154, sorteddict.py 156-168).  The list is
    on a heap (ModelHeap.v, ModelKHeap.v), so that an iterator reads the internal lists when it is advanced. *)
From Verif Require Import PyBase Model History ListClass ModelSet ModelDict ModelHeap ModelKHeap ModelIter ModelViewIter.
Local Set Implicit Arguments.

(** [iter(x)], [reversed(x)], or one of the methods of ListClass.v: [x.islice(...)], [x.irange(...)], [x.irange_key(...)]. *)
Inductive imeth (V K : Type) : Type := MIter | MReversed | MFwd (f : fwd V K).
Arguments MIter {V K}. Arguments MReversed {V K}. Arguments MFwd {V K}.

(** The methods of a SortedList (ModelIter.v); [irange_key] does not exist. *)
Definition p_make {V K} (lt : V -> V -> res bool) (m : imeth V K) : M (heap V * hsl V) iterator :=
  match m with
  | MIter => it_iter
  | MReversed => it_reversed
  | MFwd f => match fwd_op f with
              | KList o => it_make lt o
              | _ => raise AttributeError
              end
  end.

Section KeyMake.
  Context {V : Type}.
  Variable lt : V -> V -> res bool.
  Variable kf : V -> res V.
  Notation ST := (heap V * khsl V)%type.

  (** [SortedKeyList.irange_key] (sortedlist.py 2079-2128) up to the call of [_islice]: positions are looked up in [_maxes] and
      [_keys]. *)
  Definition irange_key_pos (min_key max_key : option V) (incl_min incl_max : bool) : M (skl V V) (option (nat * nat * (nat * nat))) :=
    s <- get ;;
    let c := kc s in
    if is_nil (maxes c) then ret None
    else
      mn <- (match min_key with
             | None => ret (Some (0, 0))
             | Some m =>
                 let bis := if incl_min then bisect_left lt else bisect_right lt in
                 min_pos <- liftr (bis (maxes c) m) ;;
                 if min_pos =? length (maxes c) then ret None
                 else
                   l <- liftr (getn (keys s) min_pos) ;;
                   min_idx <- liftr (bis l m) ;;
                   ret (Some (min_pos, min_idx))
             end) ;;
      match mn with
      | None => ret None
      | Some p =>
          q <- (match max_key with
                | None =>
                    let max_pos := length (maxes c) - 1 in
                    l <- liftr (getn (keys s) max_pos) ;;
                    ret (max_pos, length l)
                | Some m =>
                    let bis := if incl_max then bisect_right lt else bisect_left lt in
                    max_pos <- liftr (bis (maxes c) m) ;;
                    if max_pos =? length (maxes c) then
                      let max_pos := max_pos - 1 in
                      l <- liftr (getn (keys s) max_pos) ;;
                      ret (max_pos, length l)
                    else
                      l <- liftr (getn (keys s) max_pos) ;;
                      max_idx <- liftr (bis l m) ;;
                      ret (max_pos, max_idx)
                end) ;;
          ret (Some (p, q))
      end.
  Definition k_irange_key (min_key max_key : option V) (incl_min incl_max reverse : bool) : M ST iterator :=
    p <- kreading (irange_key_pos min_key max_key incl_min incl_max) ;; onbase (it_islice_ p reverse).

  (** The methods of a SortedKeyList: [irange] (sortedlist.py 2008-2042) calls [irange_key] with the keys, the others are inherited. *)
  Definition k_make (m : imeth V V) : M ST iterator :=
    match m with
    | MIter => onbase it_iter
    | MReversed => onbase it_reversed
    | MFwd (FISlice a b r) => onbase (it_islice a b r)
    | MFwd (FIRange mn mx a b r) =>
        min_key <- liftr (key_opt kf mn) ;;
        max_key <- liftr (key_opt kf mx) ;;
        k_irange_key min_key max_key a b r
    | MFwd (FIRangeKey mn mx a b r) => k_irange_key mn mx a b r
    | MFwd _ => raise TypeError
    end.
End KeyMake.

(** A list on a heap with the methods that return iterators. *)
Record ilist (S V K : Type) : Type := mkilist { il_cls :> hlist S V K; il_make : imeth V K -> M S iterator }.
Definition iplain {V K} (lt eq : V -> V -> res bool) (dflt : nat) : ilist (heap V * hsl V) V K :=
  mkilist (hplain lt eq dflt) (p_make lt).
Definition ikeyed {V} (lt eq : V -> V -> res bool) (kf : V -> res V) (dflt : nat) : ilist (heap V * khsl V) V V :=
  mkilist (hkeyed lt eq kf dflt) (k_make lt kf).

(** ** A program with one object and iterators over it *)
Inductive xop (Op V K : Type) : Type :=
| XDo (o : Op)
| XMake (m : imeth V K)     (** one more iterator *)
| XNext (j : nat).          (** [next] of the [j]-th iterator *)
Arguments XDo {Op V K}. Arguments XMake {Op V K}. Arguments XNext {Op V K}.
(** What the operation gives; an iterator was made; what [next] gives: a value or [StopIteration]; [XMake] or [XNext] raised. *)
Inductive xout (Out V : Type) : Type := XOut (r : Out) | XMade | XVal (v : V) | XStop | XExn (e : exn).
Arguments XOut {Out V}. Arguments XMade {Out V}. Arguments XVal {Out V}. Arguments XStop {Out V}. Arguments XExn {Out V}.

Section XWorld.
  Context {S V K Ob Op Out : Type}.
  Variable T : ilist S V K.
  (** An operation on the object; the list inside it. *)
  Variable do_ : Op -> Ob -> Out * Ob.
  Variable list_of : Ob -> S.
  Variable set_list : S -> Ob -> Ob.
  Notation W := (Ob * list iterator)%type.

  Fixpoint set_iter (l : list iterator) (j : nat) (x : iterator) : list iterator :=
    match l, j with
    | [], _ => []
    | _ :: t, O => x :: t
    | y :: t, Datatypes.S j => y :: set_iter t j x
    end.
  Definition x_step (o : xop Op V K) (s : W) : xout Out V * W :=
    let (x, its) := s in
    match o with
    | XDo o => let (r, x) := do_ o x in (XOut r, (x, its))
    | XMake m =>
        match il_make T m (list_of x) with
        | (Ok it, l) => (XMade, (set_list l x, its ++ [it]))
        | (Err e, l) => (XExn e, (set_list l x, its))
        end
    | XNext j =>
        match getn its j with
        | Err e => (XExn e, s)
        | Ok it =>
            match next (hl_heap T (list_of x)) (hl_rows T (list_of x)) it with
            | (Ok (Some v), it) => (XVal v, (x, set_iter its j it))
            | (Ok None, it) => (XStop, (x, set_iter its j it))
            | (Err e, it) => (XExn e, (x, set_iter its j it))
            end
        end
    end.
  Definition x_run := run x_step.
End XWorld.

(** A SortedKeyList: the operations of ModelKHeap.v, and [update], [+=], slices and comparisons with a list of the caller's. *)
Definition kl_do {V} (lt eq : V -> V -> res bool) (kf : V -> res V) (o : kop V V) (s : heap V * khsl V) : out V * (heap V * khsl V) :=
  match o with
  | KList (LUpdate l) | KList (LIAdd l) => observe runit (r <- k_alloc l ;; k_update lt kf (HList r)) s
  | KList (LSlice sl) => observe (@RList V) (r <- k_getitem_slice sl ;; k_cell r) s
  | KList (LCompare op l) => observe (@RBool V) (onbase (reading (compare lt eq op l))) s
  | o => k_step lt eq kf o s
  end.

(** A SortedSet: the operators and [copy] make new sets, which are not looked at here. *)
Definition set_do {S V K} (T : listcls S V K) (eqb : V -> V -> bool) ord (o : sop V K) (s : sset S V) : out V * sset S V :=
  let new m := observe (fun _ : sset S V => @RUnit V) m s in
  match o with
  | SUnion its => new (ss_union T eqb ord its)
  | SDifference its => new (ss_difference T eqb ord its)
  | SIntersection its => new (ss_intersection T eqb ord its)
  | SSymmetricDifference it => new (ss_symmetric_difference T eqb ord it)
  | SCopy => new (ss_copy T ord)
  | SReduce => new (ss_reduce T eqb ord)
  | o => ss_step T eqb ord o s
  end.

Definition key_list_run {V} (lt eq : V -> V -> res bool) (kf : V -> res V) (dflt : nat) :=
  x_run (ikeyed lt eq kf dflt) (kl_do lt eq kf) (fun s => s) (fun l _ => l).
Definition set_run {S V K} (T : ilist S V K) (eqb : V -> V -> bool) ord :=
  x_run T (set_do T eqb ord) (@s_list S V) (fun l s => mksset (s_set s) l (s_tick s)).
Definition dict_run {S A B K} (T : ilist S A K) (eqb : A -> A -> bool) (veqb : B -> B -> bool) :=
  x_run T (v_do T eqb veqb) (@d_list S A B) (fun l s => mksd (d_items s) l).

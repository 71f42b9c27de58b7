(** * SortedList on a heap of Python lists

    In Model.v the internal lists of a SortedList are values.  Here they are references into a heap, as are the lists a
    program passes in and gets back, so that two names for one list can be told apart from two equal lists.  The methods that write
    to a list or create one are written out again; the others only read the internal lists, and run the definitions of Model.v on
    what the references stand for. *)
From Verif Require Import PyBase Model History.
Local Set Implicit Arguments.

(** A heap of Python lists; a reference is a position in it. *)
Definition ref : Set := nat.
Section Heap.
  Context {V : Type}.
  Definition heap : Type := list (list V).
  Definition cell (h : heap) (r : ref) : list V := nth r h [].
  (** A list is changed in place. *)
  Fixpoint write (h : heap) (r : ref) (x : list V) : heap :=
    match h, r with
    | [], _ => []
    | _ :: t, O => x :: t
    | y :: t, S r => y :: write t r x
    end.
  (** A new list. *)
  Definition alloc (h : heap) (x : list V) : ref * heap := (length h, h ++ [x]).
  Fixpoint alloc_all (h : heap) (xs : list (list V)) : list ref * heap :=
    match xs with
    | [] => ([], h)
    | x :: t => let (r, h) := alloc h x in let (rs, h) := alloc_all h t in (r :: rs, h)
    end.
  (** [reduce(iadd, rows, acc)]: [acc += row] for each row (sortedlist.py 6, 174, 281, 779, 799). *)
  Definition reduce_iadd (rows : list ref) (acc : ref) (h : heap) : heap :=
    fold_left (fun h r => write h acc (cell h acc ++ cell h r)) rows h.

  (** What a program passes as an iterable: a list, or a SortedList with these internal lists. *)
  Inductive harg : Type := HList (r : ref) | HRows (rows : list ref).
  (** The values delivered when it is iterated (sortedlist.py 847-856 for a SortedList). *)
  Definition elems (h : heap) (a : harg) : list V :=
    match a with HList r => cell h r | HRows rows => concat (map (cell h) rows) end.
End Heap.
Arguments heap : clear implicits.

(** A SortedList object (sortedlist.py 107-113): [_lists] holds references. *)
Record hsl (V : Type) : Type := mkhsl {
  rows : list ref;
  hmaxes : list V;
  hindex : list nat;
  hoffset : nat;
  hlen : nat;
  hload : nat }.

Section HeapList.
  Context {V : Type}.
  Variables lt eq : V -> V -> res bool.
  Variable dflt : nat.
  Notation ST := (heap V * hsl V)%type.
  Notation MH := (M ST).

  (** What the object looks like when its references are followed. *)
  Definition view (s : ST) : core V V :=
    let (h, o) := s in
    mkcore (map (cell h) (rows o)) (hmaxes o) (hindex o) (hoffset o) (hlen o) (hload o).
  (** The other slots of the object are written; the internal lists stay. *)
  Definition put (c : core V V) (s : ST) : ST :=
    let (h, o) := s in (h, mkhsl (rows o) (maxes c) (index c) (offset c) (len c) (load c)).
  (** A method that does not write to the internal lists. *)
  Definition reading {A} (m : M (core V V) A) : MH A := zoom view put m.

  Definition set_rows (x : list ref) (o : hsl V) : hsl V :=
    mkhsl x (hmaxes o) (hindex o) (hoffset o) (hlen o) (hload o).

  Definition h_alloc (x : list V) : MH ref := fun s => let (r, h) := alloc (fst s) x in (Ok r, (h, snd s)).
  Definition h_cell (r : ref) : MH (list V) := fun s => (Ok (cell (fst s) r), s).
  Definition h_write (r : ref) (x : list V) : MH unit := fun s => (Ok tt, (write (fst s) r x, snd s)).
  (** [self._lists[pos]] *)
  Definition h_row (pos : nat) : MH ref := fun s => (getn (rows (snd s)) pos, s).
  (** [reduce(iadd, self._lists, [])] *)
  Definition h_flat : MH ref :=
    acc <- h_alloc [] ;;
    modify (fun s : ST => (reduce_iadd (rows (snd s)) acc (fst s), snd s)) ;;;
    ret acc.

  (** [SortedList.clear] (sortedlist.py 179-191): [del self._lists[:]] drops the references. *)
  Definition h_clear : MH unit :=
    modify (fun s : ST => (fst s, mkhsl [] [] [] 0 0 (hload (snd s)))).

  (** [SortedList._expand] (sortedlist.py 228-259). *)
  Definition h_expand (pos : nat) : MH unit :=
    modifyR (fun s : ST =>
      let (h, o) := s in
      let! p := getn (rows o) pos in
      if hload o * 2 <? length (cell h p) then
        let (half, h) := alloc h (skipn (hload o) (cell h p)) in
        let h := write h p (firstn (hload o) (cell h p)) in
        let! m := getlast (cell h p) in
        let! ms := setn (hmaxes o) pos m in
        let! hm := getlast (cell h half) in
        Ok (h, mkhsl (insn (rows o) (pos + 1) half) (insn ms (pos + 1) hm) [] (hoffset o) (hlen o) (hload o))
      else let! c := index_inc (view (h, o)) pos in Ok (put c (h, o))).

  (** [_lists[pos].append(value)], [insort(_lists[pos], value)], [del _lists[pos][idx]]: the list at [pos] is changed. *)
  Definition h_change (pos : nat) (f : list V -> res (list V)) : MH unit :=
    modifyR (fun s : ST =>
      let (h, o) := s in
      let! p := getn (rows o) pos in
      let! l := f (cell h p) in
      Ok (write h p l, o)).

  (** [SortedList.add] (sortedlist.py 193-226). *)
  Definition h_add (value : V) : MH unit :=
    c <- reading get ;;
    (if is_nil (maxes c) then
       r <- h_alloc [value] ;;
       modify (fun s : ST => (fst s, set_rows (rows (snd s) ++ [r]) (snd s))) ;;;
       reading (modify (fun c => set_maxes (maxes c ++ [value]) c))
     else
       pos <- liftr (bisect_right lt (maxes c) value) ;;
       if pos =? length (maxes c) then
         let pos := pos - 1 in
         h_change pos (fun l => Ok (l ++ [value])) ;;;
         reading (modifyR (fun c => let! ms := setn (maxes c) pos value in Ok (set_maxes ms c))) ;;;
         h_expand pos
       else
         h_change pos (fun l => insort lt l value) ;;;
         h_expand pos) ;;;
    reading (modify (fun c => set_len (len c + 1) c)).

  (** The tail of [SortedList.update] (sortedlist.py 290-296): every [values[pos:pos + _load]] is a new list. *)
  Definition h_fill (values : ref) : MH unit :=
    modifyR (fun s : ST =>
      let (h, o) := s in
      let! cs := chunks (hload o) (cell h values) in
      let (rs, h) := alloc_all h cs in
      let ls := rows o ++ rs in
      let! ms := mapR getlast (map (cell h) ls) in
      Ok (h, mkhsl ls (hmaxes o ++ ms) [] (hoffset o) (length (cell h values)) (hload o))).

  (** [for val in values: _add(val)] (sortedlist.py 285-287): the next value is looked up in the list at every step. *)
  Fixpoint h_add_each (fuel : nat) (values : ref) (i : nat) : MH unit :=
    match fuel with
    | O => ret tt
    | S f =>
        l <- h_cell values ;;
        if i <? length l then
          v <- liftr (getn l i) ;;
          h_add v ;;;
          h_add_each f values (i + 1)
        else ret tt
    end.

  (** [sorted(iterable)]: a new list. *)
  Definition h_sorted (a : harg) : MH ref :=
    fun s => match py_sorted lt (elems (fst s) a) with
             | Ok l => h_alloc l s
             | Err e => (Err e, s)
             end.
  (** [values.sort()], in place. *)
  Definition h_sort (r : ref) : MH unit :=
    l <- h_cell r ;; l <- liftr (py_sorted lt l) ;; h_write r l.

  (** [SortedList.update] (sortedlist.py 261-298). *)
  Definition h_update (a : harg) : MH unit :=
    values <- h_sorted a ;;
    l <- h_cell values ;;
    c <- reading get ;;
    if is_nil (maxes c) then h_fill values
    else if len c <=? length l * 4 then
      modify (fun s : ST => (fst s, set_rows (rows (snd s) ++ [values]) (snd s))) ;;;
      values <- h_flat ;;
      h_sort values ;;;
      h_clear ;;;
      h_fill values
    else h_add_each (length l) values 0.

  (** [SortedList.__init__] (sortedlist.py 89-116). *)
  Definition h_new (a : harg) (h : heap V) : res (hsl V) * heap V :=
    match h_update a (h, mkhsl [] [] [] 0 0 dflt) with
    | (Ok _, (h, o)) => (Ok o, h)
    | (Err e, (h, _)) => (Err e, h)
    end.

  (** [SortedList._delete] (sortedlist.py 400-452). *)
  Definition h_delete (pos idx : nat) : MH unit :=
    h_change pos (fun l => deln l idx) ;;;
    reading (modifyR (fun c => let! n := subc (len c) 1 in Ok (set_len n c))) ;;;
    c <- reading get ;;
    lists_pos <- liftr (getn (lists c) pos) ;;
    let len_lists_pos := length lists_pos in
    if load c / 2 <? len_lists_pos then
      reading (modifyR (fun c =>
        let! m := getlast lists_pos in
        let! ms := setn (maxes c) pos m in Ok (set_maxes ms c))) ;;;
      reading (modifyR (fun c => index_dec c pos))
    else if 1 <? length (lists c) then
      let pos := if pos =? 0 then pos + 1 else pos in
      let prev := pos - 1 in
      modifyR (fun s : ST =>
        let (h, o) := s in
        let! p := getn (rows o) pos in
        let! q := getn (rows o) prev in
        Ok (write h q (cell h q ++ cell h p), o)) ;;;
      reading (modifyR (fun c =>
        let! l := getn (lists c) prev in
        let! m := getlast l in
        let! ms := setn (maxes c) prev m in Ok (set_maxes ms c))) ;;;
      modifyR (fun s : ST => let! ls := deln (rows (snd s)) pos in Ok (fst s, set_rows ls (snd s))) ;;;
      reading (modifyR (fun c => let! ms := deln (maxes c) pos in Ok (set_maxes ms c))) ;;;
      reading (modify (set_index [])) ;;;
      h_expand prev
    else if 0 <? len_lists_pos then
      reading (modifyR (fun c =>
        let! m := getlast lists_pos in
        let! ms := setn (maxes c) pos m in Ok (set_maxes ms c)))
    else
      modifyR (fun s : ST => let! ls := deln (rows (snd s)) pos in Ok (fst s, set_rows ls (snd s))) ;;;
      reading (modifyR (fun c => let! ms := deln (maxes c) pos in Ok (set_maxes ms c))) ;;;
      reading (modify (set_index [])).

  (** The inherited methods of Model.v that call [_delete] ([__delitem__] of an integer, [pop]) use this table; those that pass
      a list to [update] are written out below. *)
  Definition h_vt : vtable ST V V := mkvt view put h_clear (fun l => r <- h_alloc l ;; h_update (HList r)) h_delete.

  (** [SortedList.discard] (sortedlist.py 330-360). *)
  Definition h_discard (value : V) : MH unit :=
    c <- reading get ;;
    if is_nil (maxes c) then ret tt
    else
      pos <- liftr (bisect_left lt (maxes c) value) ;;
      if pos =? length (maxes c) then ret tt
      else
        l <- liftr (getn (lists c) pos) ;;
        idx <- liftr (bisect_left lt l value) ;;
        x <- liftr (getn l idx) ;;
        e <- liftr (eq x value) ;;
        if e then h_delete pos idx else ret tt.

  (** [SortedList.remove] (sortedlist.py 362-398). *)
  Definition h_remove (value : V) : MH unit :=
    c <- reading get ;;
    if is_nil (maxes c) then raise ValueError
    else
      pos <- liftr (bisect_left lt (maxes c) value) ;;
      if pos =? length (maxes c) then raise ValueError
      else
        l <- liftr (getn (lists c) pos) ;;
        idx <- liftr (bisect_left lt l value) ;;
        x <- liftr (getn l idx) ;;
        e <- liftr (eq x value) ;;
        if e then h_delete pos idx else raise ValueError.

  (** [SortedList.__getitem__] for a slice, branch [step == 1] (sortedlist.py 773-803): the list returned. *)
  Definition h_getitem_fwd (start stop : Z) : MH ref :=
    c <- reading get ;;
    if ((start =? 0) && (stop =? Z.of_nat (len c)))%Z then h_flat
    else
      p <- reading (pos_of start) ;;
      let start_pos := fst p in
      let start_idx := snd p in
      start_list <- h_row start_pos ;;
      l <- h_cell start_list ;;
      let stop_idx := start_idx + Z.to_nat (stop - start) in
      if stop_idx <=? length l then h_alloc (slicen l start_idx stop_idx)
      else
        q <- reading (if (stop =? Z.of_nat (len c))%Z then
                        let stop_pos := length (lists c) - 1 in
                        l <- liftr (getn (lists c) stop_pos) ;;
                        ret (stop_pos, length l)
                      else pos_of stop) ;;
        let stop_pos := fst q in
        let stop_idx := snd q in
        r1 <- h_row start_pos ;;
        l1 <- h_cell r1 ;;
        prefix <- h_alloc (skipn start_idx l1) ;;
        modify (fun s : ST => (reduce_iadd (slicen (rows (snd s)) (start_pos + 1) stop_pos) prefix (fst s), snd s)) ;;;
        r2 <- h_row stop_pos ;;
        l2 <- h_cell r2 ;;
        tail <- h_alloc (firstn stop_idx l2) ;;
        modify (fun s : ST => (reduce_iadd [tail] prefix (fst s), snd s)) ;;;
        ret prefix.

  (** [SortedList.__getitem__] for a slice (sortedlist.py 769-812). *)
  Fixpoint h_getitem_slice_rec (fuel : nat) (sl : slice) : MH ref :=
    match fuel with
    | O => raise OutOfFuel
    | S f =>
        c <- reading get ;;
        t <- liftr (slice_indices sl (len c)) ;;
        let '(start, stop, step) := t in
        if ((step =? 1) && (start <? stop))%Z then h_getitem_fwd start stop
        else if ((step =? -1) && (stop <? start))%Z then
          result <- h_getitem_slice_rec f (mkslice (Some (stop + 1)%Z) (Some (start + 1)%Z) None) ;;
          l <- h_cell result ;;
          h_write result (rev l) ;;;
          ret result
        else
          values <- reading (mapM getitem_int (rangez start stop step)) ;;
          h_alloc values
    end.
  Definition h_getitem_slice (sl : slice) : MH ref := h_getitem_slice_rec 2 sl.

  (** [SortedList.__delitem__], slice (sortedlist.py 715-740). *)
  Definition h_delitem_slice (sl : slice) : MH unit :=
    c <- reading get ;;
    t <- liftr (slice_indices sl (len c)) ;;
    let '(start, stop, step) := t in
    let n := Z.of_nat (len c) in
    let loop :=
      (let indices := rangez start stop step in
       forM (delitem_int h_vt) (if (0 <? step)%Z then rev indices else indices)) in
    if ((step =? 1) && (start <? stop))%Z then
      if ((start =? 0) && (stop =? n))%Z then h_clear
      else if (n <=? 8 * (stop - start))%Z then
        values <- h_getitem_slice (mkslice None (Some start) None) ;;
        (if (stop <? n)%Z then
           more <- h_getitem_slice (mkslice (Some stop) None None) ;;
           modify (fun s : ST => (reduce_iadd [more] values (fst s), snd s))
         else ret tt) ;;;
        h_clear ;;;
        h_update (HList values)
      else loop
    else loop.

  (** [SortedList._reset] (sortedlist.py 156-177). *)
  Definition h_reset (ld : nat) : MH unit :=
    values <- h_flat ;;
    h_clear ;;;
    reading (modify (set_load ld)) ;;;
    h_update (HList values).

  (** [SortedList.__imul__] (sortedlist.py 1431-1450): [values * num] is a new list. *)
  Definition h_imul (num : Z) : MH unit :=
    values <- h_flat ;;
    l <- h_cell values ;;
    values <- h_alloc (list_mul l num) ;;
    h_clear ;;;
    h_update (HList values).

  (** Call of the class from a method; the new object comes with the state. *)
  Definition h_class (a : harg) : MH (hsl V) :=
    fun s => let (r, h) := h_new a (fst s) in (r, (h, snd s)).

  (** [SortedList.copy] (sortedlist.py 1189-1199). *)
  Definition h_copy : MH (hsl V) := fun s => h_class (HRows (rows (snd s))) s.

  (** [SortedList.__add__] (sortedlist.py 1366-1388). *)
  Definition h_plus (other : harg) : MH (hsl V) :=
    values <- h_flat ;;
    l <- h_cell values ;;
    o <- (fun s => (Ok (elems (fst s) other), s)) ;;
    h_write values (l ++ o) ;;;
    h_class (HList values).

  (** [SortedList.__mul__] (sortedlist.py 1411-1429). *)
  Definition h_mul (num : Z) : MH (hsl V) :=
    values <- h_flat ;;
    l <- h_cell values ;;
    values <- h_alloc (list_mul l num) ;;
    h_class (HList values).

  (** [SortedList.__reduce__] (sortedlist.py 1500-1502), and the call of the class with the unpickled copy of the list. *)
  Definition h_reduce : MH (hsl V) :=
    values <- h_flat ;;
    l <- h_cell values ;;
    values <- h_alloc l ;;
    h_class (HList values).

  (** One operation on a SortedList that takes no iterable and gives back no list or object. *)
  Definition h_step (o : lop V) (s : ST) : out V * ST :=
    match o with
    | LAdd v => observe runit (h_add v) s
    | LClear => observe runit h_clear s
    | LDiscard v => observe runit (h_discard v) s
    | LRemove v => observe runit (h_remove v) s
    | LContains v => observe (@RBool V) (reading (sl_contains lt eq v)) s
    | LGet i => observe (@RVal V) (reading (getitem_int i)) s
    | LDel i => observe runit (delitem_int h_vt i) s
    | LDelSlice sl => observe runit (h_delitem_slice sl) s
    | LPop i => observe (@RVal V) (pop h_vt i) s
    | LLen => observe (@RNat V) (reading length_of) s
    | LIter => observe (@RList V) (reading iter) s
    | LReversed => observe (@RList V) (reading reversed) s
    | LBisectLeft v => observe (@RNat V) (reading (sl_bisect_left lt v)) s
    | LBisectRight v => observe (@RNat V) (reading (sl_bisect_right lt v)) s
    | LCount v => observe (@RNat V) (reading (sl_count lt v)) s
    | LIndex v a b => observe (@RNat V) (reading (sl_index lt eq v a b)) s
    | LIRange mn mx a b r => observe (@RList V) (reading (sl_irange lt mn mx a b r)) s
    | LISlice a b r => observe (@RList V) (reading (islice a b r)) s
    | LReset ld => observe runit (h_reset ld) s
    | LIMul n => observe runit (h_imul n) s
    | LUnsupported => observe runit unsupported s
    | LUpdate _ | LIAdd _ | LPlus _ | LCompare _ _ | LSlice _ | LCopy | LMul _ | LReduce => (RExn TypeError, s)
    end.
End HeapList.

(** ** A program with several SortedLists and several lists of its own *)
Record world (V : Type) : Type := mkworld {
  w_heap : heap V;
  w_objs : list (hsl V);
  w_user : list ref }.

(** Names of the program: its [i]-th list, its [j]-th SortedList. *)
Inductive warg : Set := WUser (i : nat) | WObj (j : nat).

Inductive wop (V : Type) : Type :=
| WList (l : list V)                  (** a new list of the program *)
| WMutate (i : nat) (l : list V)      (** the program changes its [i]-th list, to [l] *)
| WLook (i : nat)                     (** ... and looks at it *)
| WNew (a : warg)                     (** a new SortedList *)
| WOp (i : nat) (o : lop V)           (** an operation without iterables, lists or new objects *)
| WUpdate (i : nat) (a : warg)
| WIAdd (i : nat) (a : warg)
| WCompare (i : nat) (op : cmpop) (a : warg)
| WSlice (i : nat) (sl : slice)       (** the result is one more list of the program *)
| WCopy (i : nat)                     (** the result of this and of the next three is one more SortedList *)
| WPlus (i : nat) (a : warg)
| WMul (i : nat) (n : Z)
| WReduce (i : nat).
Arguments WNew {V}. Arguments WLook {V}. Arguments WUpdate {V}. Arguments WIAdd {V}. Arguments WCompare {V}.
Arguments WSlice {V}. Arguments WCopy {V}. Arguments WPlus {V}. Arguments WMul {V}. Arguments WReduce {V}.

Section World.
  Context {V : Type}.
  Variables lt eq : V -> V -> res bool.
  Variable dflt : nat.
  Notation W := (world V).

  Definition w_arg (w : W) (a : warg) : res harg :=
    match a with
    | WUser i => let! r := getn (w_user w) i in Ok (HList r)
    | WObj j => let! o := getn (w_objs w) j in Ok (HRows (rows o))
    end.
  Fixpoint set_obj (l : list (hsl V)) (i : nat) (o : hsl V) : list (hsl V) :=
    match l, i with
    | [], _ => []
    | _ :: t, O => o :: t
    | x :: t, S i => x :: set_obj t i o
    end.
  (** An operation of the [i]-th SortedList.  A name that does not exist is an error of the program. *)
  Definition on_obj {A} (i : nat) (m : heap V * hsl V -> A * (heap V * hsl V)) (bad : exn -> A) (w : W) : A * W :=
    match getn (w_objs w) i with
    | Err e => (bad e, w)
    | Ok o => let '(r, (h, o)) := m (w_heap w, o) in (r, mkworld h (set_obj (w_objs w) i o) (w_user w))
    end.
  Definition new_obj (p : res (hsl V) * W) : out V * W :=
    match p with
    | (Ok o, w) => (RUnit, mkworld (w_heap w) (w_objs w ++ [o]) (w_user w))
    | (Err e, w) => (RExn e, w)
    end.
  Definition with_arg (a : warg) (f : harg -> W -> out V * W) (w : W) : out V * W :=
    match w_arg w a with Ok x => f x w | Err e => (RExn e, w) end.

  Definition w_step (o : wop V) (w : W) : out V * W :=
    match o with
    | WList l => let (r, h) := alloc (w_heap w) l in (RUnit, mkworld h (w_objs w) (w_user w ++ [r]))
    | WMutate i l =>
        match getn (w_user w) i with
        | Ok r => (RUnit, mkworld (write (w_heap w) r l) (w_objs w) (w_user w))
        | Err e => (RExn e, w)
        end
    | WLook i =>
        match getn (w_user w) i with
        | Ok r => (RList (cell (w_heap w) r), w)
        | Err e => (RExn e, w)
        end
    | WNew a => with_arg a (fun x w => let (r, h) := h_new lt dflt x (w_heap w) in new_obj (r, mkworld h (w_objs w) (w_user w))) w
    | WOp i o => on_obj i (h_step lt eq o) (@RExn V) w
    | WUpdate i a | WIAdd i a => with_arg a (fun x => on_obj i (observe runit (h_update lt x)) (@RExn V)) w
    | WCompare i op a =>
        with_arg a (fun x w => on_obj i (observe (@RBool V) (reading (compare lt eq op (elems (w_heap w) x)))) (@RExn V) w) w
    | WSlice i sl =>
        match on_obj i (h_getitem_slice sl) Err w with
        | (Ok r, w) => (RList (cell (w_heap w) r), mkworld (w_heap w) (w_objs w) (w_user w ++ [r]))
        | (Err e, w) => (RExn e, w)
        end
    | WCopy i => new_obj (on_obj i (h_copy lt dflt) Err w)
    | WPlus i a => with_arg a (fun x w => new_obj (on_obj i (h_plus lt dflt x) Err w)) w
    | WMul i n => new_obj (on_obj i (h_mul lt dflt n) Err w)
    | WReduce i => new_obj (on_obj i (h_reduce lt dflt) Err w)
    end.
  Definition w_run := run w_step.
  Definition w_init : W := mkworld [] [] [].
End World.

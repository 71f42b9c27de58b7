(** * SortedLists and SortedKeyLists on one heap of Python lists

    ModelHeap.v once more for SortedKeyList, whose [_lists] and [_keys] both hold references.  There is one type of Python values: values
    and keys are of this type, so that a list of [_keys] could be a list of [_lists] if the code made it so.  The methods that write to
    a list or create one are written out again; those that SortedKeyList inherits run the definitions of ModelHeap.v, and the others
    only read the internal lists and run the definitions of Model.v on what the references stand for. *)
From Verif Require Import PyBase Model History ModelHeap.
Local Set Implicit Arguments.

(** A SortedKeyList object (sortedlist.py 1644-1651): the slots of SortedList and the references of [_keys]. *)
Record khsl (V : Type) : Type := mkkhsl { kbase : hsl V; krows : list ref }.

Section HeapKeyList.
  Context {V : Type}.
  Variables lt eq : V -> V -> res bool.
  (** [self._key] *)
  Variable kf : V -> res V.
  Variable dflt : nat.
  Notation ST := (heap V * khsl V)%type.
  Notation MK := (M ST).

  (** What the object looks like when its references are followed. *)
  Definition kview (s : ST) : skl V V := let (h, o) := s in mkskl (view (h, kbase o)) (map (cell h) (krows o)).
  (** The slots other than [_lists] and [_keys] are written. *)
  Definition kput (c : skl V V) (s : ST) : ST :=
    let (h, o) := s in (h, mkkhsl (snd (put (kc c) (h, kbase o))) (krows o)).
  (** A method that does not write to the internal lists. *)
  Definition kreading {A} (m : M (skl V V) A) : MK A := zoom kview kput m.
  (** A method inherited from SortedList. *)
  Definition onbase {A} (m : M (heap V * hsl V) A) : MK A :=
    zoom (fun s : ST => (fst s, kbase (snd s))) (fun t (s : ST) => (fst t, mkkhsl (snd t) (krows (snd s)))) m.

  Definition set_krows (x : list ref) (o : khsl V) : khsl V := mkkhsl (kbase o) x.
  Definition k_alloc (x : list V) : MK ref := onbase (h_alloc x).
  Definition k_cell (r : ref) : MK (list V) := onbase (h_cell r).
  Definition k_write (r : ref) (x : list V) : MK unit := onbase (h_write r x).
  (** [reduce(iadd, self._lists, [])] *)
  Definition k_flat : MK ref := onbase h_flat.

  (** [SortedKeyList.clear] (sortedlist.py 1664-1676). *)
  Definition k_clear : MK unit :=
    modify (fun s : ST =>
      let (h, o) := s in (h, mkkhsl (mkhsl [] [] [] (hoffset (kbase o)) 0 (hload (kbase o))) [])).

  (** [SortedKeyList._expand] (sortedlist.py 1721-1757). *)
  Definition k_expand (pos : nat) : MK unit :=
    modifyR (fun s : ST =>
      let (h, o) := s in
      let b := kbase o in
      let! q := getn (krows o) pos in
      if hload b * 2 <? length (cell h q) then
        let! p := getn (rows b) pos in
        let (half, h) := alloc h (skipn (hload b) (cell h p)) in
        let (half_keys, h) := alloc h (skipn (hload b) (cell h q)) in
        let h := write h p (firstn (hload b) (cell h p)) in
        let h := write h q (firstn (hload b) (cell h q)) in
        let! m := getlast (cell h q) in
        let! ms := setn (hmaxes b) pos m in
        let! hm := getlast (cell h half_keys) in
        Ok (h, mkkhsl (mkhsl (insn (rows b) (pos + 1) half) (insn ms (pos + 1) hm) [] (hoffset b) (hlen b) (hload b))
                      (insn (krows o) (pos + 1) half_keys))
      else let! c := index_inc (view (h, b)) pos in Ok (h, mkkhsl (snd (put c (h, b))) (krows o))).

  (** [_keys[pos].append(key)], [_keys[pos].insert(idx, key)], [del _keys[pos][idx]]: the list at [pos] is changed. *)
  Definition k_change (pos : nat) (f : list V -> res (list V)) : MK unit :=
    modifyR (fun s : ST =>
      let (h, o) := s in
      let! p := getn (krows o) pos in
      let! l := f (cell h p) in
      Ok (write h p l, o)).

  (** [SortedKeyList.add] (sortedlist.py 1678-1719). *)
  Definition k_add (value : V) : MK unit :=
    key <- liftr (kf value) ;;
    s <- kreading get ;;
    (if is_nil (maxes (kc s)) then
       r <- k_alloc [value] ;;
       modify (fun s : ST => (fst s, mkkhsl (set_rows (rows (kbase (snd s)) ++ [r]) (kbase (snd s))) (krows (snd s)))) ;;;
       q <- k_alloc [key] ;;
       modify (fun s : ST => (fst s, set_krows (krows (snd s) ++ [q]) (snd s))) ;;;
       kreading (modify (on_kc (fun c => set_maxes (maxes c ++ [key]) c)))
     else
       pos <- liftr (bisect_right lt (maxes (kc s)) key) ;;
       if pos =? length (maxes (kc s)) then
         let pos := pos - 1 in
         onbase (h_change pos (fun l => Ok (l ++ [value]))) ;;;
         k_change pos (fun l => Ok (l ++ [key])) ;;;
         kreading (modifyR (fun s => let! ms := setn (maxes (kc s)) pos key in Ok (on_kc (set_maxes ms) s))) ;;;
         k_expand pos
       else
         ks <- liftr (getn (keys s) pos) ;;
         idx <- liftr (bisect_right lt ks key) ;;
         onbase (h_change pos (fun l => Ok (insn l idx value))) ;;;
         k_change pos (fun l => Ok (insn l idx key)) ;;;
         k_expand pos) ;;;
    kreading (modify (on_kc (fun c => set_len (len c + 1) c))).

  (** The tail of [SortedKeyList.update] (sortedlist.py 1790-1797): every slice and every [list(map(self._key, _list))] is a new list.
      Simplified as in Model.v: if the key function raises here the model leaves the object unchanged. *)
  Definition k_fill (values : ref) : MK unit :=
    modifyR (fun s : ST =>
      let (h, o) := s in
      let b := kbase o in
      let! cs := chunks (hload b) (cell h values) in
      let (rs, h) := alloc_all h cs in
      let ls := rows b ++ rs in
      let! nks := mapR (mapR kf) (map (cell h) ls) in
      let (qs, h) := alloc_all h nks in
      let kss := krows o ++ qs in
      let! ms := mapR getlast (map (cell h) kss) in
      Ok (h, mkkhsl (mkhsl ls (hmaxes b ++ ms) [] (hoffset b) (length (cell h values)) (hload b)) kss)).

  (** [for val in values: _add(val)] (sortedlist.py 1784-1787). *)
  Fixpoint k_add_each (fuel : nat) (values : ref) (i : nat) : MK unit :=
    match fuel with
    | O => ret tt
    | S f =>
        l <- k_cell values ;;
        if i <? length l then
          v <- liftr (getn l i) ;;
          k_add v ;;;
          k_add_each f values (i + 1)
        else ret tt
    end.

  (** [sorted(iterable, key=self._key)]: a new list. *)
  Definition k_sorted (a : harg) : MK ref :=
    fun s => match py_sorted_key lt kf (elems (fst s) a) with
             | Ok l => k_alloc l s
             | Err e => (Err e, s)
             end.
  (** [values.sort(key=self._key)], in place. *)
  Definition k_sort (r : ref) : MK unit :=
    l <- k_cell r ;; l <- liftr (py_sorted_key lt kf l) ;; k_write r l.

  (** [SortedKeyList.update] (sortedlist.py 1759-1799). *)
  Definition k_update (a : harg) : MK unit :=
    values <- k_sorted a ;;
    l <- k_cell values ;;
    s <- kreading get ;;
    if is_nil (maxes (kc s)) then k_fill values
    else if len (kc s) <=? length l * 4 then
      modify (fun s : ST => (fst s, mkkhsl (set_rows (rows (kbase (snd s)) ++ [values]) (kbase (snd s))) (krows (snd s)))) ;;;
      values <- k_flat ;;
      k_sort values ;;;
      k_clear ;;;
      k_fill values
    else k_add_each (length l) values 0.

  (** [SortedKeyList.__init__] (sortedlist.py 1620-1654). *)
  Definition k_new (a : harg) (h : heap V) : res (khsl V) * heap V :=
    match k_update a (h, mkkhsl (mkhsl [] [] [] 0 0 dflt) []) with
    | (Ok _, (h, o)) => (Ok o, h)
    | (Err e, (h, _)) => (Err e, h)
    end.

  (** [del _lists[pos]], [del _keys[pos]] *)
  Definition k_drop_row (pos : nat) : MK unit :=
    modifyR (fun s : ST =>
      let! ls := deln (rows (kbase (snd s))) pos in
      Ok (fst s, mkkhsl (set_rows ls (kbase (snd s))) (krows (snd s)))).
  Definition k_drop_keys (pos : nat) : MK unit :=
    modifyR (fun s : ST => let! kss := deln (krows (snd s)) pos in Ok (fst s, set_krows kss (snd s))).

  (** [SortedKeyList._delete] (sortedlist.py 1949-2006). *)
  Definition k_delete (pos idx : nat) : MK unit :=
    k_change pos (fun l => deln l idx) ;;;
    onbase (h_change pos (fun l => deln l idx)) ;;;
    kreading (modifyR (fun s => let! n := subc (len (kc s)) 1 in Ok (on_kc (set_len n) s))) ;;;
    s <- kreading get ;;
    keys_pos <- liftr (getn (keys s) pos) ;;
    let len_keys_pos := length keys_pos in
    if load (kc s) / 2 <? len_keys_pos then
      kreading (modifyR (fun s =>
        let! m := getlast keys_pos in
        let! ms := setn (maxes (kc s)) pos m in Ok (on_kc (set_maxes ms) s))) ;;;
      kreading (modifyR (fun s => let! c := index_dec (kc s) pos in Ok (set_kc c s)))
    else if 1 <? length (keys s) then
      let pos := if pos =? 0 then pos + 1 else pos in
      let prev := pos - 1 in
      modifyR (fun s : ST =>
        let (h, o) := s in
        let! p := getn (krows o) pos in
        let! q := getn (krows o) prev in
        Ok (write h q (cell h q ++ cell h p), o)) ;;;
      modifyR (fun s : ST =>
        let (h, o) := s in
        let! p := getn (rows (kbase o)) pos in
        let! q := getn (rows (kbase o)) prev in
        Ok (write h q (cell h q ++ cell h p), o)) ;;;
      kreading (modifyR (fun s =>
        let! l := getn (keys s) prev in
        let! m := getlast l in
        let! ms := setn (maxes (kc s)) prev m in Ok (on_kc (set_maxes ms) s))) ;;;
      k_drop_row pos ;;;
      k_drop_keys pos ;;;
      kreading (modifyR (fun s => let! ms := deln (maxes (kc s)) pos in Ok (on_kc (set_maxes ms) s))) ;;;
      kreading (modify (on_kc (set_index []))) ;;;
      k_expand prev
    else if 0 <? len_keys_pos then
      kreading (modifyR (fun s =>
        let! m := getlast keys_pos in
        let! ms := setn (maxes (kc s)) pos m in Ok (on_kc (set_maxes ms) s)))
    else
      k_drop_row pos ;;;
      k_drop_keys pos ;;;
      kreading (modifyR (fun s => let! ms := deln (maxes (kc s)) pos in Ok (on_kc (set_maxes ms) s))) ;;;
      kreading (modify (on_kc (set_index []))).

  (** For the inherited methods of Model.v that call [_delete] ([__delitem__] of an integer, [pop]). *)
  Definition k_vt : vtable ST V V :=
    mkvt (fun s => view (fst s, kbase (snd s)))
         (fun c s => (fst s, mkkhsl (snd (put c (fst s, kbase (snd s)))) (krows (snd s))))
         k_clear (fun l => r <- k_alloc l ;; k_update (HList r)) k_delete.

  (** [SortedKeyList.discard] (sortedlist.py 1849-1895), [remove] (1897-1947). *)
  Definition k_discard (value : V) : MK unit :=
    r <- kreading (skl_find eq lt eq kf value) ;;
    match r with Some p => k_delete (fst p) (snd p) | None => ret tt end.
  Definition k_remove (value : V) : MK unit :=
    r <- kreading (skl_find eq lt eq kf value) ;;
    match r with Some p => k_delete (fst p) (snd p) | None => raise ValueError end.

  (** [SortedList.__getitem__] for a slice (sortedlist.py 769-812), inherited. *)
  Definition k_getitem_slice (sl : slice) : MK ref := onbase (h_getitem_slice sl).

  (** [SortedList.__delitem__], slice (sortedlist.py 715-740), inherited: [self._delete], [self._clear] and [self._update] are those
      of SortedKeyList. *)
  Definition k_delitem_slice (sl : slice) : MK unit :=
    s <- kreading get ;;
    t <- liftr (slice_indices sl (len (kc s))) ;;
    let '(start, stop, step) := t in
    let n := Z.of_nat (len (kc s)) in
    let loop :=
      (let indices := rangez start stop step in
       forM (delitem_int k_vt) (if (0 <? step)%Z then rev indices else indices)) in
    if ((step =? 1) && (start <? stop))%Z then
      if ((start =? 0) && (stop =? n))%Z then k_clear
      else if (n <=? 8 * (stop - start))%Z then
        values <- k_getitem_slice (mkslice None (Some start) None) ;;
        (if (stop <? n)%Z then
           more <- k_getitem_slice (mkslice (Some stop) None None) ;;
           modify (fun s : ST => (reduce_iadd [more] values (fst s), snd s))
         else ret tt) ;;;
        k_clear ;;;
        k_update (HList values)
      else loop
    else loop.

  (** [SortedList._reset] (sortedlist.py 156-177), inherited. *)
  Definition k_reset (ld : nat) : MK unit :=
    values <- k_flat ;;
    k_clear ;;;
    kreading (modify (on_kc (set_load ld))) ;;;
    k_update (HList values).

  (** [SortedList.__imul__] (sortedlist.py 1431-1450), inherited. *)
  Definition k_imul (num : Z) : MK unit :=
    values <- k_flat ;;
    l <- k_cell values ;;
    values <- k_alloc (list_mul l num) ;;
    k_clear ;;;
    k_update (HList values).

  (** Call of the class with [key=self._key]; the new object comes with the state. *)
  Definition k_class (a : harg) : MK (khsl V) :=
    fun s => let (r, h) := k_new a (fst s) in (r, (h, snd s)).

  (** [SortedKeyList.copy] (sortedlist.py 2290-2300). *)
  Definition k_copy : MK (khsl V) := fun s => k_class (HRows (rows (kbase (snd s)))) s.

  (** [SortedKeyList.__add__] (sortedlist.py 2386-2409). *)
  Definition k_plus (other : harg) : MK (khsl V) :=
    values <- k_flat ;;
    l <- k_cell values ;;
    o <- (fun s => (Ok (elems (fst s) other), s)) ;;
    k_write values (l ++ o) ;;;
    k_class (HList values).

  (** [SortedKeyList.__mul__] (sortedlist.py 2411-2428). *)
  Definition k_mul (num : Z) : MK (khsl V) :=
    values <- k_flat ;;
    l <- k_cell values ;;
    values <- k_alloc (list_mul l num) ;;
    k_class (HList values).

  (** [SortedKeyList.__reduce__] (sortedlist.py 2430-2432), and the call of the class with the unpickled copy of the list. *)
  Definition k_reduce : MK (khsl V) :=
    values <- k_flat ;;
    l <- k_cell values ;;
    values <- k_alloc l ;;
    k_class (HList values).

  (** One operation on a SortedKeyList that takes no iterable and gives back no list or object. *)
  Definition k_step (o : kop V V) (s : ST) : out V * ST :=
    match o with
    | KBisectLeft k => observe (@RNat V) (kreading (skl_bisect_key_left lt kf k)) s
    | KBisectRight k => observe (@RNat V) (kreading (skl_bisect_key_right lt kf k)) s
    | KIRange mn mx a b r => observe (@RList V) (kreading (skl_irange_key lt mn mx a b r)) s
    | KList o =>
        match o with
        | LAdd v => observe runit (k_add v) s
        | LClear => observe runit k_clear s
        | LDiscard v => observe runit (k_discard v) s
        | LRemove v => observe runit (k_remove v) s
        | LContains v => observe (@RBool V) (kreading (skl_contains eq lt eq kf v)) s
        | LGet i => observe (@RVal V) (onbase (reading (getitem_int i))) s
        | LDel i => observe runit (delitem_int k_vt i) s
        | LDelSlice sl => observe runit (k_delitem_slice sl) s
        | LPop i => observe (@RVal V) (pop k_vt i) s
        | LLen => observe (@RNat V) (onbase (reading length_of)) s
        | LIter => observe (@RList V) (onbase (reading iter)) s
        | LReversed => observe (@RList V) (onbase (reading reversed)) s
        | LBisectLeft v => observe (@RNat V) (kreading (skl_bisect_left lt kf v)) s
        | LBisectRight v => observe (@RNat V) (kreading (skl_bisect_right lt kf v)) s
        | LCount v => observe (@RNat V) (kreading (skl_count eq lt eq kf v)) s
        | LIndex v a b => observe (@RNat V) (kreading (skl_index eq lt eq kf v a b)) s
        | LIRange mn mx a b r => observe (@RList V) (kreading (skl_irange lt kf mn mx a b r)) s
        | LISlice a b r => observe (@RList V) (onbase (reading (islice a b r))) s
        | LReset ld => observe runit (k_reset ld) s
        | LIMul n => observe runit (k_imul n) s
        | LUnsupported => observe runit unsupported s
        | LUpdate _ | LIAdd _ | LPlus _ | LCompare _ _ | LSlice _ | LCopy | LMul _ | LReduce => (RExn TypeError, s)
        end
    end.
End HeapKeyList.

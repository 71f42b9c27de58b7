(** * SortedKeyList when the key function and comparisons read the list

    The methods of SortedKeyList in Model.v that call the key function or compare, in the same words, for a key function and comparisons
    that are computations on the list itself (as in ModelReads.v for SortedList).  Where a method has read [_lists], [_keys] or [_maxes]
    before such a call and goes on with them, so does the model, which is right as long as the call does not change them. *)
From Verif Require Import PyBase Model History.
Local Set Implicit Arguments.

Section KReads.
  Context {V K : Type}.
  Notation SKL := (skl V K).
  Variables vlt eq : V -> V -> M SKL bool.
  Variables klt keq : K -> K -> M SKL bool.
  Variable kf : V -> M SKL K.
  Variable dflt : nat.

  (** [bisect_right], [bisect_left] of PyBase.v. *)
  Fixpoint kr_bisect_right_loop (fuel : nat) (a : list K) (x : K) (lo hi : nat) : M SKL nat :=
    match fuel with
    | O => raise OutOfFuel
    | S fuel' =>
        if lo <? hi then
          let mid := (lo + hi) / 2 in
          y <- liftr (getn a mid) ;;
          b <- klt x y ;;
          if b : bool then kr_bisect_right_loop fuel' a x lo mid
          else kr_bisect_right_loop fuel' a x (S mid) hi
        else ret lo
    end.
  Definition kr_bisect_right (a : list K) (x : K) : M SKL nat := kr_bisect_right_loop (S (length a)) a x 0 (length a).
  Fixpoint kr_bisect_left_loop (fuel : nat) (a : list K) (x : K) (lo hi : nat) : M SKL nat :=
    match fuel with
    | O => raise OutOfFuel
    | S fuel' =>
        if lo <? hi then
          let mid := (lo + hi) / 2 in
          y <- liftr (getn a mid) ;;
          b <- klt y x ;;
          if b : bool then kr_bisect_left_loop fuel' a x (S mid) hi
          else kr_bisect_left_loop fuel' a x lo mid
        else ret lo
    end.
  Definition kr_bisect_left (a : list K) (x : K) : M SKL nat := kr_bisect_left_loop (S (length a)) a x 0 (length a).

  (** [sorted(l, key=kf)] of PyBase.v: all keys first, then the pairs are sorted by them. *)
  Fixpoint kr_sort_ins (x : K * V) (l : list (K * V)) : M SKL (list (K * V)) :=
    match l with
    | [] => ret [x]
    | y :: t =>
        b <- klt (fst x) (fst y) ;;
        if b : bool then ret (x :: y :: t) else t' <- kr_sort_ins x t ;; ret (y :: t')
    end.
  Fixpoint kr_sort_acc (acc l : list (K * V)) : M SKL (list (K * V)) :=
    match l with
    | [] => ret acc
    | x :: t => acc' <- kr_sort_ins x acc ;; kr_sort_acc acc' t
    end.
  Definition kr_sorted_key (l : list V) : M SKL (list V) :=
    ks <- mapM kf l ;;
    ps <- kr_sort_acc [] (combine ks l) ;;
    ret (map snd ps).

  (** [SortedKeyList.add] (sortedlist.py:1678-1719). *)
  Definition kr_add (value : V) : M SKL unit :=
    key <- kf value ;;
    s <- get ;;
    (if is_nil (maxes (kc s)) then
       modify (fun s =>
         mkskl (set_maxes (maxes (kc s) ++ [key]) (set_lists (lists (kc s) ++ [[value]]) (kc s)))
               (keys s ++ [[key]]))
     else
       pos <- kr_bisect_right (maxes (kc s)) key ;;
       if pos =? length (maxes (kc s)) then
         let pos := pos - 1 in
         modifyR (fun s =>
           let! ls := updn (lists (kc s)) pos (fun l => Ok (l ++ [value])) in
           Ok (on_kc (set_lists ls) s)) ;;;
         modifyR (fun s =>
           let! kss := updn (keys s) pos (fun l => Ok (l ++ [key])) in Ok (set_keys kss s)) ;;;
         modifyR (fun s =>
           let! ms := setn (maxes (kc s)) pos key in Ok (on_kc (set_maxes ms) s)) ;;;
         skl_expand pos
       else
         ks <- liftr (getn (keys s) pos) ;;
         idx <- kr_bisect_right ks key ;;
         modifyR (fun s =>
           let! ls := updn (lists (kc s)) pos (fun l => Ok (insn l idx value)) in
           Ok (on_kc (set_lists ls) s)) ;;;
         modifyR (fun s =>
           let! kss := updn (keys s) pos (fun l => Ok (insn l idx key)) in Ok (set_keys kss s)) ;;;
         skl_expand pos) ;;;
    modify (on_kc (fun c => set_len (len c + 1) c)).

  (** The tail of [SortedKeyList.update] (sortedlist.py:1790-1797): the key function is called when [_lists] is filled already (1790-1793),
      [_keys] in part (1794), [_maxes] not yet and [_len] is still 0. *)
  Definition kr_fill (values : list V) : M SKL unit :=
    modifyR (fun s =>
      let! cs := chunks (load (kc s)) values in
      Ok (on_kc (fun c => set_lists (lists c ++ cs) c) s)) ;;;
    s <- get ;;
    forM (fun l => ks <- mapM kf l ;; modify (fun s => set_keys (keys s ++ [ks]) s)) (lists (kc s)) ;;;
    modifyR (fun s =>
      let! ms := mapR getlast (keys s) in
      Ok (on_kc (fun c => set_index [] (set_len (length values) (set_maxes (maxes c ++ ms) c))) s)).

  (** [SortedKeyList.update] (sortedlist.py:1759-1799). *)
  Definition kr_update (iterable : list V) : M SKL unit :=
    values <- kr_sorted_key iterable ;;
    s <- get ;;
    if is_nil (maxes (kc s)) then kr_fill values
    else if len (kc s) <=? length values * 4 then
      modify (on_kc (fun c => set_lists (lists c ++ [values]) c)) ;;;
      s <- get ;;
      values <- kr_sorted_key (concat (lists (kc s))) ;;
      skl_clear ;;;
      kr_fill values
    else forM kr_add values.

  Definition kr_vt : vtable SKL V K := mkvt (@kc V K) set_kc (@skl_clear V K) kr_update (@skl_delete V K).

  (** [SortedKeyList(iterable, key=self._key)] (sortedlist.py:1620-1654), called while [self] is the list that is read: the key function
      is called for the sort and again for [_keys]. *)
  Definition kr_new (iterable : list V) : M SKL SKL :=
    values <- kr_sorted_key iterable ;;
    cs <- liftr (chunks dflt values) ;;
    kss <- mapM (mapM kf) cs ;;
    ms <- liftr (mapR getlast kss) ;;
    ret (mkskl (mkcore cs ms [] 0 (length values) dflt) kss).

  (** The loop of [__contains__], [discard], [remove] (sortedlist.py:1836-1847, 1883-1895, 1935-1947). *)
  Fixpoint kr_scan_loop (fuel : nat) (s : SKL) (key : K) (value : V) (pos idx len_sublist : nat) : M SKL (option (nat * nat)) :=
    match fuel with
    | O => raise OutOfFuel
    | S f =>
        ks <- liftr (getn (keys s) pos) ;;
        k <- liftr (getn ks idx) ;;
        same <- keq k key ;;
        if negb same then ret None
        else
          l <- liftr (getn (lists (kc s)) pos) ;;
          x <- liftr (getn l idx) ;;
          found <- eq x value ;;
          if found : bool then ret (Some (pos, idx))
          else
            let idx := idx + 1 in
            if idx =? len_sublist then
              let pos := pos + 1 in
              if pos =? length (keys s) then ret None
              else
                ks' <- liftr (getn (keys s) pos) ;;
                kr_scan_loop f s key value pos 0 (length ks')
            else kr_scan_loop f s key value pos idx len_sublist
    end.

  (** Their common beginning (sortedlist.py:1817-1834, 1866-1881, 1918-1933). *)
  Definition kr_find (value : V) : M SKL (option (nat * nat)) :=
    s <- get ;;
    if is_nil (maxes (kc s)) then ret None
    else
      key <- kf value ;;
      pos <- kr_bisect_left (maxes (kc s)) key ;;
      if pos =? length (maxes (kc s)) then ret None
      else
        ks <- liftr (getn (keys s) pos) ;;
        idx <- kr_bisect_left ks key ;;
        kr_scan_loop (scan_fuel s) s key value pos idx (length ks).
  Definition kr_contains (value : V) : M SKL bool :=
    r <- kr_find value ;;
    ret (match r with Some _ => true | None => false end).
  Definition kr_discard (value : V) : M SKL unit :=
    r <- kr_find value ;;
    match r with Some p => skl_delete (fst p) (snd p) | None => ret tt end.
  Definition kr_remove (value : V) : M SKL unit :=
    r <- kr_find value ;;
    match r with Some p => skl_delete (fst p) (snd p) | None => raise ValueError end.

  (** [SortedKeyList.irange_key], [irange] (sortedlist.py:2008-2128). *)
  Definition kr_irange_key (min_key max_key : option K) (incl_min incl_max reverse : bool) : M SKL (list V) :=
    s <- get ;;
    let c := kc s in
    if is_nil (maxes c) then ret []
    else
      mn <- (match min_key with
             | None => ret (Some (0, 0))
             | Some m =>
                 let bis := if incl_min then kr_bisect_left else kr_bisect_right in
                 min_pos <- bis (maxes c) m ;;
                 if min_pos =? length (maxes c) then ret None
                 else
                   l <- liftr (getn (keys s) min_pos) ;;
                   min_idx <- bis l m ;;
                   ret (Some (min_pos, min_idx))
             end) ;;
      match mn with
      | None => ret []
      | Some (min_pos, min_idx) =>
          mx <- (match max_key with
                 | None =>
                     let max_pos := length (maxes c) - 1 in
                     l <- liftr (getn (keys s) max_pos) ;;
                     ret (max_pos, length l)
                 | Some m =>
                     let bis := if incl_max then kr_bisect_right else kr_bisect_left in
                     max_pos <- bis (maxes c) m ;;
                     if max_pos =? length (maxes c) then
                       let max_pos := max_pos - 1 in
                       l <- liftr (getn (keys s) max_pos) ;;
                       ret (max_pos, length l)
                     else
                       l <- liftr (getn (keys s) max_pos) ;;
                       max_idx <- bis l m ;;
                       ret (max_pos, max_idx)
                 end) ;;
          liftr (islice_pairs (lists c) min_pos min_idx (fst mx) (snd mx) reverse)
      end.
  Definition kr_key_opt (o : option V) : M SKL (option K) :=
    match o with None => ret None | Some v => k <- kf v ;; ret (Some k) end.
  Definition kr_irange (minimum maximum : option V) (incl_min incl_max reverse : bool) : M SKL (list V) :=
    min_key <- kr_key_opt minimum ;;
    max_key <- kr_key_opt maximum ;;
    kr_irange_key min_key max_key incl_min incl_max reverse.

  (** A method of the shared part. *)
  Definition shared {A} (m : M (core V K) A) : M SKL A := oncore kr_vt m.

  (** [SortedKeyList.bisect_key_left], [bisect_key_right] (sortedlist.py:2174-2243), [bisect_left], [bisect_right] (2130-2172). *)
  Definition kr_rank_key (bis : list K -> K -> M SKL nat) (key : K) : M SKL nat :=
    s <- get ;;
    if is_nil (maxes (kc s)) then ret 0
    else
      pos <- bis (maxes (kc s)) key ;;
      if pos =? length (maxes (kc s)) then ret (len (kc s))
      else
        ks <- liftr (getn (keys s) pos) ;;
        idx <- bis ks key ;;
        shared (loc pos idx).
  Definition kr_rank (bis : list K -> K -> M SKL nat) (value : V) : M SKL nat :=
    key <- kf value ;; kr_rank_key bis key.

  (** [SortedKeyList.count] (sortedlist.py:2245-2288). *)
  Fixpoint kr_count_loop (fuel : nat) (s : SKL) (key : K) (value : V) (pos idx len_sublist total : nat) : M SKL nat :=
    match fuel with
    | O => raise OutOfFuel
    | S f =>
        ks <- liftr (getn (keys s) pos) ;;
        k <- liftr (getn ks idx) ;;
        same <- keq k key ;;
        if negb same then ret total
        else
          l <- liftr (getn (lists (kc s)) pos) ;;
          x <- liftr (getn l idx) ;;
          found <- eq x value ;;
          let total := if found : bool then total + 1 else total in
          let idx := idx + 1 in
          if idx =? len_sublist then
            let pos := pos + 1 in
            if pos =? length (keys s) then ret total
            else
              ks' <- liftr (getn (keys s) pos) ;;
              kr_count_loop f s key value pos 0 (length ks') total
          else kr_count_loop f s key value pos idx len_sublist total
    end.
  Definition kr_count (value : V) : M SKL nat :=
    s <- get ;;
    if is_nil (maxes (kc s)) then ret 0
    else
      key <- kf value ;;
      pos <- kr_bisect_left (maxes (kc s)) key ;;
      if pos =? length (maxes (kc s)) then ret 0
      else
        ks <- liftr (getn (keys s) pos) ;;
        idx <- kr_bisect_left ks key ;;
        kr_count_loop (scan_fuel s) s key value pos idx (length ks) 0.

  (** [SortedKeyList.index] (sortedlist.py:2302-2384). *)
  Fixpoint kr_index_loop (fuel : nat) (key : K) (value : V) (start stop : Z) (pos idx len_sublist : nat) : M SKL nat :=
    match fuel with
    | O => raise OutOfFuel
    | S f =>
        s <- get ;;
        ks <- liftr (getn (keys s) pos) ;;
        k <- liftr (getn ks idx) ;;
        same <- keq k key ;;
        if negb same then raise ValueError
        else
          l <- liftr (getn (lists (kc s)) pos) ;;
          x <- liftr (getn l idx) ;;
          found <- eq x value ;;
          let continue :=
            (let idx := idx + 1 in
             if idx =? len_sublist then
               let pos := pos + 1 in
               if pos =? length (keys s) then raise ValueError
               else
                 ks' <- liftr (getn (keys s) pos) ;;
                 kr_index_loop f key value start stop pos 0 (length ks')
             else kr_index_loop f key value start stop pos idx len_sublist) in
          if found : bool then
            l <- shared (loc pos idx) ;;
            if ((start <=? Z.of_nat l) && (Z.of_nat l <=? stop))%Z then ret l
            else if (stop <? Z.of_nat l)%Z then raise ValueError
            else continue
          else continue
    end.
  Definition kr_index (value : V) (start stop : option Z) : M SKL nat :=
    s <- get ;;
    if len (kc s) =? 0 then raise ValueError
    else
      let n := Z.of_nat (len (kc s)) in
      let start := index_start start n in
      let stop := index_stop stop n in
      if (stop <=? start)%Z then raise ValueError
      else
        key <- kf value ;;
        pos <- kr_bisect_left (maxes (kc s)) key ;;
        if pos =? length (maxes (kc s)) then raise ValueError
        else
          let stop := (stop - 1)%Z in
          ks <- liftr (getn (keys s) pos) ;;
          idx <- kr_bisect_left ks key ;;
          kr_index_loop (scan_fuel s) key value start stop pos idx (length ks).

  (** [SortedList.__make_cmp] (sortedlist.py:1452-1474). *)
  Definition kr_cmp_elt (op : cmpop) (a b : V) : M SKL bool :=
    match op with
    | Ceq => eq a b
    | Cne => r <- eq a b ;; ret (negb r)
    | Clt => vlt a b
    | Cgt => vlt b a
    | Cle => r <- vlt b a ;; ret (negb r)
    | Cge => r <- vlt a b ;; ret (negb r)
    end.
  Fixpoint kr_cmp_loop (op : cmpop) (self_len len_other : nat) (l o : list V) : M SKL bool :=
    match l, o with
    | a :: l', b :: o' =>
        e <- eq a b ;;
        if e : bool then kr_cmp_loop op self_len len_other l' o' else kr_cmp_elt op a b
    | _, _ => ret (cmp_nat op self_len len_other)
    end.
  Definition kr_compare (op : cmpop) (other : list V) : M SKL bool :=
    s <- get ;;
    let self_len := len (kc s) in
    let len_other := length other in
    if negb (self_len =? len_other) && (match op with Ceq => true | _ => false end) then ret false
    else if negb (self_len =? len_other) && (match op with Cne => true | _ => false end) then ret true
    else kr_cmp_loop op self_len len_other (concat (lists (kc s))) other.

  (** One operation; those that neither compare nor call the key function are the ones of Model.v. *)
  Definition kr_lstep (o : lop V) (s : SKL) : out V * SKL :=
    match o with
    | LAdd v => observe runit (kr_add v) s
    | LUpdate it => observe runit (kr_update it) s
    | LClear => observe runit (@skl_clear V K) s
    | LDiscard v => observe runit (kr_discard v) s
    | LRemove v => observe runit (kr_remove v) s
    | LContains v => observe (@RBool V) (kr_contains v) s
    | LGet i => observe (@RVal V) (shared (getitem_int i)) s
    | LSlice sl => observe (@RList V) (shared (getitem_slice sl)) s
    | LDel i => observe runit (delitem_int kr_vt i) s
    | LDelSlice sl => observe runit (delitem_slice kr_vt sl) s
    | LPop i => observe (@RVal V) (pop kr_vt i) s
    | LLen => observe (@RNat V) (shared length_of) s
    | LIter => observe (@RList V) (shared iter) s
    | LReversed => observe (@RList V) (shared reversed) s
    | LBisectLeft v => observe (@RNat V) (kr_rank kr_bisect_left v) s
    | LBisectRight v => observe (@RNat V) (kr_rank kr_bisect_right v) s
    | LCount v => observe (@RNat V) (kr_count v) s
    | LIndex v a b => observe (@RNat V) (kr_index v a b) s
    | LIRange mn mx a b r => observe (@RList V) (kr_irange mn mx a b r) s
    | LISlice a b r => observe (@RList V) (shared (islice a b r)) s
    | LReset ld => observe runit (reset kr_vt ld) s
    | LIAdd it => observe runit (iadd kr_vt it) s
    | LIMul n => observe runit (imul kr_vt n) s
    | LCopy => rebind (s <- get ;; kr_new (concat (lists (kc s)))) s
    | LPlus it => rebind (s <- get ;; kr_new (contents (kc s) ++ it)) s
    | LMul n => rebind (s <- get ;; kr_new (list_mul (contents (kc s)) n)) s
    | LReduce => rebind (s <- get ;; kr_new (contents (kc s))) s
    | LCompare op other => observe (@RBool V) (kr_compare op other) s
    | LUnsupported => observe runit (@unsupported _) s
    end.
  Definition kr_step (o : kop V K) (s : SKL) : out V * SKL :=
    match o with
    | KList o => kr_lstep o s
    | KBisectLeft k => observe (@RNat V) (kr_rank_key kr_bisect_left k) s
    | KBisectRight k => observe (@RNat V) (kr_rank_key kr_bisect_right k) s
    | KIRange mn mx a b r => observe (@RList V) (kr_irange_key mn mx a b r) s
    end.
End KReads.

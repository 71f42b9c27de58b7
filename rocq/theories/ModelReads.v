(** * SortedList when comparisons read the list

    The methods of Model.v that compare, in the same words, for comparisons that are computations on the list itself: [a < b] may call
    methods of the SortedList that is just comparing [a] and [b].  What such a comparison leaves of the index is seen by the rest of the
    method.  The locals [_lists] and [_maxes] of the methods are the lists of the object; where a method has read them before a comparison
    and goes on with them, so does the model, which is right as long as the comparison does not change them. *)
From Verif Require Import PyBase Model History.
Local Set Implicit Arguments.

Section Reads.
  Context {V : Type}.
  Notation SL := (core V V).
  Variables lt eq : V -> V -> M SL bool.
  Variable dflt : nat.

  (** [bisect_right], [bisect_left], [sorted] of PyBase.v. *)
  Fixpoint r_bisect_right_loop (fuel : nat) (a : list V) (x : V) (lo hi : nat) : M SL nat :=
    match fuel with
    | O => raise OutOfFuel
    | S fuel' =>
        if lo <? hi then
          let mid := (lo + hi) / 2 in
          y <- liftr (getn a mid) ;;
          b <- lt x y ;;
          if b : bool then r_bisect_right_loop fuel' a x lo mid
          else r_bisect_right_loop fuel' a x (S mid) hi
        else ret lo
    end.
  Definition r_bisect_right (a : list V) (x : V) : M SL nat := r_bisect_right_loop (S (length a)) a x 0 (length a).
  Fixpoint r_bisect_left_loop (fuel : nat) (a : list V) (x : V) (lo hi : nat) : M SL nat :=
    match fuel with
    | O => raise OutOfFuel
    | S fuel' =>
        if lo <? hi then
          let mid := (lo + hi) / 2 in
          y <- liftr (getn a mid) ;;
          b <- lt y x ;;
          if b : bool then r_bisect_left_loop fuel' a x (S mid) hi
          else r_bisect_left_loop fuel' a x lo mid
        else ret lo
    end.
  Definition r_bisect_left (a : list V) (x : V) : M SL nat := r_bisect_left_loop (S (length a)) a x 0 (length a).
  Fixpoint r_sort_ins (x : V) (l : list V) : M SL (list V) :=
    match l with
    | [] => ret [x]
    | y :: t =>
        b <- lt x y ;;
        if b : bool then ret (x :: y :: t) else t' <- r_sort_ins x t ;; ret (y :: t')
    end.
  Fixpoint r_sort_acc (acc l : list V) : M SL (list V) :=
    match l with
    | [] => ret acc
    | x :: t => acc' <- r_sort_ins x acc ;; r_sort_acc acc' t
    end.
  Definition r_sorted (l : list V) : M SL (list V) := r_sort_acc [] l.

  (** [SortedList.add] (sortedlist.py:193-226). *)
  Definition r_add (value : V) : M SL unit :=
    c <- get ;;
    (if is_nil (maxes c) then
       modify (fun c => set_maxes (maxes c ++ [value]) (set_lists (lists c ++ [[value]]) c))
     else
       pos <- r_bisect_right (maxes c) value ;;
       if pos =? length (maxes c) then
         let pos := pos - 1 in
         modifyR (fun c =>
           let! ls := updn (lists c) pos (fun l => Ok (l ++ [value])) in
           Ok (set_lists ls c)) ;;;
         modifyR (fun c =>
           let! ms := setn (maxes c) pos value in Ok (set_maxes ms c)) ;;;
         sl_expand pos
       else
         (* insort(_lists[pos], value) *)
         l <- liftr (getn (lists c) pos) ;;
         idx <- r_bisect_right l value ;;
         modifyR (fun c =>
           let! ls := updn (lists c) pos (fun l => Ok (insn l idx value)) in
           Ok (set_lists ls c)) ;;;
         sl_expand pos) ;;;
    modify (fun c => set_len (len c + 1) c).

  (** [SortedList.update] (sortedlist.py:261-298): [values.sort()] (282) compares when [_lists] has already been extended (280). *)
  Definition r_update (iterable : list V) : M SL unit :=
    values <- r_sorted iterable ;;
    c <- get ;;
    if is_nil (maxes c) then sl_fill values
    else if len c <=? length values * 4 then
      modify (fun c => set_lists (lists c ++ [values]) c) ;;;
      c <- get ;;
      values <- r_sorted (concat (lists c)) ;;
      sl_clear ;;;
      sl_fill values
    else forM r_add values.

  Definition r_vt : vtable SL V V := mkvt (fun c => c) (fun c _ => c) (@sl_clear V) r_update (@sl_delete V).

  (** [SortedList(iterable)] (sortedlist.py:89-116), called while [self] is the list that comparisons read. *)
  Definition r_new (iterable : list V) : M SL SL :=
    values <- r_sorted iterable ;;
    liftr (match sl_fill values (core_empty dflt) with (Ok _, c) => Ok c | (Err e, _) => Err e end).

  (** [SortedList.__contains__], [discard], [remove] (sortedlist.py:300-398). *)
  Definition r_find {A} (value : V) (absent : M SL A) (found : nat -> nat -> bool -> M SL A) : M SL A :=
    c <- get ;;
    if is_nil (maxes c) then absent
    else
      pos <- r_bisect_left (maxes c) value ;;
      if pos =? length (maxes c) then absent
      else
        l <- liftr (getn (lists c) pos) ;;
        idx <- r_bisect_left l value ;;
        x <- liftr (getn l idx) ;;
        e <- eq x value ;;
        found pos idx e.
  Definition r_contains (value : V) : M SL bool := r_find value (ret false) (fun _ _ e => ret e).
  Definition r_discard (value : V) : M SL unit :=
    r_find value (ret tt) (fun pos idx e => if e then sl_delete pos idx else ret tt).
  Definition r_remove (value : V) : M SL unit :=
    r_find value (raise ValueError) (fun pos idx e => if e then sl_delete pos idx else raise ValueError).

  (** [SortedList.bisect_left], [bisect_right] (sortedlist.py:1085-1148). *)
  Definition r_rank_left (value : V) : M SL nat :=
    c <- get ;;
    if is_nil (maxes c) then ret 0
    else
      pos <- r_bisect_left (maxes c) value ;;
      if pos =? length (maxes c) then ret (len c)
      else
        l <- liftr (getn (lists c) pos) ;;
        idx <- r_bisect_left l value ;;
        loc pos idx.
  Definition r_rank_right (value : V) : M SL nat :=
    c <- get ;;
    if is_nil (maxes c) then ret 0
    else
      pos <- r_bisect_right (maxes c) value ;;
      if pos =? length (maxes c) then ret (len c)
      else
        l <- liftr (getn (lists c) pos) ;;
        idx <- r_bisect_right l value ;;
        loc pos idx.

  (** [SortedList.count] (sortedlist.py:1150-1187). *)
  Definition r_count (value : V) : M SL nat :=
    c <- get ;;
    if is_nil (maxes c) then ret 0
    else
      pos_left <- r_bisect_left (maxes c) value ;;
      if pos_left =? length (maxes c) then ret 0
      else
        l <- liftr (getn (lists c) pos_left) ;;
        idx_left <- r_bisect_left l value ;;
        pos_right <- r_bisect_right (maxes c) value ;;
        if pos_right =? length (maxes c) then
          left <- loc pos_left idx_left ;;
          liftr (subc (len c) left)
        else
          r <- liftr (getn (lists c) pos_right) ;;
          idx_right <- r_bisect_right r value ;;
          if pos_left =? pos_right then liftr (subc idx_right idx_left)
          else
            right <- loc pos_right idx_right ;;
            left <- loc pos_left idx_left ;;
            liftr (subc right left).

  (** [SortedList.index] (sortedlist.py:1290-1364). *)
  Definition r_index (value : V) (start stop : option Z) : M SL nat :=
    c <- get ;;
    if len c =? 0 then raise ValueError
    else
      let n := Z.of_nat (len c) in
      let start := index_start start n in
      let stop := index_stop stop n in
      if (stop <=? start)%Z then raise ValueError
      else
        pos_left <- r_bisect_left (maxes c) value ;;
        if pos_left =? length (maxes c) then raise ValueError
        else
          l <- liftr (getn (lists c) pos_left) ;;
          idx_left <- r_bisect_left l value ;;
          x <- liftr (getn l idx_left) ;;
          e <- eq x value ;;
          if negb e then raise ValueError
          else
            let stop := (stop - 1)%Z in
            left <- loc pos_left idx_left ;;
            if (start <=? Z.of_nat left)%Z then
              if (Z.of_nat left <=? stop)%Z then ret left else raise ValueError
            else
              right <- r_rank_right value ;;
              if (start <=? Z.of_nat right - 1)%Z then ret (Z.to_nat start)
              else raise ValueError.

  (** [SortedList.irange] (sortedlist.py:994-1073). *)
  Definition r_irange (minimum maximum : option V) (incl_min incl_max reverse : bool) : M SL (list V) :=
    c <- get ;;
    if is_nil (maxes c) then ret []
    else
      mn <- (match minimum with
             | None => ret (Some (0, 0))
             | Some m =>
                 let bis := if incl_min then r_bisect_left else r_bisect_right in
                 min_pos <- bis (maxes c) m ;;
                 if min_pos =? length (maxes c) then ret None
                 else
                   l <- liftr (getn (lists c) min_pos) ;;
                   min_idx <- bis l m ;;
                   ret (Some (min_pos, min_idx))
             end) ;;
      match mn with
      | None => ret []
      | Some (min_pos, min_idx) =>
          mx <- (match maximum with
                 | None =>
                     let max_pos := length (maxes c) - 1 in
                     l <- liftr (getn (lists c) max_pos) ;;
                     ret (max_pos, length l)
                 | Some m =>
                     let bis := if incl_max then r_bisect_right else r_bisect_left in
                     max_pos <- bis (maxes c) m ;;
                     if max_pos =? length (maxes c) then
                       let max_pos := max_pos - 1 in
                       l <- liftr (getn (lists c) max_pos) ;;
                       ret (max_pos, length l)
                     else
                       l <- liftr (getn (lists c) max_pos) ;;
                       max_idx <- bis l m ;;
                       ret (max_pos, max_idx)
                 end) ;;
          liftr (islice_pairs (lists c) min_pos min_idx (fst mx) (snd mx) reverse)
      end.

  (** [SortedList.__make_cmp] (sortedlist.py:1452-1474). *)
  Definition r_cmp_elt (op : cmpop) (a b : V) : M SL bool :=
    match op with
    | Ceq => eq a b
    | Cne => r <- eq a b ;; ret (negb r)
    | Clt => lt a b
    | Cgt => lt b a
    | Cle => r <- lt b a ;; ret (negb r)
    | Cge => r <- lt a b ;; ret (negb r)
    end.
  Fixpoint r_cmp_loop (op : cmpop) (self_len len_other : nat) (l o : list V) : M SL bool :=
    match l, o with
    | a :: l', b :: o' =>
        e <- eq a b ;;
        if e : bool then r_cmp_loop op self_len len_other l' o' else r_cmp_elt op a b
    | _, _ => ret (cmp_nat op self_len len_other)
    end.
  Definition r_compare (op : cmpop) (other : list V) : M SL bool :=
    c <- get ;;
    let self_len := len c in
    let len_other := length other in
    if negb (self_len =? len_other) && (match op with Ceq => true | _ => false end) then ret false
    else if negb (self_len =? len_other) && (match op with Cne => true | _ => false end) then ret true
    else r_cmp_loop op self_len len_other (concat (lists c)) other.

  (** One operation; those that do not compare are the ones of Model.v, and [sl[a:b]] deletion, [_reset], [*=] and [+=] call
      [update] of this file. *)
  Definition r_step (o : lop V) (s : SL) : out V * SL :=
    match o with
    | LAdd v => observe runit (r_add v) s
    | LUpdate it => observe runit (r_update it) s
    | LClear => observe runit (@sl_clear V) s
    | LDiscard v => observe runit (r_discard v) s
    | LRemove v => observe runit (r_remove v) s
    | LContains v => observe (@RBool V) (r_contains v) s
    | LGet i => observe (@RVal V) (getitem_int i) s
    | LSlice sl => observe (@RList V) (getitem_slice sl) s
    | LDel i => observe runit (delitem_int r_vt i) s
    | LDelSlice sl => observe runit (delitem_slice r_vt sl) s
    | LPop i => observe (@RVal V) (pop r_vt i) s
    | LLen => observe (@RNat V) length_of s
    | LIter => observe (@RList V) iter s
    | LReversed => observe (@RList V) reversed s
    | LBisectLeft v => observe (@RNat V) (r_rank_left v) s
    | LBisectRight v => observe (@RNat V) (r_rank_right v) s
    | LCount v => observe (@RNat V) (r_count v) s
    | LIndex v a b => observe (@RNat V) (r_index v a b) s
    | LIRange mn mx a b r => observe (@RList V) (r_irange mn mx a b r) s
    | LISlice a b r => observe (@RList V) (islice a b r) s
    | LReset ld => observe runit (reset r_vt ld) s
    | LIAdd it => observe runit (iadd r_vt it) s
    | LIMul n => observe runit (imul r_vt n) s
    | LCopy => rebind (c <- get ;; r_new (concat (lists c))) s
    | LPlus it => rebind (c <- get ;; r_new (contents c ++ it)) s
    | LMul n => rebind (c <- get ;; r_new (list_mul (contents c) n)) s
    | LReduce => rebind (c <- get ;; r_new (contents c)) s
    | LCompare op other => observe (@RBool V) (r_compare op other) s
    | LUnsupported => observe runit (@unsupported _) s
    end.
End Reads.

(** * SortedList and SortedKeyList when [<], [==] and the key function have effects

    In Model.v comparisons and the key function are functions of their arguments.  Here each call of one of them is a step of a world [W]
    outside of the container: it may answer differently every time (values that change, random keys, clocks), may raise at one time and
    not at another, and may leave any trace in the world.  It neither reads nor changes the container itself.  The methods are those of
    Model.v in the same words, on states [W * S]; parts that call nothing of the user are taken from Model.v. *)
From Verif Require Import PyBase Model History.
Local Set Implicit Arguments.

Section Parts.
  Context {W S A : Type}.
  (** A call of user code, a step of the container. *)
  Definition user (m : M W A) : M (W * S) A := zoom fst (fun w s => (w, snd s)) m.
  Definition own (m : M S A) : M (W * S) A := zoom snd (fun c s => (fst s, c)) m.
End Parts.

(** [bisect_right], [bisect_left] of PyBase.v. *)
Section Bisect.
  Context {W A : Type}.
  Variable lt : A -> A -> M W bool.
  Fixpoint e_bisect_right_loop (fuel : nat) (a : list A) (x : A) (lo hi : nat) : M W nat :=
    match fuel with
    | O => raise OutOfFuel
    | S fuel' =>
        if lo <? hi then
          let mid := (lo + hi) / 2 in
          y <- liftr (getn a mid) ;;
          b <- lt x y ;;
          if b : bool then e_bisect_right_loop fuel' a x lo mid
          else e_bisect_right_loop fuel' a x (S mid) hi
        else ret lo
    end.
  Definition e_bisect_right (a : list A) (x : A) : M W nat := e_bisect_right_loop (S (length a)) a x 0 (length a).
  Fixpoint e_bisect_left_loop (fuel : nat) (a : list A) (x : A) (lo hi : nat) : M W nat :=
    match fuel with
    | O => raise OutOfFuel
    | S fuel' =>
        if lo <? hi then
          let mid := (lo + hi) / 2 in
          y <- liftr (getn a mid) ;;
          b <- lt y x ;;
          if b : bool then e_bisect_left_loop fuel' a x (S mid) hi
          else e_bisect_left_loop fuel' a x lo mid
        else ret lo
    end.
  Definition e_bisect_left (a : list A) (x : A) : M W nat := e_bisect_left_loop (S (length a)) a x 0 (length a).
End Bisect.

(** A sorting algorithm, given the comparison; which calls CPython's [list.sort] makes is not modelled, so the methods below take any. *)
Definition sorting (W : Type) : Type := forall A : Type, (A -> A -> M W bool) -> list A -> M W (list A).

(** [sorted(l, key=kf)], [l.sort(key=kf)]: all keys first, in the order of the list, then the values are sorted by them. *)
Definition e_sorted_key {W V K} (srt : sorting W) (klt : K -> K -> M W bool) (kf : V -> M W K) (l : list V) : M W (list V) :=
  ks <- mapM kf l ;;
  ps <- srt _ (fun p q => klt (fst p) (fst q)) (combine ks l) ;;
  ret (map snd ps).

(** [SortedList.__make_cmp] (sortedlist.py:1452-1474), on the values of the list. *)
Section Compare.
  Context {W V : Type}.
  Variables lt eq : V -> V -> M W bool.
  Definition e_cmp_elt (op : cmpop) (a b : V) : M W bool :=
    match op with
    | Ceq => eq a b
    | Cne => r <- eq a b ;; ret (negb r)
    | Clt => lt a b
    | Cgt => lt b a
    | Cle => r <- lt b a ;; ret (negb r)
    | Cge => r <- lt a b ;; ret (negb r)
    end.
  Fixpoint e_cmp_loop (op : cmpop) (self_len len_other : nat) (l o : list V) : M W bool :=
    match l, o with
    | a :: l', b :: o' =>
        e <- eq a b ;;
        if e : bool then e_cmp_loop op self_len len_other l' o' else e_cmp_elt op a b
    | _, _ => ret (cmp_nat op self_len len_other)
    end.
  Definition e_compare {K} (op : cmpop) (other : list V) (c : core V K) : M W bool :=
    let self_len := len c in
    let len_other := length other in
    if negb (self_len =? len_other) && (match op with Ceq => true | _ => false end) then ret false
    else if negb (self_len =? len_other) && (match op with Cne => true | _ => false end) then ret true
    else e_cmp_loop op self_len len_other (concat (lists c)) other.
End Compare.

(** [cls(iterable)] called from a method: a new object, filled by [m], in the same world. *)
Definition e_fresh {W S} (empty : S) (m : M (W * S) unit) : M (W * S) S :=
  fun s => match m (fst s, empty) with
           | (Ok _, s') => (Ok (snd s'), (fst s', snd s))
           | (Err e, s') => (Err e, (fst s', snd s))
           end.
(** [obj = obj.copy()] and the like: the name is bound to the new object. *)
Definition e_rebind {W S V} (m : M (W * S) S) (s : W * S) : out V * (W * S) :=
  match m s with
  | (Ok n, s') => (RUnit, (fst s', n))
  | (Err e, s') => (RExn e, s')
  end.

(** ** class SortedList *)
Section EffectList.
  Context {W V : Type}.
  Notation SL := (core V V).
  Notation WS := (W * SL)%type.
  Variable srt : sorting W.
  Variables lt eq : V -> V -> M W bool.
  Variable dflt : nat.

  (** [SortedList.add] (sortedlist.py:193-226). *)
  Definition e_add (value : V) : M WS unit :=
    c <- own get ;;
    (if is_nil (maxes c) then
       own (modify (fun c => set_maxes (maxes c ++ [value]) (set_lists (lists c ++ [[value]]) c)))
     else
       pos <- user (e_bisect_right lt (maxes c) value) ;;
       if pos =? length (maxes c) then
         let pos := pos - 1 in
         own (modifyR (fun c =>
           let! ls := updn (lists c) pos (fun l => Ok (l ++ [value])) in
           Ok (set_lists ls c))) ;;;
         own (modifyR (fun c =>
           let! ms := setn (maxes c) pos value in Ok (set_maxes ms c))) ;;;
         own (sl_expand pos)
       else
         (* insort(_lists[pos], value) *)
         l <- own (liftr (getn (lists c) pos)) ;;
         idx <- user (e_bisect_right lt l value) ;;
         own (modifyR (fun c =>
           let! ls := updn (lists c) pos (fun l => Ok (insn l idx value)) in
           Ok (set_lists ls c))) ;;;
         own (sl_expand pos)) ;;;
    own (modify (fun c => set_len (len c + 1) c)).

  (** [SortedList.update] (sortedlist.py:261-298). *)
  Definition e_update (iterable : list V) : M WS unit :=
    values <- user (srt lt iterable) ;;
    c <- own get ;;
    if is_nil (maxes c) then own (sl_fill values)
    else if len c <=? length values * 4 then
      own (modify (fun c => set_lists (lists c ++ [values]) c)) ;;;
      c <- own get ;;
      values <- user (srt lt (concat (lists c))) ;;
      own (@sl_clear V) ;;;
      own (sl_fill values)
    else forM e_add values.

  Definition e_vt : vtable WS V V :=
    mkvt snd (fun c s => (fst s, c)) (own (@sl_clear V)) e_update (fun pos idx => own (sl_delete pos idx)).

  (** [SortedList(iterable)] (sortedlist.py:89-116). *)
  Definition e_new (iterable : list V) : M WS SL := e_fresh (core_empty dflt) (e_update iterable).

  (** [SortedList.__contains__], [discard], [remove] (sortedlist.py:300-398). *)
  Definition e_find {A} (value : V) (absent : M WS A) (found : nat -> nat -> bool -> M WS A) : M WS A :=
    c <- own get ;;
    if is_nil (maxes c) then absent
    else
      pos <- user (e_bisect_left lt (maxes c) value) ;;
      if pos =? length (maxes c) then absent
      else
        l <- own (liftr (getn (lists c) pos)) ;;
        idx <- user (e_bisect_left lt l value) ;;
        x <- own (liftr (getn l idx)) ;;
        e <- user (eq x value) ;;
        found pos idx e.
  Definition e_contains (value : V) : M WS bool := e_find value (ret false) (fun _ _ e => ret e).
  Definition e_discard (value : V) : M WS unit :=
    e_find value (ret tt) (fun pos idx e => if e then own (sl_delete pos idx) else ret tt).
  Definition e_remove (value : V) : M WS unit :=
    e_find value (raise ValueError) (fun pos idx e => if e then own (sl_delete pos idx) else raise ValueError).

  (** [SortedList.bisect_left], [bisect_right] (sortedlist.py:1085-1148). *)
  Definition e_rank (bis : list V -> V -> M W nat) (value : V) : M WS nat :=
    c <- own get ;;
    if is_nil (maxes c) then ret 0
    else
      pos <- user (bis (maxes c) value) ;;
      if pos =? length (maxes c) then ret (len c)
      else
        l <- own (liftr (getn (lists c) pos)) ;;
        idx <- user (bis l value) ;;
        own (loc pos idx).

  (** [SortedList.count] (sortedlist.py:1150-1187). *)
  Definition e_count (value : V) : M WS nat :=
    c <- own get ;;
    if is_nil (maxes c) then ret 0
    else
      pos_left <- user (e_bisect_left lt (maxes c) value) ;;
      if pos_left =? length (maxes c) then ret 0
      else
        l <- own (liftr (getn (lists c) pos_left)) ;;
        idx_left <- user (e_bisect_left lt l value) ;;
        pos_right <- user (e_bisect_right lt (maxes c) value) ;;
        if pos_right =? length (maxes c) then
          left <- own (loc pos_left idx_left) ;;
          own (liftr (subc (len c) left))
        else
          r <- own (liftr (getn (lists c) pos_right)) ;;
          idx_right <- user (e_bisect_right lt r value) ;;
          if pos_left =? pos_right then own (liftr (subc idx_right idx_left))
          else
            right <- own (loc pos_right idx_right) ;;
            left <- own (loc pos_left idx_left) ;;
            own (liftr (subc right left)).

  (** [SortedList.index] (sortedlist.py:1290-1364). *)
  Definition e_index (value : V) (start stop : option Z) : M WS nat :=
    c <- own get ;;
    if len c =? 0 then raise ValueError
    else
      let n := Z.of_nat (len c) in
      let start := index_start start n in
      let stop := index_stop stop n in
      if (stop <=? start)%Z then raise ValueError
      else
        pos_left <- user (e_bisect_left lt (maxes c) value) ;;
        if pos_left =? length (maxes c) then raise ValueError
        else
          l <- own (liftr (getn (lists c) pos_left)) ;;
          idx_left <- user (e_bisect_left lt l value) ;;
          x <- own (liftr (getn l idx_left)) ;;
          e <- user (eq x value) ;;
          if negb e then raise ValueError
          else
            let stop := (stop - 1)%Z in
            left <- own (loc pos_left idx_left) ;;
            if (start <=? Z.of_nat left)%Z then
              if (Z.of_nat left <=? stop)%Z then ret left else raise ValueError
            else
              right <- e_rank (e_bisect_right lt) value ;;
              if (start <=? Z.of_nat right - 1)%Z then ret (Z.to_nat start)
              else raise ValueError.

  (** [SortedList.irange] (sortedlist.py:994-1073). *)
  Definition e_irange (minimum maximum : option V) (incl_min incl_max reverse : bool) : M WS (list V) :=
    c <- own get ;;
    if is_nil (maxes c) then ret []
    else
      mn <- (match minimum with
             | None => ret (Some (0, 0))
             | Some m =>
                 let bis := if incl_min then e_bisect_left lt else e_bisect_right lt in
                 min_pos <- user (bis (maxes c) m) ;;
                 if min_pos =? length (maxes c) then ret None
                 else
                   l <- own (liftr (getn (lists c) min_pos)) ;;
                   min_idx <- user (bis l m) ;;
                   ret (Some (min_pos, min_idx))
             end) ;;
      match mn with
      | None => ret []
      | Some (min_pos, min_idx) =>
          mx <- (match maximum with
                 | None =>
                     let max_pos := length (maxes c) - 1 in
                     l <- own (liftr (getn (lists c) max_pos)) ;;
                     ret (max_pos, length l)
                 | Some m =>
                     let bis := if incl_max then e_bisect_right lt else e_bisect_left lt in
                     max_pos <- user (bis (maxes c) m) ;;
                     if max_pos =? length (maxes c) then
                       let max_pos := max_pos - 1 in
                       l <- own (liftr (getn (lists c) max_pos)) ;;
                       ret (max_pos, length l)
                     else
                       l <- own (liftr (getn (lists c) max_pos)) ;;
                       max_idx <- user (bis l m) ;;
                       ret (max_pos, max_idx)
                 end) ;;
          own (liftr (islice_pairs (lists c) min_pos min_idx (fst mx) (snd mx) reverse))
      end.

  (** One operation; those that call nothing of the user are the ones of Model.v. *)
  Definition e_step (o : lop V) (s : WS) : out V * WS :=
    match o with
    | LAdd v => observe runit (e_add v) s
    | LUpdate it => observe runit (e_update it) s
    | LClear => observe runit (own (@sl_clear V)) s
    | LDiscard v => observe runit (e_discard v) s
    | LRemove v => observe runit (e_remove v) s
    | LContains v => observe (@RBool V) (e_contains v) s
    | LGet i => observe (@RVal V) (own (getitem_int i)) s
    | LSlice sl => observe (@RList V) (own (getitem_slice sl)) s
    | LDel i => observe runit (delitem_int e_vt i) s
    | LDelSlice sl => observe runit (delitem_slice e_vt sl) s
    | LPop i => observe (@RVal V) (pop e_vt i) s
    | LLen => observe (@RNat V) (own length_of) s
    | LIter => observe (@RList V) (own iter) s
    | LReversed => observe (@RList V) (own reversed) s
    | LBisectLeft v => observe (@RNat V) (e_rank (e_bisect_left lt) v) s
    | LBisectRight v => observe (@RNat V) (e_rank (e_bisect_right lt) v) s
    | LCount v => observe (@RNat V) (e_count v) s
    | LIndex v a b => observe (@RNat V) (e_index v a b) s
    | LIRange mn mx a b r => observe (@RList V) (e_irange mn mx a b r) s
    | LISlice a b r => observe (@RList V) (own (islice a b r)) s
    | LReset ld => observe runit (reset e_vt ld) s
    | LIAdd it => observe runit (iadd e_vt it) s
    | LIMul n => observe runit (imul e_vt n) s
    | LCopy => e_rebind (c <- own get ;; e_new (concat (lists c))) s
    | LPlus it => e_rebind (c <- own get ;; e_new (contents c ++ it)) s
    | LMul n => e_rebind (c <- own get ;; e_new (list_mul (contents c) n)) s
    | LReduce => e_rebind (c <- own get ;; e_new (contents c)) s
    | LCompare op other => observe (@RBool V) (c <- own get ;; user (e_compare lt eq op other c)) s
    | LUnsupported => observe runit (@unsupported _) s
    end.
End EffectList.

(** ** class SortedKeyList *)
Section EffectKeyList.
  Context {W V K : Type}.
  Notation SKL := (skl V K).
  Notation WS := (W * SKL)%type.
  Variable srt : sorting W.
  Variables vlt eq : V -> V -> M W bool.
  Variables klt keq : K -> K -> M W bool.
  Variable kf : V -> M W K.
  Variable dflt : nat.

  (** [SortedKeyList.add] (sortedlist.py:1678-1719). *)
  Definition ek_add (value : V) : M WS unit :=
    key <- user (kf value) ;;
    s <- own get ;;
    (if is_nil (maxes (kc s)) then
       own (modify (fun s =>
         mkskl (set_maxes (maxes (kc s) ++ [key]) (set_lists (lists (kc s) ++ [[value]]) (kc s)))
               (keys s ++ [[key]])))
     else
       pos <- user (e_bisect_right klt (maxes (kc s)) key) ;;
       if pos =? length (maxes (kc s)) then
         let pos := pos - 1 in
         own (modifyR (fun s =>
           let! ls := updn (lists (kc s)) pos (fun l => Ok (l ++ [value])) in
           Ok (on_kc (set_lists ls) s))) ;;;
         own (modifyR (fun s =>
           let! kss := updn (keys s) pos (fun l => Ok (l ++ [key])) in Ok (set_keys kss s))) ;;;
         own (modifyR (fun s =>
           let! ms := setn (maxes (kc s)) pos key in Ok (on_kc (set_maxes ms) s))) ;;;
         own (skl_expand pos)
       else
         ks <- own (liftr (getn (keys s) pos)) ;;
         idx <- user (e_bisect_right klt ks key) ;;
         own (modifyR (fun s =>
           let! ls := updn (lists (kc s)) pos (fun l => Ok (insn l idx value)) in
           Ok (on_kc (set_lists ls) s))) ;;;
         own (modifyR (fun s =>
           let! kss := updn (keys s) pos (fun l => Ok (insn l idx key)) in Ok (set_keys kss s))) ;;;
         own (skl_expand pos)) ;;;
    own (modify (on_kc (fun c => set_len (len c + 1) c))).

  (** The tail of [SortedKeyList.update] (sortedlist.py:1790-1797).  [_lists] is filled first; then the key function is called again for
      every value and [_keys] gets one list after another, so if it raises here, [_lists] is filled, [_keys] in part, [_maxes] is empty
      and [_len] is 0. *)
  Definition ek_fill (values : list V) : M WS unit :=
    own (modifyR (fun s =>
      let! cs := chunks (load (kc s)) values in
      Ok (on_kc (fun c => set_lists (lists c ++ cs) c) s))) ;;;
    s <- own get ;;
    forM (fun l => ks <- user (mapM kf l) ;; own (modify (fun s => set_keys (keys s ++ [ks]) s))) (lists (kc s)) ;;;
    own (modifyR (fun s =>
      let! ms := mapR getlast (keys s) in
      Ok (on_kc (fun c => set_index [] (set_len (length values) (set_maxes (maxes c ++ ms) c))) s))).

  (** [SortedKeyList.update] (sortedlist.py:1759-1799). *)
  Definition ek_update (iterable : list V) : M WS unit :=
    values <- user (e_sorted_key srt klt kf iterable) ;;
    s <- own get ;;
    if is_nil (maxes (kc s)) then ek_fill values
    else if len (kc s) <=? length values * 4 then
      own (modify (on_kc (fun c => set_lists (lists c ++ [values]) c))) ;;;
      s <- own get ;;
      values <- user (e_sorted_key srt klt kf (concat (lists (kc s)))) ;;
      own (@skl_clear V K) ;;;
      ek_fill values
    else forM ek_add values.

  Definition ek_vt : vtable WS V K :=
    mkvt (fun s => kc (snd s)) (fun c s => (fst s, set_kc c (snd s))) (own (@skl_clear V K)) ek_update
      (fun pos idx => own (skl_delete pos idx)).
  (** A method of the shared part. *)
  Definition inner {A} (m : M (core V K) A) : M WS A := oncore ek_vt m.

  (** [SortedKeyList(iterable, key=self._key)] (sortedlist.py:1620-1654). *)
  Definition ek_new (iterable : list V) : M WS SKL := e_fresh (skl_empty dflt) (ek_update iterable).

  (** The loop of [__contains__], [discard], [remove] (sortedlist.py:1836-1847, 1883-1895, 1935-1947). *)
  Fixpoint e_scan_loop (fuel : nat) (s : SKL) (key : K) (value : V) (pos idx len_sublist : nat) : M W (option (nat * nat)) :=
    match fuel with
    | O => raise OutOfFuel
    | S f =>
        ks <- liftr (getn (keys s) pos) ;;
        k <- liftr (getn ks idx) ;;
        same <- keq k key ;;
        if negb same then ret None
        else
          l <- liftr (getn (lists (kc s)) pos) ;;
          x <- liftr (getn l idx) ;;
          found <- eq x value ;;
          if found : bool then ret (Some (pos, idx))
          else
            let idx := idx + 1 in
            if idx =? len_sublist then
              let pos := pos + 1 in
              if pos =? length (keys s) then ret None
              else
                ks' <- liftr (getn (keys s) pos) ;;
                e_scan_loop f s key value pos 0 (length ks')
            else e_scan_loop f s key value pos idx len_sublist
    end.

  (** Their common beginning (sortedlist.py:1817-1834, 1866-1881, 1918-1933). *)
  Definition ek_find (value : V) : M WS (option (nat * nat)) :=
    s <- own get ;;
    if is_nil (maxes (kc s)) then ret None
    else
      key <- user (kf value) ;;
      pos <- user (e_bisect_left klt (maxes (kc s)) key) ;;
      if pos =? length (maxes (kc s)) then ret None
      else
        ks <- own (liftr (getn (keys s) pos)) ;;
        idx <- user (e_bisect_left klt ks key) ;;
        user (e_scan_loop (scan_fuel s) s key value pos idx (length ks)).
  Definition ek_contains (value : V) : M WS bool :=
    r <- ek_find value ;;
    ret (match r with Some _ => true | None => false end).
  Definition ek_discard (value : V) : M WS unit :=
    r <- ek_find value ;;
    match r with Some p => own (skl_delete (fst p) (snd p)) | None => ret tt end.
  Definition ek_remove (value : V) : M WS unit :=
    r <- ek_find value ;;
    match r with Some p => own (skl_delete (fst p) (snd p)) | None => raise ValueError end.

  (** [SortedKeyList.irange_key], [irange] (sortedlist.py:2008-2128). *)
  Definition ek_irange_key (min_key max_key : option K) (incl_min incl_max reverse : bool) : M WS (list V) :=
    s <- own get ;;
    let c := kc s in
    if is_nil (maxes c) then ret []
    else
      mn <- (match min_key with
             | None => ret (Some (0, 0))
             | Some m =>
                 let bis := if incl_min then e_bisect_left klt else e_bisect_right klt in
                 min_pos <- user (bis (maxes c) m) ;;
                 if min_pos =? length (maxes c) then ret None
                 else
                   l <- own (liftr (getn (keys s) min_pos)) ;;
                   min_idx <- user (bis l m) ;;
                   ret (Some (min_pos, min_idx))
             end) ;;
      match mn with
      | None => ret []
      | Some (min_pos, min_idx) =>
          mx <- (match max_key with
                 | None =>
                     let max_pos := length (maxes c) - 1 in
                     l <- own (liftr (getn (keys s) max_pos)) ;;
                     ret (max_pos, length l)
                 | Some m =>
                     let bis := if incl_max then e_bisect_right klt else e_bisect_left klt in
                     max_pos <- user (bis (maxes c) m) ;;
                     if max_pos =? length (maxes c) then
                       let max_pos := max_pos - 1 in
                       l <- own (liftr (getn (keys s) max_pos)) ;;
                       ret (max_pos, length l)
                     else
                       l <- own (liftr (getn (keys s) max_pos)) ;;
                       max_idx <- user (bis l m) ;;
                       ret (max_pos, max_idx)
                 end) ;;
          own (liftr (islice_pairs (lists c) min_pos min_idx (fst mx) (snd mx) reverse))
      end.
  Definition e_key_opt (o : option V) : M W (option K) :=
    match o with None => ret None | Some v => k <- kf v ;; ret (Some k) end.
  Definition ek_irange (minimum maximum : option V) (incl_min incl_max reverse : bool) : M WS (list V) :=
    min_key <- user (e_key_opt minimum) ;;
    max_key <- user (e_key_opt maximum) ;;
    ek_irange_key min_key max_key incl_min incl_max reverse.

  (** [SortedKeyList.bisect_key_left], [bisect_key_right] (sortedlist.py:2174-2243), [bisect_left], [bisect_right] (2130-2172). *)
  Definition ek_rank_key (bis : list K -> K -> M W nat) (key : K) : M WS nat :=
    s <- own get ;;
    if is_nil (maxes (kc s)) then ret 0
    else
      pos <- user (bis (maxes (kc s)) key) ;;
      if pos =? length (maxes (kc s)) then ret (len (kc s))
      else
        ks <- own (liftr (getn (keys s) pos)) ;;
        idx <- user (bis ks key) ;;
        inner (loc pos idx).
  Definition ek_rank (bis : list K -> K -> M W nat) (value : V) : M WS nat :=
    key <- user (kf value) ;; ek_rank_key bis key.

  (** [SortedKeyList.count] (sortedlist.py:2245-2288). *)
  Fixpoint e_count_loop (fuel : nat) (s : SKL) (key : K) (value : V) (pos idx len_sublist total : nat) : M W nat :=
    match fuel with
    | O => raise OutOfFuel
    | S f =>
        ks <- liftr (getn (keys s) pos) ;;
        k <- liftr (getn ks idx) ;;
        same <- keq k key ;;
        if negb same then ret total
        else
          l <- liftr (getn (lists (kc s)) pos) ;;
          x <- liftr (getn l idx) ;;
          found <- eq x value ;;
          let total := if found : bool then total + 1 else total in
          let idx := idx + 1 in
          if idx =? len_sublist then
            let pos := pos + 1 in
            if pos =? length (keys s) then ret total
            else
              ks' <- liftr (getn (keys s) pos) ;;
              e_count_loop f s key value pos 0 (length ks') total
          else e_count_loop f s key value pos idx len_sublist total
    end.
  Definition ek_count (value : V) : M WS nat :=
    s <- own get ;;
    if is_nil (maxes (kc s)) then ret 0
    else
      key <- user (kf value) ;;
      pos <- user (e_bisect_left klt (maxes (kc s)) key) ;;
      if pos =? length (maxes (kc s)) then ret 0
      else
        ks <- own (liftr (getn (keys s) pos)) ;;
        idx <- user (e_bisect_left klt ks key) ;;
        user (e_count_loop (scan_fuel s) s key value pos idx (length ks) 0).

  (** [SortedKeyList.index] (sortedlist.py:2302-2384). *)
  Fixpoint e_index_loop (fuel : nat) (key : K) (value : V) (start stop : Z) (pos idx len_sublist : nat) : M WS nat :=
    match fuel with
    | O => raise OutOfFuel
    | S f =>
        s <- own get ;;
        ks <- own (liftr (getn (keys s) pos)) ;;
        k <- own (liftr (getn ks idx)) ;;
        same <- user (keq k key) ;;
        if negb same then raise ValueError
        else
          l <- own (liftr (getn (lists (kc s)) pos)) ;;
          x <- own (liftr (getn l idx)) ;;
          found <- user (eq x value) ;;
          let continue :=
            (let idx := idx + 1 in
             if idx =? len_sublist then
               let pos := pos + 1 in
               if pos =? length (keys s) then raise ValueError
               else
                 ks' <- own (liftr (getn (keys s) pos)) ;;
                 e_index_loop f key value start stop pos 0 (length ks')
             else e_index_loop f key value start stop pos idx len_sublist) in
          if found : bool then
            l <- inner (loc pos idx) ;;
            if ((start <=? Z.of_nat l) && (Z.of_nat l <=? stop))%Z then ret l
            else if (stop <? Z.of_nat l)%Z then raise ValueError
            else continue
          else continue
    end.
  Definition ek_index (value : V) (start stop : option Z) : M WS nat :=
    s <- own get ;;
    if len (kc s) =? 0 then raise ValueError
    else
      let n := Z.of_nat (len (kc s)) in
      let start := index_start start n in
      let stop := index_stop stop n in
      if (stop <=? start)%Z then raise ValueError
      else
        key <- user (kf value) ;;
        pos <- user (e_bisect_left klt (maxes (kc s)) key) ;;
        if pos =? length (maxes (kc s)) then raise ValueError
        else
          let stop := (stop - 1)%Z in
          ks <- own (liftr (getn (keys s) pos)) ;;
          idx <- user (e_bisect_left klt ks key) ;;
          e_index_loop (scan_fuel s) key value start stop pos idx (length ks).

  (** One operation. *)
  Definition ek_lstep (o : lop V) (s : WS) : out V * WS :=
    match o with
    | LAdd v => observe runit (ek_add v) s
    | LUpdate it => observe runit (ek_update it) s
    | LClear => observe runit (own (@skl_clear V K)) s
    | LDiscard v => observe runit (ek_discard v) s
    | LRemove v => observe runit (ek_remove v) s
    | LContains v => observe (@RBool V) (ek_contains v) s
    | LGet i => observe (@RVal V) (inner (getitem_int i)) s
    | LSlice sl => observe (@RList V) (inner (getitem_slice sl)) s
    | LDel i => observe runit (delitem_int ek_vt i) s
    | LDelSlice sl => observe runit (delitem_slice ek_vt sl) s
    | LPop i => observe (@RVal V) (pop ek_vt i) s
    | LLen => observe (@RNat V) (inner length_of) s
    | LIter => observe (@RList V) (inner iter) s
    | LReversed => observe (@RList V) (inner reversed) s
    | LBisectLeft v => observe (@RNat V) (ek_rank (e_bisect_left klt) v) s
    | LBisectRight v => observe (@RNat V) (ek_rank (e_bisect_right klt) v) s
    | LCount v => observe (@RNat V) (ek_count v) s
    | LIndex v a b => observe (@RNat V) (ek_index v a b) s
    | LIRange mn mx a b r => observe (@RList V) (ek_irange mn mx a b r) s
    | LISlice a b r => observe (@RList V) (inner (islice a b r)) s
    | LReset ld => observe runit (reset ek_vt ld) s
    | LIAdd it => observe runit (iadd ek_vt it) s
    | LIMul n => observe runit (imul ek_vt n) s
    | LCopy => e_rebind (s <- own get ;; ek_new (concat (lists (kc s)))) s
    | LPlus it => e_rebind (s <- own get ;; ek_new (contents (kc s) ++ it)) s
    | LMul n => e_rebind (s <- own get ;; ek_new (list_mul (contents (kc s)) n)) s
    | LReduce => e_rebind (s <- own get ;; ek_new (contents (kc s))) s
    | LCompare op other => observe (@RBool V) (s <- own get ;; user (e_compare vlt eq op other (kc s))) s
    | LUnsupported => observe runit (@unsupported _) s
    end.
  Definition ek_step (o : kop V K) (s : WS) : out V * WS :=
    match o with
    | KList o => ek_lstep o s
    | KBisectLeft k => observe (@RNat V) (ek_rank_key (e_bisect_left klt) k) s
    | KBisectRight k => observe (@RNat V) (ek_rank_key (e_bisect_right klt) k) s
    | KIRange mn mx a b r => observe (@RList V) (ek_irange_key mn mx a b r) s
    end.
End EffectKeyList.

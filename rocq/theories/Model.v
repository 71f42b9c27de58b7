(** * Model of src/sortedcontainers/sortedlist.py

    Function by function.  Every definition cites the lines it models.
    State-changing methods live in the monad [M] of PyBase.v. *)
From Verif Require Export PyBase.
Local Set Implicit Arguments.

(** ** Object state

    Fields of a [SortedList] instance (sortedlist.py:107-113): [_lists],
    [_maxes], [_index], [_offset], [_len], [_load].  [V] is the type of values,
    [K] the type of the entries of [_maxes] (values for SortedList, keys for
    SortedKeyList, sortedlist.py:1644-1651). *)
Record core (V K : Type) : Type := mkcore {
  lists : list (list V);
  maxes : list K;
  index : list nat;
  offset : nat;
  len : nat;
  load : nat }.
Arguments mkcore {V K}.

Section CoreSetters.
  Context {V K : Type}.
  Definition set_lists (x : list (list V)) (c : core V K) : core V K :=
    mkcore x (maxes c) (index c) (offset c) (len c) (load c).
  Definition set_maxes (x : list K) (c : core V K) : core V K :=
    mkcore (lists c) x (index c) (offset c) (len c) (load c).
  Definition set_index (x : list nat) (c : core V K) : core V K :=
    mkcore (lists c) (maxes c) x (offset c) (len c) (load c).
  Definition set_offset (x : nat) (c : core V K) : core V K :=
    mkcore (lists c) (maxes c) (index c) x (len c) (load c).
  Definition set_len (x : nat) (c : core V K) : core V K :=
    mkcore (lists c) (maxes c) (index c) (offset c) x (load c).
  Definition set_load (x : nat) (c : core V K) : core V K :=
    mkcore (lists c) (maxes c) (index c) (offset c) (len c) x.
End CoreSetters.

(** Slots of a fresh instance before the initial update (sortedlist.py:107-113). *)
Definition core_empty {V K} (load : nat) : core V K := mkcore [] [] [] 0 0 load.

(** [reduce(iadd, self._lists, [])] (e.g. sortedlist.py:174). *)
Definition contents {V K} (c : core V K) : list V := concat (lists c).

(** ** Positional index: methods that only touch [_lists], [_index], [_offset], [_len]
    and are shared by both classes. *)
Section Index.
  Context {V K : Type}.
  Notation MC := (M (core V K)).

  (** [list(starmap(add, zip(head, tail)))] with [head] and [tail] the same
      iterator (sortedlist.py:669-671, 686-688): sums of consecutive pairs; an
      unpaired last element is dropped. *)
  Fixpoint pair_sums (l : list nat) : list nat :=
    match l with
    | a :: b :: t => (a + b) :: pair_sums t
    | _ => []
    end.

  (** The while loop of sortedlist.py:685-689: the rows from [row] up to the root. *)
  Fixpoint tree_rows (fuel : nat) (row : list nat) : res (list (list nat)) :=
    match fuel with
    | O => Err OutOfFuel
    | S f =>
        if 1 <? length row then
          let! rest := tree_rows f (pair_sums row) in Ok (row :: rest)
        else Ok [row]
    end.

  (** sortedlist.py:681-692 for a given [size]; kept separate so that a theorem
      can quantify over [size].  Returns the list appended to [_index] and the
      new [_offset].  [repeat(0, n)] with negative [n] yields nothing, which is
      what truncated subtraction gives. *)
  Definition build_index_sized (size : nat) (row0 row1 : list nat) : res (list nat * nat) :=
    let row1' := row1 ++ repeat 0 (size - length row1) in
    let! rows := tree_rows (S (length row1')) row1' in
    Ok (concat (rev (row0 :: rows)), size * 2 - 1).

  (** [SortedList._build_index] (sortedlist.py:626-692).
      [int(log(n, 2))] is modelled by the exact [Nat.log2]; [log(-1, 2)] raises
      ValueError (only possible with no sublists). *)
  Definition build_index : MC unit :=
    modifyR (fun c =>
      let row0 := map (@length V) (lists c) in
      if length row0 =? 1 then Ok (set_offset 0 (set_index row0 c))
      else
        let! row1 :=
          (if Nat.odd (length row0)
           then let! x := getlast row0 in Ok (pair_sums row0 ++ [x])
           else Ok (pair_sums row0)) in
        if length row1 =? 1 then Ok (set_offset 1 (set_index (row1 ++ row0) c))
        else if length row1 =? 0 then Err ValueError
        else
          let size := 2 ^ (Nat.log2 (length row1 - 1) + 1) in
          let! p := build_index_sized size row0 row1 in
          Ok (set_offset (snd p) (set_index (index c ++ fst p) c))).

  (** [if not _index: self._build_index()] (sortedlist.py:509-510, 606-607). *)
  Definition ensure_index : MC unit :=
    c <- get ;; if is_nil (index c) then build_index else ret tt.

  (** The while loop of [SortedList._loc] (sortedlist.py:520-529). *)
  Fixpoint loc_loop (fuel : nat) (ix : list nat) (pos total : nat) : res nat :=
    match fuel with
    | O => Err OutOfFuel
    | S f =>
        if pos =? 0 then Ok total
        else
          let! total' := (if Nat.even pos
                          then let! x := getn ix (pos - 1) in Ok (total + x)
                          else Ok total) in
          loc_loop f ix ((pos - 1) / 2) total'
    end.

  (** [SortedList._loc] (sortedlist.py:454-531). *)
  Definition loc (pos idx : nat) : MC nat :=
    if pos =? 0 then ret idx
    else
      ensure_index ;;;
      c <- get ;;
      total <- liftr (loc_loop (S (pos + offset c)) (index c) (pos + offset c) 0) ;;
      ret (total + idx).

  (** The while loop of [SortedList._pos] (sortedlist.py:609-622); the
      subtraction is guarded by the comparison just before it. *)
  Fixpoint pos_loop (fuel : nat) (ix : list nat) (pos child idx : nat) : res (nat * nat) :=
    match fuel with
    | O => Err OutOfFuel
    | S f =>
        if child <? length ix then
          let! x := getn ix child in
          if idx <? x then pos_loop f ix child (child * 2 + 1) idx
          else pos_loop f ix (child + 1) ((child + 1) * 2 + 1) (idx - x)
        else Ok (pos, idx)
    end.

  (** [SortedList._pos] (sortedlist.py:533-624). *)
  Definition pos_tree (idx : nat) : MC (nat * nat) :=
    ensure_index ;;;
    c <- get ;;
    p <- liftr (pos_loop (S (length (index c))) (index c) 0 1 idx) ;;
    q <- liftr (subc (fst p) (offset c)) ;;
    ret (q, snd p).

  Definition pos_nonneg (idx : nat) : MC (nat * nat) :=
    c <- get ;;
    l0 <- liftr (getn (lists c) 0) ;;
    if idx <? length l0 then ret (0, idx) else pos_tree idx.

  Definition pos_of (idx : Z) : MC (nat * nat) :=
    c <- get ;;
    if (idx <? 0)%Z then
      last <- liftr (getlast (lists c)) ;;
      let last_len := Z.of_nat (length last) in
      if (- idx <=? last_len)%Z then
        ret (length (lists c) - 1, Z.to_nat (last_len + idx))
      else
        let idx' := (idx + Z.of_nat (len c))%Z in
        if (idx' <? 0)%Z then raise IndexError
        else pos_nonneg (Z.to_nat idx')
    else if (Z.of_nat (len c) <=? idx)%Z then raise IndexError
    else pos_nonneg (Z.to_nat idx).

  (** [SortedList.__getitem__] for an integer (sortedlist.py:813-831). *)
  Definition getitem_int (i : Z) : MC V :=
    c <- get ;;
    if len c =? 0 then raise IndexError
    else if (i =? 0)%Z then
      l0 <- liftr (getn (lists c) 0) ;; liftr (getn l0 0)
    else if (i =? -1)%Z then
      ll <- liftr (getlast (lists c)) ;; liftr (getlast ll)
    else
      l0 <- liftr (getn (lists c) 0) ;;
      if ((0 <=? i) && (i <? Z.of_nat (length l0)))%Z then liftr (getz l0 i)
      else
        ll <- liftr (getlast (lists c)) ;;
        let len_last := Z.of_nat (length ll) in
        if ((- len_last <? i) && (i <? 0))%Z then liftr (getz ll (len_last + i))
        else
          p <- pos_of i ;;
          l <- liftr (getn (lists c) (fst p)) ;;
          liftr (getn l (snd p)).

  (** The branch [step == 1 and start < stop] of [SortedList.__getitem__]
      (sortedlist.py:776-800). *)
  Definition getitem_fwd (start stop : Z) : MC (list V) :=
    c <- get ;;
    if ((start =? 0) && (stop =? Z.of_nat (len c)))%Z then ret (contents c)
    else
      p <- pos_of start ;;
      let start_pos := fst p in
      let start_idx := snd p in
      start_list <- liftr (getn (lists c) start_pos) ;;
      let stop_idx := start_idx + Z.to_nat (stop - start) in
      if stop_idx <=? length start_list then
        ret (slicen start_list start_idx stop_idx)
      else
        q <- (if (stop =? Z.of_nat (len c))%Z then
                let stop_pos := length (lists c) - 1 in
                l <- liftr (getn (lists c) stop_pos) ;;
                ret (stop_pos, length l)
              else pos_of stop) ;;
        let stop_pos := fst q in
        let stop_idx := snd q in
        l1 <- liftr (getn (lists c) start_pos) ;;
        let prefix := skipn start_idx l1 in
        let middle := slicen (lists c) (start_pos + 1) stop_pos in
        l2 <- liftr (getn (lists c) stop_pos) ;;
        ret ((prefix ++ concat middle) ++ firstn stop_idx l2).

  (** [SortedList.__getitem__] for a slice (sortedlist.py:769-812).  The code
      calls itself with a forward slice in the branch [step == -1]; [fuel]
      bounds that recursion. *)
  Fixpoint getitem_slice_rec (fuel : nat) (sl : slice) : MC (list V) :=
    match fuel with
    | O => raise OutOfFuel
    | S f =>
        c <- get ;;
        t <- liftr (slice_indices sl (len c)) ;;
        let '(start, stop, step) := t in
        if ((step =? 1) && (start <? stop))%Z then getitem_fwd start stop
        else if ((step =? -1) && (stop <? start))%Z then
          result <- getitem_slice_rec f (mkslice (Some (stop + 1)%Z) (Some (start + 1)%Z) None) ;;
          ret (rev result)
        else mapM getitem_int (rangez start stop step)
    end.
  Definition getitem_slice (sl : slice) : MC (list V) := getitem_slice_rec 2 sl.

  (** [SortedList._islice] (sortedlist.py:931-992): the values yielded by the
      returned iterator. *)
  Definition islice_pairs (ls : list (list V)) (min_pos min_idx max_pos max_idx : nat)
      (reverse : bool) : res (list V) :=
    if max_pos <? min_pos then Ok []
    else if min_pos =? max_pos then
      let! l := getn ls min_pos in
      let indices := rangen min_idx max_idx in
      mapR (getn l) (if reverse then rev indices else indices)
    else
      let next_pos := min_pos + 1 in
      let! lmin := getn ls min_pos in
      let! lmax := getn ls max_pos in
      let min_indices := rangen min_idx (length lmin) in
      let max_indices := rangen 0 max_idx in
      if next_pos =? max_pos then
        if reverse then
          let! a := mapR (getn lmax) (rev max_indices) in
          let! b := mapR (getn lmin) (rev min_indices) in
          Ok (a ++ b)
        else
          let! a := mapR (getn lmin) min_indices in
          let! b := mapR (getn lmax) max_indices in
          Ok (a ++ b)
      else if reverse then
        let! subs := mapR (getn ls) (rev (rangen next_pos max_pos)) in
        let! a := mapR (getn lmax) (rev max_indices) in
        let! b := mapR (getn lmin) (rev min_indices) in
        Ok (a ++ concat (map (@rev V) subs) ++ b)
      else
        let! subs := mapR (getn ls) (rangen next_pos max_pos) in
        let! a := mapR (getn lmin) min_indices in
        let! b := mapR (getn lmax) max_indices in
        Ok (a ++ concat subs ++ b).

  (** [SortedList.islice] (sortedlist.py:886-929). *)
  Definition islice (start stop : option Z) (reverse : bool) : MC (list V) :=
    c <- get ;;
    if len c =? 0 then ret []
    else
      t <- liftr (slice_indices (mkslice start stop None) (len c)) ;;
      let '(start, stop, _) := t in
      if (stop <=? start)%Z then ret []
      else
        p <- pos_of start ;;
        q <- (if (stop =? Z.of_nat (len c))%Z then
                ll <- liftr (getlast (lists c)) ;;
                ret (length (lists c) - 1, length ll)
              else pos_of stop) ;;
        liftr (islice_pairs (lists c) (fst p) (snd p) (fst q) (snd q) reverse).

  (** [SortedList.__len__] (sortedlist.py:1075-1083). *)
  Definition length_of : MC nat := c <- get ;; ret (len c).

  (** [SortedList.__iter__] (sortedlist.py:847-856): the values yielded. *)
  Definition iter : MC (list V) := c <- get ;; ret (concat (lists c)).

  (** [SortedList.__reversed__] (sortedlist.py:858-867): the values yielded. *)
  Definition reversed : MC (list V) :=
    c <- get ;; ret (concat (map (@rev V) (rev (lists c)))).

  (** The upward walks of [_expand] (sortedlist.py:254-259, 1752-1757) and
      [_delete] (sortedlist.py:428-433, 1979-1984) on [_index]: every node on the
      path from [child] to the root, root included, is changed by [f]. *)
  Fixpoint walk_up (f : nat -> res nat) (fuel child : nat) (ix : list nat) : res (list nat) :=
    match fuel with
    | O => Err OutOfFuel
    | S fuel' =>
        if child =? 0 then Ok ix
        else let! ix' := updn ix child f in walk_up f fuel' ((child - 1) / 2) ix'
    end.
  Definition index_walk (f : nat -> res nat) (child : nat) (ix : list nat) : res (list nat) :=
    let! ix' := walk_up f (S child) child ix in updn ix' 0 f.

  Definition index_inc (c : core V K) (pos : nat) : res (core V K) :=
    if is_nil (index c) then Ok c
    else let! ix := index_walk (fun n => Ok (n + 1)) (offset c + pos) (index c) in
         Ok (set_index ix c).
  Definition index_dec (c : core V K) (pos : nat) : res (core V K) :=
    if is_nil (index c) then Ok c
    else let! ix := index_walk (fun n => subc n 1) (offset c + pos) (index c) in
         Ok (set_index ix c).

  (** [values * num] for a list and an integer. *)
  Definition list_mul (l : list V) (num : Z) : list V :=
    concat (repeat l (Z.to_nat num)).
End Index.

(** ** Methods inherited by SortedKeyList that call overridden methods

    Python's dynamic dispatch is modelled by a table of the overridden methods
    [_clear], [_update], [_delete] and the access to the shared slots. *)
Record vtable (S V K : Type) : Type := mkvt {
  vt_get : S -> core V K;
  vt_put : core V K -> S -> S;
  vt_clear : M S unit;
  vt_update : list V -> M S unit;
  vt_delete : nat -> nat -> M S unit }.

Section Inherited.
  Context {S V K : Type}.
  Variable T : vtable S V K.

  Definition oncore {A} (m : M (core V K) A) : M S A := zoom (vt_get T) (vt_put T) m.

  (** [SortedList.__delitem__], integer index (sortedlist.py:741-743). *)
  Definition delitem_int (i : Z) : M S unit :=
    p <- oncore (pos_of i) ;; vt_delete T (fst p) (snd p).

  (** [SortedList.__delitem__], slice (sortedlist.py:715-740). *)
  Definition delitem_slice (sl : slice) : M S unit :=
    c <- oncore get ;;
    t <- liftr (slice_indices sl (len c)) ;;
    let '(start, stop, step) := t in
    let n := Z.of_nat (len c) in
    let loop :=
      (let indices := rangez start stop step in
       forM delitem_int (if (0 <? step)%Z then rev indices else indices)) in
    if ((step =? 1) && (start <? stop))%Z then
      if ((start =? 0) && (stop =? n))%Z then vt_clear T
      else if (n <=? 8 * (stop - start))%Z then
        values <- oncore (getitem_slice (mkslice None (Some start) None)) ;;
        values <- (if (stop <? n)%Z then
                     more <- oncore (getitem_slice (mkslice (Some stop) None None)) ;;
                     ret (values ++ more)
                   else ret values) ;;
        vt_clear T ;;;
        vt_update T values
      else loop
    else loop.

  (** [SortedList.pop] (sortedlist.py:1231-1288). *)
  Definition pop (i : Z) : M S V :=
    c <- oncore get ;;
    if len c =? 0 then raise IndexError
    else if (i =? 0)%Z then
      l0 <- liftr (getn (lists c) 0) ;;
      val <- liftr (getn l0 0) ;;
      vt_delete T 0 0 ;;; ret val
    else if (i =? -1)%Z then
      let pos := length (lists c) - 1 in
      l <- liftr (getn (lists c) pos) ;;
      loc <- liftr (subc (length l) 1) ;;
      val <- liftr (getn l loc) ;;
      vt_delete T pos loc ;;; ret val
    else
      l0 <- liftr (getn (lists c) 0) ;;
      if ((0 <=? i) && (i <? Z.of_nat (length l0)))%Z then
        val <- liftr (getz l0 i) ;;
        vt_delete T 0 (Z.to_nat i) ;;; ret val
      else
        ll <- liftr (getlast (lists c)) ;;
        let len_last := Z.of_nat (length ll) in
        if ((- len_last <? i) && (i <? 0))%Z then
          let pos := length (lists c) - 1 in
          let loc := Z.to_nat (len_last + i) in
          l <- liftr (getn (lists c) pos) ;;
          val <- liftr (getn l loc) ;;
          vt_delete T pos loc ;;; ret val
        else
          p <- oncore (pos_of i) ;;
          l <- liftr (getn (lists c) (fst p)) ;;
          val <- liftr (getn l (snd p)) ;;
          vt_delete T (fst p) (snd p) ;;; ret val.

  (** [SortedList._reset] (sortedlist.py:156-177). *)
  Definition reset (ld : nat) : M S unit :=
    c <- oncore get ;;
    let values := contents c in
    vt_clear T ;;;
    oncore (modify (set_load ld)) ;;;
    vt_update T values.

  (** [SortedList.__iadd__] (sortedlist.py:1390-1409). *)
  Definition iadd (other : list V) : M S unit := vt_update T other.

  (** [SortedList.__imul__] (sortedlist.py:1431-1450). *)
  Definition imul (num : Z) : M S unit :=
    c <- oncore get ;;
    let values := list_mul (contents c) num in
    vt_clear T ;;;
    vt_update T values.

  (** [__setitem__], [append], [extend], [insert], [reverse]
      (sortedlist.py:835-845, 869-884, 1201-1229). *)
  Definition unsupported : M S unit := raise NotImplementedError.
End Inherited.

(** ** Rich comparisons (sortedlist.py:1452-1498)

    The six operators, derived from [<] and [==] on elements. *)
Inductive cmpop : Set := Ceq | Cne | Clt | Cgt | Cle | Cge.

Definition cmp_nat (op : cmpop) (a b : nat) : bool :=
  match op with
  | Ceq => a =? b | Cne => negb (a =? b)
  | Clt => a <? b | Cgt => b <? a
  | Cle => a <=? b | Cge => b <=? a
  end.

Section Compare.
  Context {V : Type}.
  Variables lt eq : V -> V -> res bool.

  (** [seq_op(alpha, beta)]; [>], [<=], [>=] are modelled through [<]. *)
  Definition cmp_elt (op : cmpop) (a b : V) : res bool :=
    match op with
    | Ceq => eq a b
    | Cne => let! r := eq a b in Ok (negb r)
    | Clt => lt a b
    | Cgt => lt b a
    | Cle => let! r := lt b a in Ok (negb r)
    | Cge => let! r := lt a b in Ok (negb r)
    end.

  (** The [zip] loop and the final length comparison (sortedlist.py:1469-1473). *)
  Fixpoint cmp_loop (op : cmpop) (self_len len_other : nat) (l o : list V) : res bool :=
    match l, o with
    | a :: l', b :: o' =>
        let! e := eq a b in
        if e then cmp_loop op self_len len_other l' o' else cmp_elt op a b
    | _, _ => Ok (cmp_nat op self_len len_other)
    end.

  (** [comparer] (sortedlist.py:1455-1473) against a sequence [other]. *)
  Definition compare {K} (op : cmpop) (other : list V) : M (core V K) bool :=
    c <- get ;;
    let self_len := len c in
    let len_other := length other in
    if negb (self_len =? len_other) && (match op with Ceq => true | _ => false end)
    then ret false
    else if negb (self_len =? len_other) && (match op with Cne => true | _ => false end)
    then ret true
    else liftr (cmp_loop op self_len len_other (concat (lists c)) other).
End Compare.

(** ** Window normalisation of [index] (sortedlist.py:1323-1335, 2336-2348) *)
Definition index_start (start : option Z) (n : Z) : Z :=
  (let start := match start with None => 0 | Some z => z end in
   let start := if start <? 0 then start + n else start in
   if start <? 0 then 0 else start)%Z.
Definition index_stop (stop : option Z) (n : Z) : Z :=
  (let stop := match stop with None => n | Some z => z end in
   let stop := if stop <? 0 then stop + n else stop in
   if n <? stop then n else stop)%Z.

(** ** class SortedList *)
Section SortedList.
  Context {V : Type}.
  (** The comparison [<] and equality [==] of values: each call may raise. *)
  Variables lt eq : V -> V -> res bool.
  (** [DEFAULT_LOAD_FACTOR] (sortedlist.py:87): 1000, subclasses may override it. *)
  Variable dflt : nat.
  Notation SL := (core V V).

  (** [SortedList.clear] (sortedlist.py:179-191). *)
  Definition sl_clear : M SL unit :=
    modify (fun c => mkcore [] [] [] 0 0 (load c)).

  (** [SortedList._expand] (sortedlist.py:228-259). *)
  Definition sl_expand (pos : nat) : M SL unit :=
    modifyR (fun c =>
      let! l := getn (lists c) pos in
      if load c * 2 <? length l then
        let half := skipn (load c) l in
        let keep := firstn (load c) l in
        let! ls := setn (lists c) pos keep in
        let! m := getlast keep in
        let! ms := setn (maxes c) pos m in
        let! hm := getlast half in
        Ok (set_index [] (set_maxes (insn ms (pos + 1) hm)
             (set_lists (insn ls (pos + 1) half) c)))
      else index_inc c pos).

  (** [SortedList.add] (sortedlist.py:193-226); [pos - 1] is taken only when
      [pos] is the positive length of [_maxes]. *)
  Definition sl_add (value : V) : M SL unit :=
    c <- get ;;
    (if is_nil (maxes c) then
       modify (fun c => set_maxes (maxes c ++ [value]) (set_lists (lists c ++ [[value]]) c))
     else
       pos <- liftr (bisect_right lt (maxes c) value) ;;
       if pos =? length (maxes c) then
         let pos := pos - 1 in
         modifyR (fun c =>
           let! ls := updn (lists c) pos (fun l => Ok (l ++ [value])) in
           Ok (set_lists ls c)) ;;;
         modifyR (fun c =>
           let! ms := setn (maxes c) pos value in Ok (set_maxes ms c)) ;;;
         sl_expand pos
       else
         modifyR (fun c =>
           let! ls := updn (lists c) pos (fun l => insort lt l value) in
           Ok (set_lists ls c)) ;;;
         sl_expand pos) ;;;
    modify (fun c => set_len (len c + 1) c).

  (** The tail of [SortedList.update] (sortedlist.py:290-296): rebuild from
      sorted values.  [_lists] and [_maxes] are extended, as in the code. *)
  Definition sl_fill (values : list V) : M SL unit :=
    modifyR (fun c =>
      let! cs := chunks (load c) values in
      let ls := lists c ++ cs in
      let! ms := mapR getlast ls in
      Ok (set_index [] (set_len (length values)
           (set_maxes (maxes c ++ ms) (set_lists ls c))))).

  (** [SortedList.update] (sortedlist.py:261-298).  Note that [_lists] is
      extended before [values.sort()] (280-282). *)
  Definition sl_update (iterable : list V) : M SL unit :=
    values <- liftr (py_sorted lt iterable) ;;
    c <- get ;;
    if is_nil (maxes c) then sl_fill values
    else if len c <=? length values * 4 then
      modify (fun c => set_lists (lists c ++ [values]) c) ;;;
      c <- get ;;
      values <- liftr (py_sorted lt (concat (lists c))) ;;
      sl_clear ;;;
      sl_fill values
    else forM sl_add values.

  (** [SortedList.__init__] (sortedlist.py:89-116). *)
  Definition sl_new (iterable : list V) : res SL :=
    match sl_update iterable (core_empty dflt) with
    | (Ok _, c) => Ok c
    | (Err e, _) => Err e
    end.

  (** [SortedList._delete] (sortedlist.py:400-452). *)
  Definition sl_delete (pos idx : nat) : M SL unit :=
    modifyR (fun c =>
      let! ls := updn (lists c) pos (fun l => deln l idx) in Ok (set_lists ls c)) ;;;
    modifyR (fun c => let! n := subc (len c) 1 in Ok (set_len n c)) ;;;
    c <- get ;;
    lists_pos <- liftr (getn (lists c) pos) ;;
    let len_lists_pos := length lists_pos in
    if load c / 2 <? len_lists_pos then
      modifyR (fun c =>
        let! m := getlast lists_pos in
        let! ms := setn (maxes c) pos m in Ok (set_maxes ms c)) ;;;
      modifyR (fun c => index_dec c pos)
    else if 1 <? length (lists c) then
      let pos := if pos =? 0 then pos + 1 else pos in
      let prev := pos - 1 in
      modifyR (fun c =>
        let! lp := getn (lists c) pos in
        let! ls := updn (lists c) prev (fun l => Ok (l ++ lp)) in
        Ok (set_lists ls c)) ;;;
      modifyR (fun c =>
        let! l := getn (lists c) prev in
        let! m := getlast l in
        let! ms := setn (maxes c) prev m in Ok (set_maxes ms c)) ;;;
      modifyR (fun c => let! ls := deln (lists c) pos in Ok (set_lists ls c)) ;;;
      modifyR (fun c => let! ms := deln (maxes c) pos in Ok (set_maxes ms c)) ;;;
      modify (set_index []) ;;;
      sl_expand prev
    else if 0 <? len_lists_pos then
      modifyR (fun c =>
        let! m := getlast lists_pos in
        let! ms := setn (maxes c) pos m in Ok (set_maxes ms c))
    else
      modifyR (fun c => let! ls := deln (lists c) pos in Ok (set_lists ls c)) ;;;
      modifyR (fun c => let! ms := deln (maxes c) pos in Ok (set_maxes ms c)) ;;;
      modify (set_index []).

  (** The methods [SortedList] dispatches to on itself. *)
  Definition sl_vt : vtable SL V V :=
    mkvt (fun c => c) (fun c _ => c) sl_clear sl_update sl_delete.

  (** [SortedList.__contains__] (sortedlist.py:300-328). *)
  Definition sl_contains (value : V) : M SL bool :=
    c <- get ;;
    if is_nil (maxes c) then ret false
    else
      pos <- liftr (bisect_left lt (maxes c) value) ;;
      if pos =? length (maxes c) then ret false
      else
        l <- liftr (getn (lists c) pos) ;;
        idx <- liftr (bisect_left lt l value) ;;
        x <- liftr (getn l idx) ;;
        liftr (eq x value).

  (** [SortedList.discard] (sortedlist.py:330-360). *)
  Definition sl_discard (value : V) : M SL unit :=
    c <- get ;;
    if is_nil (maxes c) then ret tt
    else
      pos <- liftr (bisect_left lt (maxes c) value) ;;
      if pos =? length (maxes c) then ret tt
      else
        l <- liftr (getn (lists c) pos) ;;
        idx <- liftr (bisect_left lt l value) ;;
        x <- liftr (getn l idx) ;;
        e <- liftr (eq x value) ;;
        if e then sl_delete pos idx else ret tt.

  (** [SortedList.remove] (sortedlist.py:362-398). *)
  Definition sl_remove (value : V) : M SL unit :=
    c <- get ;;
    if is_nil (maxes c) then raise ValueError
    else
      pos <- liftr (bisect_left lt (maxes c) value) ;;
      if pos =? length (maxes c) then raise ValueError
      else
        l <- liftr (getn (lists c) pos) ;;
        idx <- liftr (bisect_left lt l value) ;;
        x <- liftr (getn l idx) ;;
        e <- liftr (eq x value) ;;
        if e then sl_delete pos idx else raise ValueError.

  (** [SortedList.bisect_left] (sortedlist.py:1085-1114). *)
  Definition sl_bisect_left (value : V) : M SL nat :=
    c <- get ;;
    if is_nil (maxes c) then ret 0
    else
      pos <- liftr (bisect_left lt (maxes c) value) ;;
      if pos =? length (maxes c) then ret (len c)
      else
        l <- liftr (getn (lists c) pos) ;;
        idx <- liftr (bisect_left lt l value) ;;
        loc pos idx.

  (** [SortedList.bisect_right] = [bisect] (sortedlist.py:1116-1148). *)
  Definition sl_bisect_right (value : V) : M SL nat :=
    c <- get ;;
    if is_nil (maxes c) then ret 0
    else
      pos <- liftr (bisect_right lt (maxes c) value) ;;
      if pos =? length (maxes c) then ret (len c)
      else
        l <- liftr (getn (lists c) pos) ;;
        idx <- liftr (bisect_right lt l value) ;;
        loc pos idx.

  (** [SortedList.count] (sortedlist.py:1150-1187). *)
  Definition sl_count (value : V) : M SL nat :=
    c <- get ;;
    if is_nil (maxes c) then ret 0
    else
      pos_left <- liftr (bisect_left lt (maxes c) value) ;;
      if pos_left =? length (maxes c) then ret 0
      else
        l <- liftr (getn (lists c) pos_left) ;;
        idx_left <- liftr (bisect_left lt l value) ;;
        pos_right <- liftr (bisect_right lt (maxes c) value) ;;
        if pos_right =? length (maxes c) then
          left <- loc pos_left idx_left ;;
          liftr (subc (len c) left)
        else
          r <- liftr (getn (lists c) pos_right) ;;
          idx_right <- liftr (bisect_right lt r value) ;;
          if pos_left =? pos_right then liftr (subc idx_right idx_left)
          else
            right <- loc pos_right idx_right ;;
            left <- loc pos_left idx_left ;;
            liftr (subc right left).

  (** [SortedList.index] (sortedlist.py:1290-1364). *)
  Definition sl_index (value : V) (start stop : option Z) : M SL nat :=
    c <- get ;;
    if len c =? 0 then raise ValueError
    else
      let n := Z.of_nat (len c) in
      let start := index_start start n in
      let stop := index_stop stop n in
      if (stop <=? start)%Z then raise ValueError
      else
        pos_left <- liftr (bisect_left lt (maxes c) value) ;;
        if pos_left =? length (maxes c) then raise ValueError
        else
          l <- liftr (getn (lists c) pos_left) ;;
          idx_left <- liftr (bisect_left lt l value) ;;
          x <- liftr (getn l idx_left) ;;
          e <- liftr (eq x value) ;;
          if negb e then raise ValueError
          else
            let stop := (stop - 1)%Z in
            left <- loc pos_left idx_left ;;
            if (start <=? Z.of_nat left)%Z then
              if (Z.of_nat left <=? stop)%Z then ret left else raise ValueError
            else
              right <- sl_bisect_right value ;;
              if (start <=? Z.of_nat right - 1)%Z then ret (Z.to_nat start)
              else raise ValueError.

  (** [SortedList.irange] (sortedlist.py:994-1073). *)
  Definition sl_irange (minimum maximum : option V) (incl_min incl_max reverse : bool)
    : M SL (list V) :=
    c <- get ;;
    if is_nil (maxes c) then ret []
    else
      mn <- (match minimum with
             | None => ret (Some (0, 0))
             | Some m =>
                 let bis := if incl_min then bisect_left lt else bisect_right lt in
                 min_pos <- liftr (bis (maxes c) m) ;;
                 if min_pos =? length (maxes c) then ret None
                 else
                   l <- liftr (getn (lists c) min_pos) ;;
                   min_idx <- liftr (bis l m) ;;
                   ret (Some (min_pos, min_idx))
             end) ;;
      match mn with
      | None => ret []
      | Some (min_pos, min_idx) =>
          mx <- (match maximum with
                 | None =>
                     let max_pos := length (maxes c) - 1 in
                     l <- liftr (getn (lists c) max_pos) ;;
                     ret (max_pos, length l)
                 | Some m =>
                     let bis := if incl_max then bisect_right lt else bisect_left lt in
                     max_pos <- liftr (bis (maxes c) m) ;;
                     if max_pos =? length (maxes c) then
                       let max_pos := max_pos - 1 in
                       l <- liftr (getn (lists c) max_pos) ;;
                       ret (max_pos, length l)
                     else
                       l <- liftr (getn (lists c) max_pos) ;;
                       max_idx <- liftr (bis l m) ;;
                       ret (max_pos, max_idx)
                 end) ;;
          liftr (islice_pairs (lists c) min_pos min_idx (fst mx) (snd mx) reverse)
      end.

  (** [SortedList.copy] (sortedlist.py:1189-1199): a new object. *)
  Definition sl_copy : M SL SL := c <- get ;; liftr (sl_new (concat (lists c))).

  (** [SortedList.__add__], [__radd__] (sortedlist.py:1366-1388). *)
  Definition sl_plus (other : list V) : M SL SL :=
    c <- get ;; liftr (sl_new (contents c ++ other)).

  (** [SortedList.__mul__], [__rmul__] (sortedlist.py:1411-1429). *)
  Definition sl_mul (num : Z) : M SL SL :=
    c <- get ;; liftr (sl_new (list_mul (contents c) num)).

  (** [SortedList.__reduce__] (sortedlist.py:1500-1502) followed by the call of
      the class that pickle performs. *)
  Definition sl_reduce : M SL SL :=
    c <- get ;; liftr (sl_new (contents c)).
End SortedList.

(** ** [_check] (sortedlist.py:1515-1586, 2446-2526)

    [assert e] for a computation [e] that may itself raise. *)
Definition assertR (r : res bool) : res unit :=
  let! b := r in if b then Ok tt else Err AssertionError.
Definition allR {A} (f : A -> res bool) (l : list A) : res unit :=
  let! _ := mapR (fun a => assertR (f a)) l in Ok tt.

Section Check.
  Context {V K : Type}.
  (** [a <= b], modelled as [not (b < a)]. *)
  Definition le_of {A} (lt : A -> A -> res bool) (a b : A) : res bool :=
    let! r := lt b a in Ok (negb r).

  (** sortedlist.py:1528-1530 / 2459-2461 *)
  Definition check_sublist {A} (lt : A -> A -> res bool) (l : list A) : res unit :=
    allR (fun pos => let! a := getn l (pos - 1) in let! b := getn l pos in le_of lt a b)
         (rangen 1 (length l)).
  (** sortedlist.py:1534-1535 / 2465-2466 *)
  Definition check_ends {A} (lt : A -> A -> res bool) (ls : list (list A)) : res unit :=
    allR (fun pos =>
            let! p := getn ls (pos - 1) in let! a := getlast p in
            let! q := getn ls pos in let! b := getn q 0 in le_of lt a b)
         (rangen 1 (length ls)).
  (** sortedlist.py:1539-1540 / 2477-2478 *)
  Definition check_maxes {A} (eq : A -> A -> res bool) (ms : list A) (ls : list (list A)) : res unit :=
    allR (fun pos =>
            let! m := getn ms pos in let! l := getn ls pos in
            let! x := getlast l in eq m x)
         (rangen 0 (length ms)).
  (** sortedlist.py:1544-1552 / 2482-2490 *)
  Definition check_sizes (c : core V K) : res unit :=
    let! _ := assertR (Ok (forallb (fun l => length l <=? load c * 2) (lists c))) in
    allR (fun pos => let! l := getn (lists c) pos in Ok (load c / 2 <=? length l))
         (rangen 0 (length (lists c) - 1)).
  (** sortedlist.py:1554-1574 / 2492-2512 *)
  Definition check_index (c : core V K) : res unit :=
    if is_nil (index c) then Ok tt
    else
      let ix := index c in
      let! _ := assertR (let! r := getn ix 0 in Ok (len c =? r)) in
      let! _ := assertR (Ok (length ix =? offset c + length (lists c))) in
      let! _ := allR (fun pos =>
                        let! leaf := getn ix (offset c + pos) in
                        let! l := getn (lists c) pos in Ok (leaf =? length l))
                     (rangen 0 (length (lists c))) in
      allR (fun pos =>
              let child := pos * 2 + 1 in
              let! x := getn ix pos in
              if length ix <=? child then Ok (x =? 0)
              else
                let! a := getn ix child in
                if child + 1 =? length ix then Ok (x =? a)
                else let! b := getn ix (child + 1) in Ok (a + b =? x))
           (rangen 0 (offset c)).
End Check.

(** [SortedList._check] (sortedlist.py:1515-1586). *)
Definition sl_check {V} (lt eq : V -> V -> res bool) (c : core V V) : res unit :=
  let! _ := assertR (Ok (4 <=? load c)) in
  let! _ := assertR (Ok (length (maxes c) =? length (lists c))) in
  let! _ := assertR (Ok (len c =? list_sum (map (@length V) (lists c)))) in
  let! _ := mapR (check_sublist lt) (lists c) in
  let! _ := check_ends lt (lists c) in
  let! _ := check_maxes eq (maxes c) (lists c) in
  let! _ := check_sizes c in
  check_index c.

(** ** class SortedKeyList *)

(** Slots of a [SortedKeyList] instance (sortedlist.py:1644-1651): those of
    [SortedList] plus [_keys]; [_key] is the section variable [kf] below. *)
Record skl (V K : Type) : Type := mkskl { kc : core V K; keys : list (list K) }.
Arguments mkskl {V K}.

Definition set_kc {V K} (c : core V K) (s : skl V K) : skl V K := mkskl c (keys s).
Definition set_keys {V K} (x : list (list K)) (s : skl V K) : skl V K := mkskl (kc s) x.
Definition on_kc {V K} (f : core V K -> core V K) (s : skl V K) : skl V K := mkskl (f (kc s)) (keys s).

Section SortedKeyList.
  Context {V K : Type}.
  (** Equality of values, [<] and [==] of keys, and the key function; each call
      may raise. *)
  Variable eq : V -> V -> res bool.
  Variables klt keq : K -> K -> res bool.
  Variable kf : V -> res K.
  Variable dflt : nat.
  Notation SKL := (skl V K).

  (** [SortedKeyList.clear] (sortedlist.py:1664-1676): [_offset] is not reset. *)
  Definition skl_clear : M SKL unit :=
    modify (fun s => mkskl (mkcore [] [] [] (offset (kc s)) 0 (load (kc s))) []).

  (** [SortedKeyList._expand] (sortedlist.py:1721-1757). *)
  Definition skl_expand (pos : nat) : M SKL unit :=
    modifyR (fun s =>
      let c := kc s in
      let! ks := getn (keys s) pos in
      if load c * 2 <? length ks then
        let! l := getn (lists c) pos in
        let half := skipn (load c) l in
        let half_keys := skipn (load c) ks in
        let keep := firstn (load c) l in
        let keep_keys := firstn (load c) ks in
        let! ls := setn (lists c) pos keep in
        let! kss := setn (keys s) pos keep_keys in
        let! m := getlast keep_keys in
        let! ms := setn (maxes c) pos m in
        let! hm := getlast half_keys in
        Ok (mkskl (set_index [] (set_maxes (insn ms (pos + 1) hm)
                     (set_lists (insn ls (pos + 1) half) c)))
                  (insn kss (pos + 1) half_keys))
      else let! c' := index_inc c pos in Ok (set_kc c' s)).

  (** [SortedKeyList.add] (sortedlist.py:1678-1719). *)
  Definition skl_add (value : V) : M SKL unit :=
    key <- liftr (kf value) ;;
    s <- get ;;
    (if is_nil (maxes (kc s)) then
       modify (fun s =>
         mkskl (set_maxes (maxes (kc s) ++ [key]) (set_lists (lists (kc s) ++ [[value]]) (kc s)))
               (keys s ++ [[key]]))
     else
       pos <- liftr (bisect_right klt (maxes (kc s)) key) ;;
       if pos =? length (maxes (kc s)) then
         let pos := pos - 1 in
         modifyR (fun s =>
           let! ls := updn (lists (kc s)) pos (fun l => Ok (l ++ [value])) in
           Ok (on_kc (set_lists ls) s)) ;;;
         modifyR (fun s =>
           let! kss := updn (keys s) pos (fun l => Ok (l ++ [key])) in Ok (set_keys kss s)) ;;;
         modifyR (fun s =>
           let! ms := setn (maxes (kc s)) pos key in Ok (on_kc (set_maxes ms) s)) ;;;
         skl_expand pos
       else
         ks <- liftr (getn (keys s) pos) ;;
         idx <- liftr (bisect_right klt ks key) ;;
         modifyR (fun s =>
           let! ls := updn (lists (kc s)) pos (fun l => Ok (insn l idx value)) in
           Ok (on_kc (set_lists ls) s)) ;;;
         modifyR (fun s =>
           let! kss := updn (keys s) pos (fun l => Ok (insn l idx key)) in Ok (set_keys kss s)) ;;;
         skl_expand pos) ;;;
    modify (on_kc (fun c => set_len (len c + 1) c)).

  (** The tail of [SortedKeyList.update] (sortedlist.py:1790-1797).  Simplified:
      when the key function raises here the model leaves the state unchanged;
      it cannot, since [sorted] has just evaluated the same keys. *)
  Definition skl_fill (values : list V) : M SKL unit :=
    modifyR (fun s =>
      let c := kc s in
      let! cs := chunks (load c) values in
      let ls := lists c ++ cs in
      let! nks := mapR (mapR kf) ls in
      let kss := keys s ++ nks in
      let! ms := mapR getlast kss in
      Ok (mkskl (set_index [] (set_len (length values)
                  (set_maxes (maxes c ++ ms) (set_lists ls c))))
                kss)).

  (** [SortedKeyList.update] (sortedlist.py:1759-1799). *)
  Definition skl_update (iterable : list V) : M SKL unit :=
    values <- liftr (py_sorted_key klt kf iterable) ;;
    s <- get ;;
    if is_nil (maxes (kc s)) then skl_fill values
    else if len (kc s) <=? length values * 4 then
      modify (on_kc (fun c => set_lists (lists c ++ [values]) c)) ;;;
      s <- get ;;
      values <- liftr (py_sorted_key klt kf (concat (lists (kc s)))) ;;
      skl_clear ;;;
      skl_fill values
    else forM skl_add values.

  (** [SortedKeyList.__init__] (sortedlist.py:1620-1654). *)
  Definition skl_empty : SKL := mkskl (core_empty dflt) [].
  Definition skl_new (iterable : list V) : res SKL :=
    match skl_update iterable skl_empty with
    | (Ok _, s) => Ok s
    | (Err e, _) => Err e
    end.

  (** [SortedKeyList._delete] (sortedlist.py:1949-2006). *)
  Definition skl_delete (pos idx : nat) : M SKL unit :=
    modifyR (fun s =>
      let! kss := updn (keys s) pos (fun l => deln l idx) in Ok (set_keys kss s)) ;;;
    modifyR (fun s =>
      let! ls := updn (lists (kc s)) pos (fun l => deln l idx) in Ok (on_kc (set_lists ls) s)) ;;;
    modifyR (fun s => let! n := subc (len (kc s)) 1 in Ok (on_kc (set_len n) s)) ;;;
    s <- get ;;
    keys_pos <- liftr (getn (keys s) pos) ;;
    let len_keys_pos := length keys_pos in
    if load (kc s) / 2 <? len_keys_pos then
      modifyR (fun s =>
        let! m := getlast keys_pos in
        let! ms := setn (maxes (kc s)) pos m in Ok (on_kc (set_maxes ms) s)) ;;;
      modifyR (fun s => let! c := index_dec (kc s) pos in Ok (set_kc c s))
    else if 1 <? length (keys s) then
      let pos := if pos =? 0 then pos + 1 else pos in
      let prev := pos - 1 in
      modifyR (fun s =>
        let! kp := getn (keys s) pos in
        let! kss := updn (keys s) prev (fun l => Ok (l ++ kp)) in
        Ok (set_keys kss s)) ;;;
      modifyR (fun s =>
        let! lp := getn (lists (kc s)) pos in
        let! ls := updn (lists (kc s)) prev (fun l => Ok (l ++ lp)) in
        Ok (on_kc (set_lists ls) s)) ;;;
      modifyR (fun s =>
        let! l := getn (keys s) prev in
        let! m := getlast l in
        let! ms := setn (maxes (kc s)) prev m in Ok (on_kc (set_maxes ms) s)) ;;;
      modifyR (fun s => let! ls := deln (lists (kc s)) pos in Ok (on_kc (set_lists ls) s)) ;;;
      modifyR (fun s => let! kss := deln (keys s) pos in Ok (set_keys kss s)) ;;;
      modifyR (fun s => let! ms := deln (maxes (kc s)) pos in Ok (on_kc (set_maxes ms) s)) ;;;
      modify (on_kc (set_index [])) ;;;
      skl_expand prev
    else if 0 <? len_keys_pos then
      modifyR (fun s =>
        let! m := getlast keys_pos in
        let! ms := setn (maxes (kc s)) pos m in Ok (on_kc (set_maxes ms) s))
    else
      modifyR (fun s => let! ls := deln (lists (kc s)) pos in Ok (on_kc (set_lists ls) s)) ;;;
      modifyR (fun s => let! kss := deln (keys s) pos in Ok (set_keys kss s)) ;;;
      modifyR (fun s => let! ms := deln (maxes (kc s)) pos in Ok (on_kc (set_maxes ms) s)) ;;;
      modify (on_kc (set_index [])).

  Definition skl_vt : vtable SKL V K :=
    mkvt (@kc V K) set_kc skl_clear skl_update skl_delete.

  (** Number of iterations allowed to the [while True] scans below. *)
  Definition scan_fuel (s : SKL) : nat := S (length (concat (keys s))).

  (** The [while True] loop shared verbatim by [__contains__]
      (sortedlist.py:1836-1847), [discard] (1883-1895) and [remove] (1935-1947):
      the pair [(pos, idx)] at which the loop finds the value, or [None] when it
      leaves without finding it. *)
  Fixpoint scan_loop (fuel : nat) (s : SKL) (key : K) (value : V)
      (pos idx len_sublist : nat) : res (option (nat * nat)) :=
    match fuel with
    | O => Err OutOfFuel
    | S f =>
        let! ks := getn (keys s) pos in
        let! k := getn ks idx in
        let! same := keq k key in
        if negb same then Ok None
        else
          let! l := getn (lists (kc s)) pos in
          let! x := getn l idx in
          let! found := eq x value in
          if found then Ok (Some (pos, idx))
          else
            let idx := idx + 1 in
            if idx =? len_sublist then
              let pos := pos + 1 in
              if pos =? length (keys s) then Ok None
              else
                let! ks' := getn (keys s) pos in
                scan_loop f s key value pos 0 (length ks')
            else scan_loop f s key value pos idx len_sublist
    end.

  (** The common prefix of [__contains__] (1817-1847), [discard] (1866-1895) and
      [remove] (1918-1947) up to the outcome of the scan. *)
  Definition skl_find (value : V) : M SKL (option (nat * nat)) :=
    s <- get ;;
    if is_nil (maxes (kc s)) then ret None
    else
      key <- liftr (kf value) ;;
      pos <- liftr (bisect_left klt (maxes (kc s)) key) ;;
      if pos =? length (maxes (kc s)) then ret None
      else
        ks <- liftr (getn (keys s) pos) ;;
        idx <- liftr (bisect_left klt ks key) ;;
        liftr (scan_loop (scan_fuel s) s key value pos idx (length ks)).

  (** [SortedKeyList.__contains__] (sortedlist.py:1801-1847). *)
  Definition skl_contains (value : V) : M SKL bool :=
    r <- skl_find value ;;
    ret (match r with Some _ => true | None => false end).

  (** [SortedKeyList.discard] (sortedlist.py:1849-1895). *)
  Definition skl_discard (value : V) : M SKL unit :=
    r <- skl_find value ;;
    match r with Some p => skl_delete (fst p) (snd p) | None => ret tt end.

  (** [SortedKeyList.remove] (sortedlist.py:1897-1947). *)
  Definition skl_remove (value : V) : M SKL unit :=
    r <- skl_find value ;;
    match r with Some p => skl_delete (fst p) (snd p) | None => raise ValueError end.

  (** [SortedKeyList.irange_key] (sortedlist.py:2044-2128). *)
  Definition skl_irange_key (min_key max_key : option K) (incl_min incl_max reverse : bool)
    : M SKL (list V) :=
    s <- get ;;
    let c := kc s in
    if is_nil (maxes c) then ret []
    else
      mn <- (match min_key with
             | None => ret (Some (0, 0))
             | Some m =>
                 let bis := if incl_min then bisect_left klt else bisect_right klt in
                 min_pos <- liftr (bis (maxes c) m) ;;
                 if min_pos =? length (maxes c) then ret None
                 else
                   l <- liftr (getn (keys s) min_pos) ;;
                   min_idx <- liftr (bis l m) ;;
                   ret (Some (min_pos, min_idx))
             end) ;;
      match mn with
      | None => ret []
      | Some (min_pos, min_idx) =>
          mx <- (match max_key with
                 | None =>
                     let max_pos := length (maxes c) - 1 in
                     l <- liftr (getn (keys s) max_pos) ;;
                     ret (max_pos, length l)
                 | Some m =>
                     let bis := if incl_max then bisect_right klt else bisect_left klt in
                     max_pos <- liftr (bis (maxes c) m) ;;
                     if max_pos =? length (maxes c) then
                       let max_pos := max_pos - 1 in
                       l <- liftr (getn (keys s) max_pos) ;;
                       ret (max_pos, length l)
                     else
                       l <- liftr (getn (keys s) max_pos) ;;
                       max_idx <- liftr (bis l m) ;;
                       ret (max_pos, max_idx)
                 end) ;;
          liftr (islice_pairs (lists c) min_pos min_idx (fst mx) (snd mx) reverse)
      end.

  (** [self._key(x) if x is not None else None] (sortedlist.py:2035-2036). *)
  Definition key_opt (o : option V) : res (option K) :=
    match o with None => Ok None | Some v => let! k := kf v in Ok (Some k) end.

  (** [SortedKeyList.irange] (sortedlist.py:2008-2042). *)
  Definition skl_irange (minimum maximum : option V) (incl_min incl_max reverse : bool)
    : M SKL (list V) :=
    min_key <- liftr (key_opt minimum) ;;
    max_key <- liftr (key_opt maximum) ;;
    skl_irange_key min_key max_key incl_min incl_max reverse.

  (** [SortedKeyList.bisect_key_left] (sortedlist.py:2174-2207). *)
  Definition skl_bisect_key_left (key : K) : M SKL nat :=
    s <- get ;;
    if is_nil (maxes (kc s)) then ret 0
    else
      pos <- liftr (bisect_left klt (maxes (kc s)) key) ;;
      if pos =? length (maxes (kc s)) then ret (len (kc s))
      else
        ks <- liftr (getn (keys s) pos) ;;
        idx <- liftr (bisect_left klt ks key) ;;
        oncore skl_vt (loc pos idx).

  (** [SortedKeyList.bisect_key_right] = [bisect_key] (sortedlist.py:2209-2243). *)
  Definition skl_bisect_key_right (key : K) : M SKL nat :=
    s <- get ;;
    if is_nil (maxes (kc s)) then ret 0
    else
      pos <- liftr (bisect_right klt (maxes (kc s)) key) ;;
      if pos =? length (maxes (kc s)) then ret (len (kc s))
      else
        ks <- liftr (getn (keys s) pos) ;;
        idx <- liftr (bisect_right klt ks key) ;;
        oncore skl_vt (loc pos idx).

  (** [SortedKeyList.bisect_left], [bisect_right] (sortedlist.py:2130-2172). *)
  Definition skl_bisect_left (value : V) : M SKL nat :=
    key <- liftr (kf value) ;; skl_bisect_key_left key.
  Definition skl_bisect_right (value : V) : M SKL nat :=
    key <- liftr (kf value) ;; skl_bisect_key_right key.

  (** The loop of [SortedKeyList.count] (sortedlist.py:2277-2288). *)
  Fixpoint count_loop (fuel : nat) (s : SKL) (key : K) (value : V)
      (pos idx len_sublist total : nat) : res nat :=
    match fuel with
    | O => Err OutOfFuel
    | S f =>
        let! ks := getn (keys s) pos in
        let! k := getn ks idx in
        let! same := keq k key in
        if negb same then Ok total
        else
          let! l := getn (lists (kc s)) pos in
          let! x := getn l idx in
          let! found := eq x value in
          let total := if found then total + 1 else total in
          let idx := idx + 1 in
          if idx =? len_sublist then
            let pos := pos + 1 in
            if pos =? length (keys s) then Ok total
            else
              let! ks' := getn (keys s) pos in
              count_loop f s key value pos 0 (length ks') total
          else count_loop f s key value pos idx len_sublist total
    end.

  (** [SortedKeyList.count] (sortedlist.py:2245-2288). *)
  Definition skl_count (value : V) : M SKL nat :=
    s <- get ;;
    if is_nil (maxes (kc s)) then ret 0
    else
      key <- liftr (kf value) ;;
      pos <- liftr (bisect_left klt (maxes (kc s)) key) ;;
      if pos =? length (maxes (kc s)) then ret 0
      else
        ks <- liftr (getn (keys s) pos) ;;
        idx <- liftr (bisect_left klt ks key) ;;
        liftr (count_loop (scan_fuel s) s key value pos idx (length ks) 0).

  (** The loop of [SortedKeyList.index] (sortedlist.py:2367-2384); [_loc] may
      build the index, so the loop is in [M]. *)
  Fixpoint index_loop (fuel : nat) (key : K) (value : V) (start stop : Z)
      (pos idx len_sublist : nat) : M SKL nat :=
    match fuel with
    | O => raise OutOfFuel
    | S f =>
        s <- get ;;
        ks <- liftr (getn (keys s) pos) ;;
        k <- liftr (getn ks idx) ;;
        same <- liftr (keq k key) ;;
        if negb same then raise ValueError
        else
          l <- liftr (getn (lists (kc s)) pos) ;;
          x <- liftr (getn l idx) ;;
          found <- liftr (eq x value) ;;
          let continue :=
            (let idx := idx + 1 in
             if idx =? len_sublist then
               let pos := pos + 1 in
               if pos =? length (keys s) then raise ValueError
               else
                 ks' <- liftr (getn (keys s) pos) ;;
                 index_loop f key value start stop pos 0 (length ks')
             else index_loop f key value start stop pos idx len_sublist) in
          if found then
            l <- oncore skl_vt (loc pos idx) ;;
            if ((start <=? Z.of_nat l) && (Z.of_nat l <=? stop))%Z then ret l
            else if (stop <? Z.of_nat l)%Z then raise ValueError
            else continue
          else continue
    end.

  (** [SortedKeyList.index] (sortedlist.py:2302-2384). *)
  Definition skl_index (value : V) (start stop : option Z) : M SKL nat :=
    s <- get ;;
    if len (kc s) =? 0 then raise ValueError
    else
      let n := Z.of_nat (len (kc s)) in
      let start := index_start start n in
      let stop := index_stop stop n in
      if (stop <=? start)%Z then raise ValueError
      else
        key <- liftr (kf value) ;;
        pos <- liftr (bisect_left klt (maxes (kc s)) key) ;;
        if pos =? length (maxes (kc s)) then raise ValueError
        else
          let stop := (stop - 1)%Z in
          ks <- liftr (getn (keys s) pos) ;;
          idx <- liftr (bisect_left klt ks key) ;;
          index_loop (scan_fuel s) key value start stop pos idx (length ks).

  (** [SortedKeyList.copy] (sortedlist.py:2290-2300). *)
  Definition skl_copy : M SKL SKL :=
    s <- get ;; liftr (skl_new (concat (lists (kc s)))).

  (** [SortedKeyList.__add__], [__radd__] (sortedlist.py:2386-2409). *)
  Definition skl_plus (other : list V) : M SKL SKL :=
    s <- get ;; liftr (skl_new (contents (kc s) ++ other)).

  (** [SortedKeyList.__mul__] (sortedlist.py:2411-2428). *)
  Definition skl_mul (num : Z) : M SKL SKL :=
    s <- get ;; liftr (skl_new (list_mul (contents (kc s)) num)).

  (** [SortedKeyList.__reduce__] (sortedlist.py:2430-2432) and reconstruction. *)
  Definition skl_reduce : M SKL SKL :=
    s <- get ;; liftr (skl_new (contents (kc s))).

  (** [SortedKeyList._check] (sortedlist.py:2446-2526). *)
  Definition skl_check (s : SKL) : res unit :=
    let c := kc s in
    let! _ := assertR (Ok (4 <=? load c)) in
    let! _ := assertR (Ok ((length (maxes c) =? length (lists c))
                           && (length (lists c) =? length (keys s)))) in
    let! _ := assertR (Ok (len c =? list_sum (map (@length V) (lists c)))) in
    let! _ := mapR (check_sublist klt) (keys s) in
    let! _ := check_ends klt (keys s) in
    let! _ := mapR (fun p =>
                let! _ := assertR (Ok (length (fst p) =? length (snd p))) in
                allR (fun q => let! k := kf (fst q) in keq k (snd q))
                     (combine (fst p) (snd p)))
              (combine (lists c) (keys s)) in
    let! _ := check_maxes keq (maxes c) (keys s) in
    let! _ := check_sizes c in
    check_index c.
End SortedKeyList.

(** [SortedKeyList] inherits [__rmul__] from [SortedList] (sortedlist.py:1429);
    it is bound to [SortedList.__mul__] (1426-1427), which calls
    [self.__class__(values)], i.e. [SortedKeyList(values)] with the default
    [key=identity] (1620, 1589-1591): the result compares the values themselves
    with [vlt]. *)
Definition skl_rmul {V K} (vlt : V -> V -> res bool) (dflt : nat) (num : Z)
  : M (skl V K) (skl V V) :=
  s <- get ;; liftr (skl_new vlt (fun v => Ok v) dflt (list_mul (contents (kc s)) num)).

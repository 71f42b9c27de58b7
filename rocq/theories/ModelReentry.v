(** * SortedList.add when a comparison itself uses the list

    [add] calls [<], and [<] may be code that calls methods of the very list that is being added to.  Here the text of a comparison is a
    tree of calls ([code]); what such a call leaves of the list is what the rest of the outer [add] goes on with.  The sublists are objects:
    [insort(_lists[pos], value)] (sortedlist.py:219) fetches the sublist before it compares and inserts into the same object afterwards,
    wherever that object is by then.  So each sublist has a number, and sublists that are no longer in [_lists] are kept. *)
From Verif Require Import PyBase Model.
Local Set Implicit Arguments.

(** User code with a world [W] of its own around a SortedList of values [V].  [CAct f k]: the world [w] becomes [f w] and the code goes on
    as [k w].  The other calls are [sl.add(v)], [del sl[i]], [sl[i]], [len(sl)] and [list(sl)]; an exception of the first three is caught
    and handed on, [CRaise] raises (again).  Code terminates; loops are not modelled. *)
Inductive code (W V A : Type) : Type :=
| CRet (a : A)
| CRaise (e : exn)
| CAct (f : W -> W) (k : W -> code W V A)
| CAdd (v : V) (k : res unit -> code W V A)
| CDel (i : Z) (k : res unit -> code W V A)
| CItem (i : Z) (k : res V -> code W V A)
| CLen (k : nat -> code W V A)
| CIter (k : list V -> code W V A).
Arguments CRet {W V A} a.
Arguments CRaise {W V A} e.
Arguments CAct {W V A} f k.
Arguments CAdd {W V A} v k.
Arguments CDel {W V A} i k.
Arguments CItem {W V A} i k.
Arguments CLen {W V A} k.
Arguments CIter {W V A} k.

(** A SortedList (sortedlist.py:89-116) with [ids], the numbers of the objects in [_lists], [dead], the former sublists, and [fresh], the
    next number.  [done] is no part of the object: it records the values whose [add] has returned, latest first. *)
Record robj (V : Type) : Type := mkrobj {
  body : core V V; ids : list nat; dead : list (nat * list V); fresh : nat; done : list V }.
Arguments mkrobj {V} body ids dead fresh done.
Arguments body {V} r.
Arguments ids {V} r.
Arguments dead {V} r.
Arguments fresh {V} r.
Arguments done {V} r.

Section Reentry.
  Context {W V : Type}.
  Notation RS := (W * robj V)%type.
  (** [a < b] *)
  Variable lt : V -> V -> code W V bool.

  Definition r_empty (load : nat) : robj V := mkrobj (core_empty load) [] [] 0 [].
  Definition set_body (c : core V V) (o : robj V) : robj V := mkrobj c (ids o) (dead o) (fresh o) (done o).
  (** A step of the object, a step of its SortedList that neither adds nor drops a sublist. *)
  Definition on_obj {A} (m : M (robj V) A) : M RS A := zoom snd (fun o s => (fst s, o)) m.
  Definition on_body {A} (m : M (core V V) A) : M RS A := on_obj (zoom body set_body m).

  (** The present content of sublist number [j]. *)
  Fixpoint find_id (j : nat) (is : list nat) (ls : list (list V)) : option (list V) :=
    match is, ls with
    | i :: is', l :: ls' => if i =? j then Some l else find_id j is' ls'
    | _, _ => None
    end.
  Definition sub (j : nat) (o : robj V) : list V :=
    match find_id j (ids o) (lists (body o)) with
    | Some l => l
    | None => match find_id j (map fst (dead o)) (map snd (dead o)) with Some l => l | None => [] end
    end.
  (** [l.insert(idx, value)] of sublist number [j], in [_lists] or not. *)
  Fixpoint put_id (j : nat) (f : list V -> list V) (is : list nat) (ls : list (list V)) : list (list V) :=
    match is, ls with
    | i :: is', l :: ls' => if i =? j then f l :: ls' else l :: put_id j f is' ls'
    | _, _ => ls
    end.
  Definition insert_sub (j idx : nat) (value : V) (o : robj V) : robj V :=
    let ins := fun l => insn l idx value in
    mkrobj (set_lists (put_id j ins (ids o) (lists (body o))) (body o)) (ids o)
      (map (fun p => if fst p =? j then (fst p, ins (snd p)) else p) (dead o)) (fresh o) (done o).

  (** [SortedList._expand] (sortedlist.py:228-259): [half] is a new object. *)
  Definition r_expand (pos : nat) : M (robj V) unit :=
    fun o => match sl_expand pos (body o) with
             | (r, c) => (r, if length (lists c) =? length (lists (body o)) then set_body c o
                             else mkrobj c (insn (ids o) (pos + 1) (fresh o)) (dead o) (S (fresh o)) (done o))
             end.

  (** [del sl[i]] (sortedlist.py:741-743; [_delete], 400-452).  When sublists are merged, or the last one becomes empty,
      one object leaves [_lists] (442, 450); when [_expand] then splits the merged one again, a new object comes in. *)
  Definition r_del (i : Z) : M (robj V) unit :=
    fun o =>
      match pos_of i (body o) with
      | (Err e, c) => (Err e, set_body c o)
      | (Ok (pos, idx), c) =>
          let gone := if (1 <? length (lists c)) && (pos =? 0) then 1 else pos in
          let d := match nth_error (ids o) gone, nth_error (lists c) gone with
                   | Some j, Some l => [(j, if gone =? pos then firstn idx l ++ skipn (S idx) l else l)]
                   | _, _ => []
                   end in
          match nth_error (lists c) pos, sl_delete pos idx c with
          | Some l, (r, c') =>
              let merged := (idx <? length l) && negb (load c / 2 <? length l - 1) && ((1 <? length (lists c)) || (length l =? 1)) in
              if merged then
                let is := firstn gone (ids o) ++ skipn (S gone) (ids o) in
                (r, if length (lists c') =? length (lists c)
                    then mkrobj c' (insn is gone (fresh o)) (d ++ dead o) (S (fresh o)) (done o)
                    else mkrobj c' is (d ++ dead o) (fresh o) (done o))
              else (r, set_body c' o)
          | None, (r, c') => (r, set_body c' o)
          end
      end.

  (** Running user code, given [add]. *)
  Fixpoint run {A} (add : V -> M RS unit) (m : code W V A) : M RS A :=
    match m with
    | CRet a => ret a
    | CRaise e => raise e
    | CAct f k => fun s => run add (k (fst s)) (f (fst s), snd s)
    | CAdd v k => fun s => let (r, s') := add v s in run add (k r) s'
    | CDel i k => fun s => let (r, s') := on_obj (r_del i) s in run add (k r) s'
    | CItem i k => fun s => let (r, s') := on_body (getitem_int i) s in run add (k r) s'
    | CLen k => fun s => run add (k (len (body (snd s)))) s
    | CIter k => fun s => run add (k (concat (lists (body (snd s))))) s
    end.

  (** [bisect_right] of the C library (as transcribed in PyBase.v): the bounds are those at the start, each value is fetched from the list
      as it is then. *)
  Fixpoint r_bisect (cmp : V -> V -> M RS bool) (read : robj V -> list V) (fuel : nat) (x : V) (lo hi : nat) : M RS nat :=
    match fuel with
    | O => raise OutOfFuel
    | S fuel' =>
        if lo <? hi then
          let mid := (lo + hi) / 2 in
          s <- get ;;
          y <- liftr (getn (read (snd s)) mid) ;;
          b <- cmp x y ;;
          if b : bool then r_bisect cmp read fuel' x lo mid
          else r_bisect cmp read fuel' x (S mid) hi
        else ret lo
    end.
  Definition r_bisect_right (cmp : V -> V -> M RS bool) (read : robj V -> list V) (x : V) : M RS nat :=
    s <- get ;; let n := length (read (snd s)) in r_bisect cmp read (S n) x 0 n.

  (** [SortedList.add] (sortedlist.py:193-226).  [depth] bounds how deep calls of [add] are nested; a comparison beyond it raises
      [OutOfFuel], which here stands for RecursionError.  [_lists[-1]] (215-216, [pos] 0) occurs only with [_lists] empty, where
      [_lists[0]] raises the same. *)
  Fixpoint r_add (depth : nat) (value : V) : M RS unit :=
    let cmp x y := match depth with O => raise OutOfFuel | S d => run (r_add d) (lt x y) end in
    s <- get ;;
    (if is_nil (maxes (body (snd s))) then
       on_obj (modify (fun o =>
         let c := body o in
         mkrobj (set_maxes (maxes c ++ [value]) (set_lists (lists c ++ [[value]]) c)) (ids o ++ [fresh o]) (dead o) (S (fresh o)) (done o)))
     else
       pos <- r_bisect_right cmp (fun o => maxes (body o)) value ;;
       s <- get ;;
       if pos =? length (maxes (body (snd s))) then
         let pos := pos - 1 in
         on_body (modifyR (fun c => let! ls := updn (lists c) pos (fun l => Ok (l ++ [value])) in Ok (set_lists ls c))) ;;;
         on_body (modifyR (fun c => let! ms := setn (maxes c) pos value in Ok (set_maxes ms c))) ;;;
         on_obj (r_expand pos)
       else
         j <- liftr (getn (ids (snd s)) pos) ;;
         idx <- r_bisect_right cmp (sub j) value ;;
         on_obj (modify (insert_sub j idx value)) ;;;
         on_obj (r_expand pos)) ;;;
    on_obj (modify (fun o => mkrobj (set_len (len (body o) + 1) (body o)) (ids o) (dead o) (fresh o) (value :: done o))).
End Reentry.

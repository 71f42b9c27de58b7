(** * The comparisons each lookup makes

    The lookups of Model.v again, in the same words, in a monad that also keeps the list of
    comparisons made.  CallFacts.v proves that leaving out that list gives the functions of Model.v,
    and that those depend on the comparison only through the calls listed. *)
From Verif Require Import PyBase Model.
Local Set Implicit Arguments.

(** A call of [<] or of [==]. *)
Inductive call (V : Type) : Type := Less (x y : V) | Same (x y : V).
Arguments Less {V}. Arguments Same {V}.

(** A computation with the calls it makes. *)
Definition ML (V S A : Type) : Type := S -> list (call V) * (res A * S).

Section Logged.
  Context {V S : Type}.
  (** A computation that compares nothing. *)
  Definition quiet {A} (m : M S A) : ML V S A := fun s => ([], m s).
  (** One comparison. *)
  Definition ask (c : call V) (r : res bool) : ML V S bool := fun s => ([c], (r, s)).
  Definition lbind {A B} (m : ML V S A) (k : A -> ML V S B) : ML V S B :=
    fun s => match m s with
             | (l, (Ok a, s')) => let (l', r) := k a s' in (l ++ l', r)
             | (l, (Err e, s')) => (l, (Err e, s'))
             end.
End Logged.
Notation "x <~ m ;; k" := (lbind m (fun x => k)) (at level 61, m at next level, right associativity).
Notation "m ~; k" := (lbind m (fun _ => k)) (at level 61, right associativity).

(** [bisect_right], [bisect_left] of PyBase.v. *)
Section BisectLog.
  Context {A S : Type}.
  Variable lt : A -> A -> res bool.
  Fixpoint bisect_right_loop_log (fuel : nat) (a : list A) (x : A) (lo hi : nat) : ML A S nat :=
    match fuel with
    | O => quiet (raise OutOfFuel)
    | Datatypes.S fuel' =>
        if lo <? hi then
          let mid := (lo + hi) / 2 in
          y <~ quiet (liftr (getn a mid)) ;;
          b <~ ask (Less x y) (lt x y) ;;
          if b then bisect_right_loop_log fuel' a x lo mid
          else bisect_right_loop_log fuel' a x (Datatypes.S mid) hi
        else quiet (ret lo)
    end.
  Definition bisect_right_log (a : list A) (x : A) : ML A S nat :=
    bisect_right_loop_log (Datatypes.S (length a)) a x 0 (length a).
  Fixpoint bisect_left_loop_log (fuel : nat) (a : list A) (x : A) (lo hi : nat) : ML A S nat :=
    match fuel with
    | O => quiet (raise OutOfFuel)
    | Datatypes.S fuel' =>
        if lo <? hi then
          let mid := (lo + hi) / 2 in
          y <~ quiet (liftr (getn a mid)) ;;
          b <~ ask (Less y x) (lt y x) ;;
          if b then bisect_left_loop_log fuel' a x (Datatypes.S mid) hi
          else bisect_left_loop_log fuel' a x lo mid
        else quiet (ret lo)
    end.
  Definition bisect_left_log (a : list A) (x : A) : ML A S nat :=
    bisect_left_loop_log (Datatypes.S (length a)) a x 0 (length a).
End BisectLog.

(** ** SortedList *)
Section ListLog.
  Context {V : Type}.
  Variables lt eq : V -> V -> res bool.
  Notation SL := (core V V).

  (** [sl_contains] (sortedlist.py:300-328). *)
  Definition sl_contains_log (value : V) : ML V SL bool :=
    c <~ quiet get ;;
    if is_nil (maxes c) then quiet (ret false)
    else
      pos <~ bisect_left_log lt (maxes c) value ;;
      if pos =? length (maxes c) then quiet (ret false)
      else
        l <~ quiet (liftr (getn (lists c) pos)) ;;
        idx <~ bisect_left_log lt l value ;;
        x <~ quiet (liftr (getn l idx)) ;;
        ask (Same x value) (eq x value).

  (** [sl_discard] (sortedlist.py:330-360). *)
  Definition sl_discard_log (value : V) : ML V SL unit :=
    c <~ quiet get ;;
    if is_nil (maxes c) then quiet (ret tt)
    else
      pos <~ bisect_left_log lt (maxes c) value ;;
      if pos =? length (maxes c) then quiet (ret tt)
      else
        l <~ quiet (liftr (getn (lists c) pos)) ;;
        idx <~ bisect_left_log lt l value ;;
        x <~ quiet (liftr (getn l idx)) ;;
        e <~ ask (Same x value) (eq x value) ;;
        if e then quiet (sl_delete pos idx) else quiet (ret tt).

  (** [sl_remove] (sortedlist.py:362-398). *)
  Definition sl_remove_log (value : V) : ML V SL unit :=
    c <~ quiet get ;;
    if is_nil (maxes c) then quiet (raise ValueError)
    else
      pos <~ bisect_left_log lt (maxes c) value ;;
      if pos =? length (maxes c) then quiet (raise ValueError)
      else
        l <~ quiet (liftr (getn (lists c) pos)) ;;
        idx <~ bisect_left_log lt l value ;;
        x <~ quiet (liftr (getn l idx)) ;;
        e <~ ask (Same x value) (eq x value) ;;
        if e then quiet (sl_delete pos idx) else quiet (raise ValueError).

  (** [sl_bisect_left] (sortedlist.py:1085-1114). *)
  Definition sl_bisect_left_log (value : V) : ML V SL nat :=
    c <~ quiet get ;;
    if is_nil (maxes c) then quiet (ret 0)
    else
      pos <~ bisect_left_log lt (maxes c) value ;;
      if pos =? length (maxes c) then quiet (ret (len c))
      else
        l <~ quiet (liftr (getn (lists c) pos)) ;;
        idx <~ bisect_left_log lt l value ;;
        quiet (loc pos idx).

  (** [sl_bisect_right] (sortedlist.py:1116-1148). *)
  Definition sl_bisect_right_log (value : V) : ML V SL nat :=
    c <~ quiet get ;;
    if is_nil (maxes c) then quiet (ret 0)
    else
      pos <~ bisect_right_log lt (maxes c) value ;;
      if pos =? length (maxes c) then quiet (ret (len c))
      else
        l <~ quiet (liftr (getn (lists c) pos)) ;;
        idx <~ bisect_right_log lt l value ;;
        quiet (loc pos idx).

  (** [sl_count] (sortedlist.py:1150-1187). *)
  Definition sl_count_log (value : V) : ML V SL nat :=
    c <~ quiet get ;;
    if is_nil (maxes c) then quiet (ret 0)
    else
      pos_left <~ bisect_left_log lt (maxes c) value ;;
      if pos_left =? length (maxes c) then quiet (ret 0)
      else
        l <~ quiet (liftr (getn (lists c) pos_left)) ;;
        idx_left <~ bisect_left_log lt l value ;;
        pos_right <~ bisect_right_log lt (maxes c) value ;;
        if pos_right =? length (maxes c) then
          left <~ quiet (loc pos_left idx_left) ;;
          quiet (liftr (subc (len c) left))
        else
          r <~ quiet (liftr (getn (lists c) pos_right)) ;;
          idx_right <~ bisect_right_log lt r value ;;
          if pos_left =? pos_right then quiet (liftr (subc idx_right idx_left))
          else
            right <~ quiet (loc pos_right idx_right) ;;
            left <~ quiet (loc pos_left idx_left) ;;
            quiet (liftr (subc right left)).

  (** [sl_index] (sortedlist.py:1290-1364). *)
  Definition sl_index_log (value : V) (start stop : option Z) : ML V SL nat :=
    c <~ quiet get ;;
    if len c =? 0 then quiet (raise ValueError)
    else
      let n := Z.of_nat (len c) in
      let start := index_start start n in
      let stop := index_stop stop n in
      if (stop <=? start)%Z then quiet (raise ValueError)
      else
        pos_left <~ bisect_left_log lt (maxes c) value ;;
        if pos_left =? length (maxes c) then quiet (raise ValueError)
        else
          l <~ quiet (liftr (getn (lists c) pos_left)) ;;
          idx_left <~ bisect_left_log lt l value ;;
          x <~ quiet (liftr (getn l idx_left)) ;;
          e <~ ask (Same x value) (eq x value) ;;
          if negb e then quiet (raise ValueError)
          else
            let stop := (stop - 1)%Z in
            left <~ quiet (loc pos_left idx_left) ;;
            if (start <=? Z.of_nat left)%Z then
              if (Z.of_nat left <=? stop)%Z then quiet (ret left) else quiet (raise ValueError)
            else
              right <~ sl_bisect_right_log value ;;
              if (start <=? Z.of_nat right - 1)%Z then quiet (ret (Z.to_nat start))
              else quiet (raise ValueError).

  (** [sl_add] (sortedlist.py:193-226); [insort] is [bisect_right] followed by [insert]. *)
  Definition sl_add_log (value : V) : ML V SL unit :=
    c <~ quiet get ;;
    (if is_nil (maxes c) then
       quiet (modify (fun c => set_maxes (maxes c ++ [value]) (set_lists (lists c ++ [[value]]) c)))
     else
       pos <~ bisect_right_log lt (maxes c) value ;;
       if pos =? length (maxes c) then
         let pos := pos - 1 in
         quiet (modifyR (fun c =>
           let! ls := updn (lists c) pos (fun l => Ok (l ++ [value])) in
           Ok (set_lists ls c)) ;;;
         modifyR (fun c =>
           let! ms := setn (maxes c) pos value in Ok (set_maxes ms c)) ;;;
         sl_expand pos)
       else
         l <~ quiet (liftr (getn (lists c) pos)) ;;
         i <~ bisect_right_log lt l value ;;
         quiet (modifyR (fun c =>
           let! ls := updn (lists c) pos (fun l => Ok (insn l i value)) in
           Ok (set_lists ls c)) ;;;
         sl_expand pos)) ~;
    quiet (modify (fun c => set_len (len c + 1) c)).
End ListLog.

(** ** SortedKeyList: calls of [<] between keys *)
Section KeyLog.
  Context {V K : Type}.
  Variable klt : K -> K -> res bool.
  Variable kf : V -> res K.
  Notation SKL := (skl V K).

  (** [skl_bisect_key_left] (sortedlist.py:2174-2207). *)
  Definition skl_bisect_key_left_log (key : K) : ML K SKL nat :=
    s <~ quiet get ;;
    if is_nil (maxes (kc s)) then quiet (ret 0)
    else
      pos <~ bisect_left_log klt (maxes (kc s)) key ;;
      if pos =? length (maxes (kc s)) then quiet (ret (len (kc s)))
      else
        ks <~ quiet (liftr (getn (keys s) pos)) ;;
        idx <~ bisect_left_log klt ks key ;;
        quiet (oncore (skl_vt klt kf) (loc pos idx)).

  (** [skl_bisect_key_right] (sortedlist.py:2209-2243). *)
  Definition skl_bisect_key_right_log (key : K) : ML K SKL nat :=
    s <~ quiet get ;;
    if is_nil (maxes (kc s)) then quiet (ret 0)
    else
      pos <~ bisect_right_log klt (maxes (kc s)) key ;;
      if pos =? length (maxes (kc s)) then quiet (ret (len (kc s)))
      else
        ks <~ quiet (liftr (getn (keys s) pos)) ;;
        idx <~ bisect_right_log klt ks key ;;
        quiet (oncore (skl_vt klt kf) (loc pos idx)).

  (** [skl_add] (sortedlist.py:1678-1719). *)
  Definition skl_add_log (value : V) : ML K SKL unit :=
    key <~ quiet (liftr (kf value)) ;;
    s <~ quiet get ;;
    (if is_nil (maxes (kc s)) then
       quiet (modify (fun s =>
         mkskl (set_maxes (maxes (kc s) ++ [key]) (set_lists (lists (kc s) ++ [[value]]) (kc s)))
               (keys s ++ [[key]])))
     else
       pos <~ bisect_right_log klt (maxes (kc s)) key ;;
       if pos =? length (maxes (kc s)) then
         let pos := pos - 1 in
         quiet (modifyR (fun s =>
           let! ls := updn (lists (kc s)) pos (fun l => Ok (l ++ [value])) in
           Ok (on_kc (set_lists ls) s)) ;;;
         modifyR (fun s =>
           let! kss := updn (keys s) pos (fun l => Ok (l ++ [key])) in Ok (set_keys kss s)) ;;;
         modifyR (fun s =>
           let! ms := setn (maxes (kc s)) pos key in Ok (on_kc (set_maxes ms) s)) ;;;
         skl_expand pos)
       else
         ks <~ quiet (liftr (getn (keys s) pos)) ;;
         idx <~ bisect_right_log klt ks key ;;
         quiet (modifyR (fun s =>
           let! ls := updn (lists (kc s)) pos (fun l => Ok (insn l idx value)) in
           Ok (on_kc (set_lists ls) s)) ;;;
         modifyR (fun s =>
           let! kss := updn (keys s) pos (fun l => Ok (insn l idx key)) in Ok (set_keys kss s)) ;;;
         skl_expand pos)) ~;
    quiet (modify (on_kc (fun c => set_len (len c + 1) c))).
End KeyLog.

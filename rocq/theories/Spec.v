(** * Reference semantics on plain lists

    A small specification, independent of the implementation: it knows nothing
    of sublists, maxima, positional index or load factor.  [ltb] is the order by
    which the container sorts values ([<] on values, or [<] on their keys);
    [eqb] is equality of values.  Python's own list operations ([getz] for
    [l[i]], [slice_indices] and [rangez] for slices) come from PyBase.v. *)
From Verif Require Import PyBase.
From Coq Require Import Sorting.Permutation Sorting.Sorted.
Local Set Implicit Arguments.

(** ** Orders *)

(** Strict weak order: the order laws Python needs from [<]. *)
Record SWO {A} (ltb : A -> A -> bool) : Prop := {
  swo_irrefl : forall x, ltb x x = false;
  swo_trans : forall x y z, ltb x y = true -> ltb y z = true -> ltb x z = true;
  swo_cotrans : forall x y z, ltb x z = true -> ltb x y = true \/ ltb y z = true }.

(** Total order: [==] holds exactly when neither value is smaller.  Distinct
    Coq values may be equal in this sense, like [1], [1.0] and [True]. *)
Record TotalOrder {A} (ltb eqb : A -> A -> bool) : Prop := {
  to_swo : SWO ltb;
  to_eq : forall x y, eqb x y = negb (ltb x y) && negb (ltb y x) }.

(** Equality of values that refines the order [ltb] (equal values have equal
    keys).  All that SortedKeyList needs from [==] of values. *)
Definition EqCompat {A} (ltb eqb : A -> A -> bool) : Prop :=
  forall x y, eqb x y = true -> ltb x y = false /\ ltb y x = false.

(** A boolean comparison as a Python comparison that never raises. *)
Definition total2 {A B C} (f : A -> B -> C) : A -> B -> res C := fun x y => Ok (f x y).
Definition total1 {A B} (f : A -> B) : A -> res B := fun x => Ok (f x).

(** The order on values induced by a key function. *)
Definition by_key {V K} (key : V -> K) (kltb : K -> K -> bool) : V -> V -> bool :=
  fun x y => kltb (key x) (key y).

(** [l] is sorted: no value is smaller than an earlier one. *)
Definition sorted {A} (ltb : A -> A -> bool) (l : list A) : Prop :=
  StronglySorted (fun x y => ltb y x = false) l.

(** [x] and [y] tie. *)
Definition tie {A} (ltb : A -> A -> bool) (x y : A) : bool :=
  negb (ltb x y) && negb (ltb y x).

(** [l'] is the stable sort of [l]: sorted, and each class of tied values keeps
    its order (hence [l'] is a permutation of [l]). *)
Definition stable_sort_of {A} (ltb : A -> A -> bool) (l l' : list A) : Prop :=
  sorted ltb l' /\ forall x, filter (tie ltb x) l' = filter (tie ltb x) l.

Section Spec.
  Context {V : Type}.
  Variables ltb eqb : V -> V -> bool.

  (** [add(v)]: after all values not greater than [v]. *)
  Definition sp_add (v : V) (l : list V) : list V :=
    filter (fun y => negb (ltb v y)) l ++ v :: filter (fun y => ltb v y) l.

  (** Stable sort, by repeated insertion. *)
  Definition sp_sort (l : list V) : list V :=
    fold_left (fun acc v => sp_add v acc) l [].

  (** [update(it)] *)
  Definition sp_update (it l : list V) : list V := sp_sort (l ++ it).

  (** [v in l] *)
  Definition sp_contains (v : V) (l : list V) : bool := existsb (fun e => eqb e v) l.

  (** Remove the first value equal to [v], if any. *)
  Fixpoint sp_discard (v : V) (l : list V) : list V :=
    match l with
    | [] => []
    | e :: t => if eqb e v then t else e :: sp_discard v t
    end.
  Definition sp_remove (v : V) (l : list V) : res unit * list V :=
    if sp_contains v l then (Ok tt, sp_discard v l) else (Err ValueError, l).

  (** Ranks. *)
  Definition sp_bisect_left (v : V) (l : list V) : nat :=
    length (filter (fun e => ltb e v) l).
  Definition sp_bisect_right (v : V) (l : list V) : nat :=
    length (filter (fun e => negb (ltb v e)) l).
  Definition sp_count (v : V) (l : list V) : nat :=
    length (filter (fun e => eqb e v) l).

  (** [l.index(v, start, stop)]: the window as in Python's [list.index]. *)
  Definition win_start (start : option Z) (n : Z) : Z :=
    match start with
    | None => 0
    | Some s => if s <? 0 then Z.max 0 (s + n) else s
    end%Z.
  Definition win_stop (stop : option Z) (n : Z) : Z :=
    match stop with
    | None => n
    | Some s => if s <? 0 then s + n else s
    end%Z.
  Definition sp_index (v : V) (start stop : option Z) (l : list V) : res nat :=
    let n := Z.of_nat (length l) in
    match find (fun i => ((win_start start n <=? Z.of_nat i)
                          && (Z.of_nat i <? win_stop stop n))%Z
                         && match nth_error l i with Some e => eqb e v | None => false end)
               (seq 0 (length l)) with
    | Some i => Ok i
    | None => Err ValueError
    end.

  (** [irange] *)
  Definition sp_irange (mn mx : option V) (imin imax reverse : bool) (l : list V) : list V :=
    let lo e := match mn with
                | None => true
                | Some m => if imin then negb (ltb e m) else ltb m e
                end in
    let hi e := match mx with
                | None => true
                | Some m => if imax then negb (ltb m e) else ltb e m
                end in
    let r := filter (fun e => lo e && hi e) l in
    if reverse then rev r else r.
End Spec.

(** Ranks and ranges by key (the bound is a key, not a value). *)
Section SpecKey.
  Context {V K : Type}.
  Variable key : V -> K.
  Variable kltb : K -> K -> bool.
  Definition sp_bisect_key_left (k : K) (l : list V) : nat :=
    length (filter (fun e => kltb (key e) k) l).
  Definition sp_bisect_key_right (k : K) (l : list V) : nat :=
    length (filter (fun e => negb (kltb k (key e))) l).
  Definition sp_irange_key (mn mx : option K) (imin imax reverse : bool) (l : list V) : list V :=
    let lo e := match mn with
                | None => true
                | Some m => if imin then negb (kltb (key e) m) else kltb m (key e)
                end in
    let hi e := match mx with
                | None => true
                | Some m => if imax then negb (kltb m (key e)) else kltb (key e) m
                end in
    let r := filter (fun e => lo e && hi e) l in
    if reverse then rev r else r.
End SpecKey.

(** ** Behaviour of Python's built-in list *)
Section PyListSpec.
  Context {V : Type}.

  (** [l[a:b:c]] *)
  Definition sp_slice (sl : slice) (l : list V) : res (list V) :=
    let! t := slice_indices sl (length l) in
    let '(start, stop, step) := t in
    mapR (getz l) (rangez start stop step).

  (** [del l[i]] *)
  Definition sp_del (i : Z) (l : list V) : res (list V) :=
    let j := (if i <? 0 then i + Z.of_nat (length l) else i)%Z in
    if (j <? 0)%Z then Err IndexError else deln l (Z.to_nat j).

  (** The values of [l] whose position is not in [idxs]; [i] is the position of
      the head of [l]. *)
  Fixpoint drop_positions (idxs : list Z) (i : Z) (l : list V) : list V :=
    match l with
    | [] => []
    | x :: t =>
        if existsb (Z.eqb i) idxs then drop_positions idxs (i + 1)%Z t
        else x :: drop_positions idxs (i + 1)%Z t
    end.

  (** [del l[a:b:c]] *)
  Definition sp_del_slice (sl : slice) (l : list V) : res (list V) :=
    let! t := slice_indices sl (length l) in
    let '(start, stop, step) := t in
    Ok (drop_positions (rangez start stop step) 0%Z l).

  (** [l * n] *)
  Definition sp_mul (n : Z) (l : list V) : list V := concat (repeat l (Z.to_nat n)).
End PyListSpec.

(** Equality and lexicographic comparison of sequences. *)
Section Lex.
  Context {V : Type}.
  Variables eqb ltb : V -> V -> bool.
  Fixpoint sp_eq (l o : list V) : bool :=
    match l, o with
    | [], [] => true
    | a :: l', b :: o' => eqb a b && sp_eq l' o'
    | _, _ => false
    end.
  Fixpoint lex (l o : list V) : comparison :=
    match l, o with
    | [], [] => Eq
    | [], _ :: _ => Lt
    | _ :: _, [] => Gt
    | a :: l', b :: o' =>
        if ltb a b then Lt else if ltb b a then Gt else lex l' o'
    end.
End Lex.

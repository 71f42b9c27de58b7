(** * Model of what the views of SortedDict, and SortedSet, inherit from [collections.abc]

    [SortedKeysView(KeysView, Sequence)], [SortedItemsView(ItemsView, Sequence)],
    [SortedValuesView(ValuesView, Sequence)] (sorteddict.py:596-746) and
    [SortedSet(MutableSet, Sequence)] (sortedset.py:24).  The inherited methods are those of
    CPython's [_collections_abc.py] (3.11), classes [Set] and [Sequence]. *)
From Verif Require Import PyBase Model History ListClass ModelSet ModelDict.
Local Set Implicit Arguments.

(** The methods of a view that the inherited ones call: [__iter__], [__contains__], [__len__],
    [__getitem__] with an integer. *)
Record view (St X : Type) : Type := mkview {
  v_iter : M St (list X);
  v_in : X -> M St bool;
  v_len : M St nat;
  v_at : Z -> M St X }.
Arguments mkview {St X}.

(** [value for value in l if f(value)] *)
Fixpoint keepM {St X} (f : X -> M St bool) (l : list X) : M St (list X) :=
  match l with
  | [] => ret []
  | x :: t => b <- f x ;; r <- keepM f t ;; ret (if b : bool then x :: r else r)
  end.

(** ** Methods of [collections.abc.Set] *)
Section SetMixin.
  Context {St X SN KN : Type}.
  Variable w : view St X.
  (** The class [SortedSet] without key function, with the natural order of the values. *)
  Variable N : listcls SN X KN.
  Variable eqx : X -> X -> bool.
  Variable ord : nat -> list X -> list X.
  Notation SS := (sset SN X).

  (** [_from_iterable(it)] is [SortedSet(it)]: for the views sorteddict.py:607-609 and 654-656, for
      a SortedSet the inherited [cls(it)].  In neither case a key function is passed on.  [t] is
      the number of the next iteration of a hash set (see [ModelSet.v]). *)
  Definition from_iterable (t : nat) (l : list X) : res SS := ss_new N eqx ord t (Some (AIter l)).

  (** [__and__], [__rand__] *)
  Definition mix_and (t : nat) (other : list X) : M St SS :=
    l <- keepM (v_in w) other ;; liftr (from_iterable t l).
  (** [__or__], [__ror__] *)
  Definition mix_or (t : nat) (other : list X) : M St SS :=
    me <- v_iter w ;; liftr (from_iterable t (me ++ other)).

  (** [if not isinstance(other, Set): other = self._from_iterable(other)].  [ASet l] stands for any
      instance of [collections.abc.Set], with the values [l] in the order of its iteration. *)
  Inductive operand : Type := Given (l : list X) | Built (o : SS).
  Definition as_set (t : nat) (a : arg (V:=X)) : res operand :=
    match a with ASet l => Ok (Given l) | AIter l => let! o := from_iterable t l in Ok (Built o) end.
  Definition op_tick (t : nat) (o : operand) : nat := match o with Given _ => t | Built o => s_tick o end.
  (** [value in other] *)
  Definition op_in (o : operand) (x : X) : bool :=
    set_mem eqx x (match o with Given l => l | Built o => s_set o end).
  (** [for value in other] *)
  Definition op_iter (o : operand) : res (list X) :=
    match o with Given l => Ok l | Built o => fst (ss_iter N o) end.

  (** [__sub__] *)
  Definition mix_sub (t : nat) (a : arg (V:=X)) : M St SS :=
    o <- liftr (as_set t a) ;;
    me <- v_iter w ;;
    liftr (from_iterable (op_tick t o) (filter (fun x => negb (op_in o x)) me)).
  (** [__rsub__] *)
  Definition mix_rsub (t : nat) (a : arg (V:=X)) : M St SS :=
    o <- liftr (as_set t a) ;;
    it <- liftr (op_iter o) ;;
    l <- keepM (fun x => b <- v_in w x ;; ret (negb b)) it ;;
    liftr (from_iterable (op_tick t o) l).
  (** [__xor__], [__rxor__]: [(self - other) | (other - self)].  For a given set [other] the second
      difference is [self.__rsub__(other)] (as for a builtin set; a class with its own [__sub__] that
      accepts the view gives the same members), for one built above it is [SortedSet.__sub__]. *)
  Definition mix_xor (t : nat) (a : arg (V:=X)) : M St SS :=
    o <- liftr (as_set t a) ;;
    me <- v_iter w ;;
    d1 <- liftr (from_iterable (op_tick t o) (filter (fun x => negb (op_in o x)) me)) ;;
    d2 <- (match o with
           | Given l =>
               k <- keepM (fun x => b <- v_in w x ;; ret (negb b)) l ;; liftr (from_iterable (s_tick d1) k)
           | Built o => liftr (fst (ss_difference N eqx ord [AIter me] o))
           end) ;;
    l2 <- liftr (fst (ss_iter N d2)) ;;
    liftr (fst (ss_union N eqx ord [AIter l2] d1)).

  (** [isdisjoint]; the loop of the code stops at the first common value. *)
  Definition mix_isdisjoint (other : list X) : M St bool :=
    l <- keepM (v_in w) other ;; ret (is_nil l).

  (** [__le__], [__lt__], [__ge__], [__gt__], [__eq__] with an instance of [Set], [__ne__] the
      negation of [__eq__]. *)
  Definition mix_le (other : list X) : M St bool :=
    n <- v_len w ;;
    if length other <? n then ret false
    else me <- v_iter w ;; ret (forallb (fun x => set_mem eqx x other) me).
  Definition mix_ge (other : list X) : M St bool :=
    n <- v_len w ;;
    if n <? length other then ret false
    else l <- keepM (v_in w) other ;; ret (length l =? length other).
  Definition mix_compare (op : cmpop) (other : list X) : M St bool :=
    n <- v_len w ;;
    match op with
    | Cle => mix_le other
    | Cge => mix_ge other
    | Clt => if n <? length other then mix_le other else ret false
    | Cgt => if length other <? n then mix_ge other else ret false
    | Ceq => if n =? length other then mix_le other else ret false
    | Cne => b <- (if n =? length other then mix_le other else ret false) ;; ret (negb b)
    end.
End SetMixin.

(** ** Methods of [collections.abc.Sequence] *)
Section SequenceMixin.
  Context {St X : Type}.
  Variable w : view St X.
  (** [v is value or v == value] *)
  Variable eqx : X -> X -> bool.

  Fixpoint index_loop (fuel : nat) (value : X) (stop : option Z) (i : Z) : M St nat :=
    match fuel with
    | O => raise OutOfFuel
    | S f =>
        if (match stop with None => true | Some b => i <? b end)%Z then
          fun s => match v_at w i s with
                   | (Ok v, s') => if eqx v value then (Ok (Z.to_nat i), s') else index_loop f value stop (i + 1) s'
                   | (Err IndexError, s') => (Err ValueError, s')
                   | (Err e, s') => (Err e, s')
                   end
        else raise ValueError
    end.
  (** [index(value, start=0, stop=None)] *)
  Definition seq_index (value : X) (start : Z) (stop : option Z) : M St nat :=
    n <- v_len w ;;
    let start := (if start <? 0 then Z.max (Z.of_nat n + start) 0 else start)%Z in
    let stop := option_map (fun b => if b <? 0 then b + Z.of_nat n else b)%Z stop in
    index_loop (S n) value stop start.
  (** [count(value)] *)
  Definition seq_count (value : X) : M St nat :=
    l <- v_iter w ;; ret (length (filter (fun x => eqx x value) l)).
End SequenceMixin.

(** ** The views (sorteddict.py:321-352) and SortedSet *)
Section Views.
  Context {S A B K : Type}.
  Variable T : listcls S A K.
  Variable eqb : A -> A -> bool.
  Variable veqb : B -> B -> bool.

  Definition keys_view : view (sdict S A B) A :=
    mkview (sd_iter T) (sd_contains eqb) (@sd_len S A B) (kv_get T).
  Definition items_view : view (sdict S A B) (A * B) :=
    mkview (sd_items T eqb) (fun p => iv_contains eqb veqb (fst p) (snd p)) (@sd_len S A B) (iv_get T eqb).
  Definition values_view : view (sdict S A B) B :=
    mkview (sd_values T eqb) (vv_contains T eqb veqb) (@sd_len S A B) (vv_get T eqb).
  Definition set_view : view (sset S A) A :=
    mkview (ss_iter T) (ss_contains eqb) (@ss_len S A) (ss_get T).
End Views.

(** The binary operators a view inherits. *)
Inductive vop : Type := VAnd | VOr | VSub | VRSub | VXor.
Definition mix_op {St X SN KN} (w : view St X) (N : listcls SN X KN) eqx ord (op : vop) (t : nat) (a : arg (V:=X)) :
    M St (sset SN X) :=
  match op with
  | VAnd => mix_and w N eqx ord t (items a)
  | VOr => mix_or w N eqx ord t (items a)
  | VSub => mix_sub w N eqx ord t a
  | VRSub => mix_rsub w N eqx ord t a
  | VXor => mix_xor w N eqx ord t a
  end.

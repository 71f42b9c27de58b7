(** * Which operations compare values *)
From Verif Require Import PyBase Model Spec History ListClass ClassSpec ModelSet ModelDict.
Local Set Implicit Arguments.

Definition some {A} (l : list A) : bool := negb (is_nil l).
Definition many {A} (l : list A) : bool := 2 <=? length l.
Definition is_given {A} (o : option A) : bool := match o with Some _ => true | None => false end.

(** ** SortedList and SortedKeyList with contents [l]

    A search compares unless the list is empty; filling a list compares unless it gets less than two values. *)
Definition list_compares {V} (o : lop V) (l : list V) : bool :=
  match o with
  | LAdd _ | LDiscard _ | LRemove _ | LContains _ | LCount _ | LBisectLeft _ | LBisectRight _ => some l
  | LUpdate it | LIAdd it => some it && many (l ++ it)
  | LIndex _ a b => let n := Z.of_nat (length l) in (win_start a n <? Z.min n (win_stop b n))%Z
  | LIRange mn mx _ _ _ => some l && (is_given mn || is_given mx)
  | LDelSlice sl =>
      match s_step sl, sp_del_slice sl l with
      | None, Ok rest | Some 1%Z, Ok rest => (length l <=? 8 * (length l - length rest)) && many rest
      | _, _ => false
      end
  | LReset _ | LCopy | LReduce => many l
  | LIMul n | LMul n => many (sp_mul n l)
  | LPlus it => many (l ++ it)
  | LCompare op other =>
      some l && some other && ((length l =? length other) || match op with Ceq | Cne => false | _ => true end)
  | LClear | LGet _ | LSlice _ | LDel _ | LPop _ | LLen | LIter | LReversed | LISlice _ _ _ | LUnsupported => false
  end.
(** For a SortedKeyList: comparisons of keys ([==], [<] of values in [LCompare]). *)
Definition keylist_compares {V K} (o : kop V K) (l : list V) : bool :=
  match o with
  | KList o => list_compares o l
  | KBisectLeft _ | KBisectRight _ => some l
  | KIRange mn mx _ _ _ => some l && (is_given mn || is_given mx)
  end.

(** ** SortedSet and SortedDict; [keyed] tells whether there is a key function *)
Definition fwd_compares {V K} (keyed : bool) (f : fwd V K) (l : list V) : bool :=
  match fwd_op f with
  | KList o => list_compares o l
  | o => keyed && keylist_compares o l
  end.

(** [m] are the members as the hash set lists them, [l] in order.  A value that is there is not added, one that is not there is not
    discarded, without a comparison. *)
Definition set_compares {V K} (keyed : bool) (eqb : V -> V -> bool) (o : sop V K) (m l : list V) : bool :=
  match o with
  | SAdd v => negb (set_mem eqb v m) && some l
  | SDiscard v | SRemove v => set_mem eqb v m
  | SUpdate its =>
      let vs := set_of eqb (concat (map (@items V) its)) in
      if length m <? 4 * length vs then many (set_union eqb m vs) else existsb (fun v => negb (set_mem eqb v m)) vs
  | SDifferenceUpdate its =>
      let vs := set_of eqb (concat (map (@items V) its)) in
      if length m <? 4 * length vs then many (set_diff eqb m vs) else existsb (fun v => set_mem eqb v m) vs
  | SIntersectionUpdate its | SIntersection its => many (fold_left (set_inter eqb) its m)
  | SSymmetricDifferenceUpdate it => many (set_sym eqb m (items it))
  | SSymmetricDifference it => many (set_sym_new eqb m (items it))
  | SUnion its => many (set_of eqb (l ++ concat (map (@items V) its)))
  | SDifference its => many (fold_left (fun s a => set_diff eqb s (items a)) its m)
  | SCopy | SReduce => many m
  | SDelSlice sl => list_compares (LDelSlice sl) l
  | SFwd f => fwd_compares keyed f l
  | SPop _ | SClear | SContains _ | SCount _ | SLen | SIter | SReversed | SGet _ | SSlice _ | SDel _
  | SCompare _ _ | SIsDisjoint _ | SIsSubset _ | SIsSuperset _ => false
  end.

(** [d] are the items in the order of the dict, [l] in order of the keys. *)
Definition dict_compares {A B K} (keyed : bool) (eqb : A -> A -> bool) (o : dop A B K) (d l : list (A * B)) : bool :=
  match o with
  | DSet k _ | DSetDefault k _ => negb (d_mem eqb k d) && some l
  | DDel k | DPop k _ => d_mem eqb k d
  | DUpdate a | DIOr a =>
      let ps := d_of eqb (pairs_of a) in
      if length d <? 10 * length ps then many (d_update eqb d ps) else existsb (fun p => negb (d_mem eqb (fst p) d)) ps
  | DOr other => many (d_of eqb (l ++ other))
  | DROr other => many (d_of eqb (other ++ l))
  | DCopy | DReduce _ => many d
  | DViewDelSlice sl => list_compares (LDelSlice sl) (map fst l)
  | DFwd f => fwd_compares keyed f (map fst l)
  | DGetItem _ | DGet _ _ | DContains _ | DLen | DIter | DReversed | DClear | DPopItem _ | DPeekItem _ | DItems | DValues | DItemsReversed
  | DValuesReversed | DKeysReversed | DItemIn _ _ | DValueIn _ | DKeyAt _ | DItemAt _ | DValueAt _ | DKeySlice _ | DItemSlice _
  | DValueSlice _ | DViewDel _ | DEq _ => false
  end.
(** A [dict] given to [update] has different keys. *)
Definition real_dict {A B} (eqb : A -> A -> bool) (a : darg A B) : Prop :=
  match a with ADict ps => d_of eqb ps = ps | APairs _ => True end.
Definition real_dicts {A B K} (eqb : A -> A -> bool) (o : dop A B K) : Prop :=
  match o with DUpdate a | DIOr a => real_dict eqb a | _ => True end.

(** [changed keyed T T' eqb]: the methods [T] of a SortedList, or SortedKeyList, whose values, or keys, are totally ordered, and the same
    methods when [<] and [==] of values and keys answer in any other way.  The key function stays. *)
Inductive changed {V K : Type} : bool -> forall S : Type, listcls S V K -> listcls S V K -> (V -> V -> bool) -> Prop :=
| changed_plain : forall (ltb eqb : V -> V -> bool) lt eq dflt,
    TotalOrder ltb eqb -> 1 <= dflt ->
    changed false (plain (total2 ltb) (total2 eqb) dflt) (plain lt eq dflt) eqb
| changed_keyed : forall (key : V -> K) (kltb keqb : K -> K -> bool) (eqb : V -> V -> bool) eq klt keq dflt,
    TotalOrder kltb keqb -> Equiv eqb -> EqCompat (by_key key kltb) eqb -> 1 <= dflt ->
    changed true (keyed (total2 eqb) (total2 kltb) (total2 keqb) (total1 key) dflt) (keyed eq klt keq (total1 key) dflt) eqb.
(** The same methods when every comparison raises [e]. *)
Inductive raising {V K : Type} (e : exn) : bool -> forall S : Type, listcls S V K -> listcls S V K -> (V -> V -> bool) -> Prop :=
| raising_plain : forall (ltb eqb : V -> V -> bool) lt eq dflt,
    TotalOrder ltb eqb -> 1 <= dflt -> (forall x y, lt x y = Err e) -> (forall x y, eq x y = Err e) ->
    raising e false (plain (total2 ltb) (total2 eqb) dflt) (plain lt eq dflt) eqb
| raising_keyed : forall (key : V -> K) (kltb keqb : K -> K -> bool) (eqb : V -> V -> bool) eq klt keq dflt,
    TotalOrder kltb keqb -> Equiv eqb -> EqCompat (by_key key kltb) eqb -> 1 <= dflt ->
    (forall x y, eq x y = Err e) -> (forall x y, klt x y = Err e) -> (forall x y, keq x y = Err e) ->
    raising e true (keyed (total2 eqb) (total2 kltb) (total2 keqb) (total1 key) dflt) (keyed eq klt keq (total1 key) dflt) eqb.

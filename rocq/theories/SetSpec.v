(** * Specification vocabulary for SortedSet *)
From Coq Require Import Permutation.
From Verif Require Import PyBase Model Spec History Reach ListClass ClassSpec ModelSet.
Local Set Implicit Arguments.

Section Members.
  Context {V : Type}.
  Variable eqb : V -> V -> bool.

  (** [x] is a member of the mathematical set whose members are listed in [l]. *)
  Definition member (x : V) (l : list V) : Prop := exists y, In y l /\ eqb y x = true.
  (** [x] is listed by one of the arguments. *)
  Definition in_any (x : V) (its : list (arg (V:=V))) : Prop := exists a, In a its /\ member x (items a).
  (** No two of the listed values are equal. *)
  Fixpoint distinct (l : list V) : Prop :=
    match l with
    | [] => True
    | x :: t => (forall y, In y t -> eqb x y = false) /\ distinct t
    end.
  Definition subset (a b : list V) : Prop := forall x, member x a -> member x b.

  (** The relation each comparison operator decides. *)
  Definition set_cmp_means (op : cmpop) (a b : list V) : Prop :=
    match op with
    | Ceq => subset a b /\ subset b a
    | Cne => ~ (subset a b /\ subset b a)
    | Cle => subset a b
    | Cge => subset b a
    | Clt => subset a b /\ ~ subset b a
    | Cgt => subset b a /\ ~ subset a b
    end.
  Definition disjoint (a b : list V) : Prop := forall x, ~ (member x a /\ member x b).
End Members.

(** [b] is the answer to the question [P]. *)
Definition answers {V} (r : out V) (P : Prop) : Prop := exists b, r = RBool b /\ (b = true <-> P).

(** Position [i] of [l] (counted from the end when negative) holds [x]; [a] and [b] are the values
    before and after it. *)
Definition at_pos {V} (i : Z) (l a : list V) (x : V) (b : list V) : Prop :=
  l = a ++ x :: b /\ (Z.of_nat (length a) = i \/ Z.of_nat (length a) = i + Z.of_nat (length l))%Z.
Definition out_of_range {V} (i : Z) (l : list V) : Prop :=
  (i < - Z.of_nat (length l) \/ Z.of_nat (length l) <= i)%Z.

(** One operation on a set iterated as [l]: [r] is what it returns or raises and [l'] how the set
    is iterated afterwards.  Together with [l'] being sorted without equal values, this pins down
    the members exactly. *)
Definition set_effect {V K} (eqb : V -> V -> bool) (fref : fwd V K -> list V -> out V * list V)
    (o : sop V K) (l : list V) (r : out V) (l' : list V) : Prop :=
  let mem := member eqb in
  match o with
  | SAdd v =>
      r = RUnit /\
      ((mem v l /\ l' = l) \/ (~ mem v l /\ exists a b, l = a ++ b /\ l' = a ++ v :: b))
  | SDiscard v =>
      r = RUnit /\
      ((~ mem v l /\ l' = l) \/ exists a x b, l = a ++ x :: b /\ eqb x v = true /\ l' = a ++ b)
  | SRemove v =>
      (~ mem v l /\ r = RExn KeyError /\ l' = l) \/
      exists a x b, l = a ++ x :: b /\ eqb x v = true /\ r = RUnit /\ l' = a ++ b
  | SPop i =>
      (out_of_range i l /\ r = RExn IndexError /\ l' = l) \/
      exists a x b, at_pos i l a x b /\ r = RVal x /\ l' = a ++ b
  | SClear => r = RUnit /\ l' = []
  | SContains v => l' = l /\ answers r (mem v l)
  | SCount v => l' = l /\ ((mem v l /\ r = RNat 1) \/ (~ mem v l /\ r = RNat 0))
  | SLen => l' = l /\ r = RNat (length l)
  | SIter => l' = l /\ r = RList l
  | SReversed => l' = l /\ r = RList (rev l)
  | SGet i =>
      l' = l /\ ((out_of_range i l /\ r = RExn IndexError) \/ exists a x b, at_pos i l a x b /\ r = RVal x)
  | SSlice sl =>
      l' = l /\ ((s_step sl = Some 0%Z /\ r = RExn ValueError) \/
                 (s_step sl <> Some 0%Z /\ exists x, r = RList x /\ slice_is sl l x))
  | SDel i =>
      (out_of_range i l /\ r = RExn IndexError /\ l' = l) \/
      exists a x b, at_pos i l a x b /\ r = RUnit /\ l' = a ++ b
  | SDelSlice sl =>
      (s_step sl = Some 0%Z /\ r = RExn ValueError /\ l' = l) \/
      (s_step sl <> Some 0%Z /\ r = RUnit /\ slice_deleted sl l l')
  | SUpdate its | SUnion its =>
      r = RUnit /\ (forall x, mem x l' <-> mem x l \/ in_any eqb x its) /\
      (forall x, In x l -> In x l') /\
      (forall x, In x l' -> In x l \/ exists a, In a its /\ In x (items a))
  | SDifferenceUpdate its | SDifference its =>
      r = RUnit /\ forall x, In x l' <-> In x l /\ ~ in_any eqb x its
  | SIntersectionUpdate its | SIntersection its =>
      r = RUnit /\ (forall x, mem x l' <-> mem x l /\ forall a, In a its -> mem x (items a)) /\
      (forall x, In x l' -> In x l \/ exists a, In a its /\ In x (items a))
  | SSymmetricDifferenceUpdate it | SSymmetricDifference it =>
      r = RUnit /\
      (forall x, mem x l' <-> (mem x l /\ ~ mem x (items it)) \/ (~ mem x l /\ mem x (items it))) /\
      (forall x, In x l' -> In x l \/ In x (items it))
  | SCopy | SReduce => r = RUnit /\ Permutation l' l
  | SCompare op other => l' = l /\ (distinct eqb other -> answers r (set_cmp_means eqb op l other))
  | SIsDisjoint a => l' = l /\ answers r (disjoint eqb l (items a))
  | SIsSubset a => l' = l /\ answers r (subset eqb l (items a))
  | SIsSuperset a => l' = l /\ answers r (subset eqb (items a) l)
  | SFwd f => l' = l /\ r = fst (fref f l)
  end.

(** A history as seen from outside: [l] before, the results, and the values iterated at the end,
    every intermediate set being sorted and without equal values. *)
Inductive set_history {V K} (ltb eqb : V -> V -> bool) (fref : fwd V K -> list V -> out V * list V) :
    list (sop V K) -> list V -> list (out V) -> list V -> Prop :=
| sh_nil : forall l, set_history ltb eqb fref [] l [] l
| sh_cons : forall o ops l r l1 rs l2,
    set_effect eqb fref o l r l1 -> sorted ltb l1 -> distinct eqb l1 ->
    set_history ltb eqb fref ops l1 rs l2 ->
    set_history ltb eqb fref (o :: ops) l (r :: rs) l2.

(** Hash sets may be iterated in any order, but each member is visited once. *)
Definition any_order {V} (ord : nat -> list V -> list V) : Prop := forall n l, Permutation (ord n l) l.

Section Reach.
  Context {S V K : Type}.
  Variable T : listcls S V K.
  Variable eqb : V -> V -> bool.
  Variable ord : nat -> list V -> list V.

  (** [list(ss)] is [l], and reading it changes nothing. *)
  Definition ss_shows (s : sset S V) (l : list V) : Prop := ss_iter T s = (Ok l, s).
  (** [s] is obtained from [SortedSet(iterable)] by a history. *)
  Definition ss_reach (s : sset S V) : Prop :=
    exists tick it s0 ops, ss_new T eqb ord tick it = Ok s0 /\ Forall sop_ok ops /\
      s = snd (ss_run T eqb ord ops s0).
End Reach.

(** Load factors of the list while a history runs: every [_reset] sets at least [n]. *)
Definition resets_from {V K} (n : nat) (o : sop V K) : Prop :=
  match o with SFwd (FReset ld) => n <= ld | _ => True end.

(** The exceptions each operation documents; the key variants of the exposed list methods do not
    exist without a key function. *)
Definition sdocumented {V K} (keyless : Prop) (o : sop V K) (e : exn) : Prop :=
  match o with
  | SRemove _ => e = KeyError
  | SPop _ | SGet _ | SDel _ => e = IndexError
  | SSlice sl | SDelSlice sl => e = ValueError /\ s_step sl = Some 0%Z
  | SFwd (FIndex _ _ _) => e = ValueError
  | SFwd (FBisectKeyLeft _) | SFwd (FBisectKeyRight _) | SFwd (FIRangeKey _ _ _ _ _) =>
      keyless /\ e = AttributeError
  | _ => False
  end.

(** The two ways [update] and [difference_update] may work: all at once, or value by value. *)
Definition update_at_once {S V K} (T : listcls S V K) eqb ord (values : list V) : M (sset S V) unit :=
  m <- members ;; put_set (set_union eqb m values) ;;; relist T ord.
Definition update_each {S V K} (T : listcls S V K) eqb (values : list V) : M (sset S V) unit :=
  forM (ss_add T eqb) values.
Definition remove_at_once {S V K} (T : listcls S V K) eqb ord (values : list V) : M (sset S V) unit :=
  m <- members ;; put_set (set_diff eqb m values) ;;; relist T ord.
Definition remove_each {S V K} (T : listcls S V K) eqb (values : list V) : M (sset S V) unit :=
  forM (ss_discard T eqb) values.

(** * Specification vocabulary: which of several equal objects a SortedSet or SortedDict holds

    Values that are equal ([eqb]) need not be the same object: [1], [True] and [1.0].  Equality of values in the logic is
    identity of objects here. *)
From Verif Require Import PyBase Model Spec History ListClass ClassSpec ModelSet SetSpec ModelDict DictSpec.
Local Set Implicit Arguments.

Section Ident.
  Context {V : Type}.
  Variable eqb : V -> V -> bool.

  (** [x] is listed in [l], and is the first value there that equals [x]. *)
  Definition first_of (x : V) (l : list V) : Prop := exists a b, l = a ++ x :: b /\ ~ member eqb x a.
  (** The values of all arguments, one after the other. *)
  Definition listed (its : list (arg (V:=V))) : list V := concat (map (@items V) its).

  (** The objects an operation may put into the set. *)
  Definition set_brings {K} (o : sop V K) (x : V) : Prop :=
    match o with
    | SAdd v => x = v
    | SUpdate its | SUnion its => first_of x (listed its)
    | SSymmetricDifferenceUpdate it | SSymmetricDifference it => first_of x (items it)
    | _ => False
    end.
  Definition intersects {K} (o : sop V K) : bool :=
    match o with SIntersectionUpdate _ | SIntersection _ => true | _ => false end.

  (** The objects an intersection with one argument consists of: those of the argument, unless that is a [set] with more
      members than the SortedSet listing [l]. *)
  Definition intersection_of (l : list V) (a : arg (V:=V)) (x : V) : Prop :=
    match a with
    | AIter m => In x m
    | ASet m => if length l <? length m then In x l else In x m
    end.
End Ident.

(** The keys an operation may put into the dict. *)
Definition dict_brings {A B K} (eqb : A -> A -> bool) (o : dop A B K) (k : A) : Prop :=
  match o with
  | DSet k' _ | DSetDefault k' _ => k = k'
  | DUpdate a | DIOr a => first_of eqb k (map fst (pairs_of a))
  | DOr other => first_of eqb k (map fst other)
  | _ => False
  end.
(** [other | sd], the result of which starts from [other]. *)
Definition starts_from_other {A B K} (o : dop A B K) : bool := match o with DROr _ => true | _ => false end.

(** An operation that changes the set in place. *)
Definition in_place_op {V K} (o : sop V K) : bool :=
  match o with
  | SAdd _ | SDiscard _ | SRemove _ | SPop _ | SClear | SDel _ | SDelSlice _ | SUpdate _ | SDifferenceUpdate _
  | SIntersectionUpdate _ | SSymmetricDifferenceUpdate _ => true
  | _ => false
  end.

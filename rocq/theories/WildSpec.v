(** * SortedSet and SortedDict under arbitrary comparisons: vocabulary

    Hashing and [==] are assumed coherent ([eqb]); nothing at all is assumed of [<] (or of the key
    function and [<] on keys), which may raise, be inconsistent, and change between operations. *)
From Coq Require Import Permutation.
From Verif Require Import PyBase Model Spec History Reach ListClass ClassSpec ModelSet SetSpec ModelDict DictSpec FaultSpec.
Local Set Implicit Arguments.

(** The list class for some comparisons, without and with a key function. *)
Definition plain_class {V K} (eqb : V -> V -> bool) (dflt : nat) (T : listcls (core V V) V K) : Prop :=
  exists lt, T = plain lt (total2 eqb) dflt.
Definition keyed_class {V K} (eqb : V -> V -> bool) (kf : V -> res K) (dflt : nat) (T : listcls (skl V K) V K) : Prop :=
  exists klt keq, T = keyed (total2 eqb) klt keq kf dflt.

(** [e] is raised by the key function or by a comparison of keys. *)
Definition k_raises {V K} (klt keq : K -> K -> res bool) (kf : V -> res K) (e : exn) : Prop :=
  (exists v, kf v = Err e) \/ (exists x y, klt x y = Err e) \/ exists x y, keq x y = Err e.

(** ** Sets *)
Section Sets.
  Context {S V K : Type}.
  (** The admissible list classes. *)
  Variable fam : listcls S V K -> Prop.
  Variable eqb : V -> V -> bool.
  Variable ord : nat -> list V -> list V.

  (** The operation was cut short by an exception out of a comparison (or the key function), at a
      point where the set had already been touched. *)
  Definition scut (o : sop V K) (s : sset S V) (r : out V) : Prop :=
    match o, r with
    | (SAdd _ | SDiscard _ | SUpdate _ | SDifferenceUpdate _ | SIntersectionUpdate _
      | SSymmetricDifferenceUpdate _ | SFwd (FReset _)), RExn _ => True
    | SRemove v, RExn _ => member eqb v (s_set s)
    | SDelSlice sl, RExn _ => s_step sl <> Some 0%Z
    | _, _ => False
    end.
  (** Operations that look a value up in the list to take it out; with an inconsistent order the
      search may miss it, and [ValueError] is raised although no comparison raised. *)
  Definition may_miss (o : sop V K) : Prop :=
    match o with SDiscard _ | SRemove _ | SDifferenceUpdate _ => True | _ => False end.
  (** [s] is the result of a history in which every operation was made with comparisons of its
      own and none was cut short. *)
  Inductive wset_reach : sset S V -> Prop :=
  | wset_new : forall T tick it s, fam T -> ss_new T eqb ord tick it = Ok s -> wset_reach s
  | wset_then : forall s T o r s', wset_reach s -> fam T -> sop_ok o -> ss_step T eqb ord o s = (r, s') ->
      ~ scut o s r -> wset_reach s'.

  (** The effect of an operation that went well: as in [set_effect], except for the positions,
      which depend on the comparisons. *)
  Definition weak_effect (o : sop V K) (l : list V) (r : out V) (l' : list V) : Prop :=
    match o with
    | SAdd v =>
        r = RUnit /\ ((member eqb v l /\ l' = l) \/ (~ member eqb v l /\ Permutation l' (v :: l)))
    | SDelSlice sl =>
        (s_step sl = Some 0%Z /\ r = RExn ValueError /\ l' = l) \/
        (s_step sl <> Some 0%Z /\ r = RUnit /\ exists l1, slice_deleted sl l l1 /\ Permutation l' l1)
    | SFwd (FReset _) => r = RUnit /\ Permutation l' l
    | SFwd _ => l' = l
    | _ => set_effect eqb (fun _ l => (RUnit, l)) o l r l'
    end.

  (** What an operation leaves behind when it is interrupted: before, the list held [l] and the
      hash set [m]; now they hold [l'] and [m']. *)
  Definition set_failed (o : sop V K) (l m l' m' : list V) : Prop :=
    match o with
    | SAdd v => ~ member eqb v l /\ l' = l /\ m' = m ++ [v]
    | SDiscard v | SRemove v =>
        member eqb v l /\ l' = l /\ forall x, In x m' <-> In x m /\ eqb x v = false
    | SUpdate its =>
        (* all at once: the members are those wanted, the list is empty *)
        (l' = [] /\ weak_effect o l RUnit m') \/
        (* value by value: the last value reached the hash set only *)
        (exists v, in_any eqb v its /\ ~ member eqb v l' /\ Permutation m' (v :: l') /\
           (forall x, In x l -> In x l') /\
           forall x, In x l' -> In x l \/ exists a, In a its /\ In x (items a))
    | SDifferenceUpdate its =>
        (l' = [] /\ weak_effect o l RUnit m') \/
        (* value by value: the last value left the hash set only *)
        (exists x, in_any eqb x its /\ Permutation l' (x :: m') /\
           (forall y, In y l' -> In y l) /\ forall y, In y l -> In y l' \/ in_any eqb y its)
    | SIntersectionUpdate _ | SSymmetricDifferenceUpdate _ => l' = [] /\ weak_effect o l RUnit m'
    | SDelSlice sl => s_step sl <> Some 0%Z /\ l' = [] /\ exists l1, slice_deleted sl l l1 /\ Permutation m' l1
    | SFwd (FReset _) => l' = [] /\ m' = m
    | _ => l' = l /\ m' = m
    end.
End Sets.

(** ** Dicts *)
Section Dicts.
  Context {S A B K : Type}.
  Variable fam : listcls S A K -> Prop.
  Variable eqb : A -> A -> bool.
  Variable veqb : B -> B -> bool.

  (** As [scut], [may_miss] and [wset_reach]. *)
  Definition dcut (o : dop A B K) (s : sdict S A B) (r : dout A B) : Prop :=
    match o, r with
    | DDel k, OExn _ => lookup eqb k (d_items s) <> None
    | (DSetDefault _ _ | DUpdate _ | DIOr _), OExn _ => True
    | DViewDelSlice sl, OExn _ => s_step sl <> Some 0%Z
    | DFwd (FReset _), OFwd (RExn _) => True
    | _, _ => False
    end.
  Definition dmay_miss (o : dop A B K) : Prop := match o with DDel _ | DPop _ _ => True | _ => False end.
  Inductive wdict_reach : sdict S A B -> Prop :=
  | wdict_new : forall T a s, fam T -> sd_new T eqb a = Ok s -> wdict_reach s
  | wdict_then : forall s T o r s', wdict_reach s -> fam T -> dop_ok eqb o -> sd_step T eqb veqb o s = (r, s') ->
      ~ dcut o s r -> wdict_reach s'.

  (** The effect of an operation that went well on a dict with items [d] in insertion order and
      [l] in the order of its list: as for a plain mapping whose items are listed in the order [l]. *)
  Definition ref_step_on (o : dop A B K) (d l : list (A * B)) : dout A B * list (A * B) :=
    match o with
    | DIter => (OKeys (map fst l), d)
    | DReversed | DKeysReversed => (OKeys (rev (map fst l)), d)
    | DPopItem i =>
        match d with
        | [] => (OExn KeyError, d)
        | _ => match getz l i with Ok p => (OItem p, erase eqb (fst p) d) | Err e => (OExn e, d) end
        end
    | DPeekItem i | DItemAt i => (reply OItem (getz l i), d)
    | DOr other => (ONone, merge eqb l other)
    | DROr other => (ONone, merge eqb (merge eqb [] other) l)
    | DCopy => (ONone, l)
    | DReduce insertion => (ONone, if insertion then d else l)
    | DItems => (OItems l, d)
    | DValues => (OVals (map snd l), d)
    | DItemsReversed => (OItems (rev l), d)
    | DValuesReversed => (OVals (rev (map snd l)), d)
    | DKeyAt i => (reply OKey (getz (map fst l) i), d)
    | DValueAt i => (reply OVal (getz (map snd l) i), d)
    | DKeySlice sl => (reply OKeys (sp_slice sl (map fst l)), d)
    | DItemSlice sl => (reply OItems (sp_slice sl l), d)
    | DValueSlice sl => (reply OVals (sp_slice sl (map snd l)), d)
    | DViewDel i =>
        match getz l i with Ok p => (ONone, erase eqb (fst p) d) | Err e => (OExn e, d) end
    | DViewDelSlice sl =>
        match sp_slice sl l with
        | Ok ps => (ONone, filter (fun p => negb (existsb (same eqb (fst p)) ps)) d)
        | Err e => (OExn e, d)
        end
    | DFwd _ => (ONone, d)
    | _ => ref_step (fun _ _ => false) eqb veqb (fun _ l => (RUnit, l)) o d
    end.
  (** [l'] is the order of the list afterwards: what is taken out leaves the rest in place. *)
  Definition weak_order (o : dop A B K) (l l' : list (A * B)) : Prop :=
    match o with
    | DDel k | DPop k _ => l' = erase eqb k l
    | DPopItem i | DViewDel i => match getz l i with Ok p => l' = erase eqb (fst p) l | Err _ => l' = l end
    | DSet k v => lookup eqb k l <> None -> l' = store eqb k v l
    | DSetDefault k _ => lookup eqb k l <> None -> l' = l
    | DClear | DUpdate _ | DIOr _ | DOr _ | DROr _ | DCopy | DReduce _ | DViewDelSlice _ | DFwd (FReset _) => True
    | _ => l' = l
    end.
  Definition weak_deffect (o : dop A B K) (d l : list (A * B)) (r : dout A B) (d' l' : list (A * B)) : Prop :=
    weak_order o l l' /\
    match o with
    | DFwd (FReset _) => r = OFwd RUnit /\ d' = d
    | DFwd _ => (exists x, r = OFwd x) /\ d' = d
    | _ => (r, d') = ref_step_on o d l
    end.

  (** How an exception shows in the result. *)
  Definition cut_result (o : dop A B K) (e : exn) : dout A B :=
    match o with DFwd _ => OFwd (RExn e) | _ => OExn e end.
  (** What an interrupted operation leaves behind: [d], [ks] are the items and the listed keys
      before, [d'], [ks'] those after. *)
  Definition dict_failed (o : dop A B K) (d : list (A * B)) (ks : list A) (d' : list (A * B)) (ks' : list A) : Prop :=
    match o with
    | DDel k => lookup eqb k d <> None /\ d' = erase eqb k d /\ ks' = ks
    | DSetDefault k v => lookup eqb k d = None /\ d' = d ++ [(k, v)] /\ ks' = ks
    | DUpdate a | DIOr a =>
        (d' = merge eqb d (pairs_of a) /\ ks' = []) \/
        (exists ps qs, ps ++ qs = match a with ADict l => l | APairs l => merge eqb [] l end /\
           d' = merge eqb d ps /\ Permutation ks' (map fst d'))
    | DViewDelSlice sl =>
        exists l, d' = d /\ ks' = [] /\ sp_del_slice sl ks = Ok l
    | DFwd (FReset _) => d' = d /\ ks' = []
    | _ => d' = d /\ ks' = ks
    end.
End Dicts.

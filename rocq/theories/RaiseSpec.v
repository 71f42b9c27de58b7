(** * What is asked of hash tables whose lookups may raise *)
From Coq Require Import Permutation.
From Verif Require Import PyBase Model History ListClass ModelSet ModelDict ModelHash.
Local Set Implicit Arguments.

(** Values that are equal have the same hash; it does not raise for them. *)
Definition coherent_hash {V} (hash : V -> res Z) (heq : V -> V -> res bool) : Prop :=
  forall x y, heq x y = Ok true -> exists h, hash x = Ok h /\ hash y = Ok h.
(** A lookup can meet every entry, in whatever order. *)
Definition layout {V} (probe : list V -> Z -> list V) : Prop := forall m h, Permutation (probe m h) m.
(** An object is found by identity; [==] does not depend on the side. *)
Definition itself {V} (heq : V -> V -> res bool) : Prop := forall x, heq x x = Ok true.
Definition two_sided {V} (heq : V -> V -> res bool) : Prop := forall x y b, heq x y = Ok b -> heq y x = Ok b.

(** The operations as in ModelSet.v and ModelDict.v, where hash and [==] are total. *)
Section Total.
  Context {S V B K : Type}.
  Variable T : listcls S V K.
  Variable eqb : V -> V -> bool.
  Variable ord : nat -> list V -> list V.
  Definition set_total (o : hsop V) : M (sset S V) (hval V B) :=
    match o with
    | HAdd v => gives (fun _ => HvNone) (ss_add T eqb v)
    | HDiscard v => gives (fun _ => HvNone) (ss_discard T eqb v)
    | HRemove v => gives (fun _ => HvNone) (ss_remove T eqb v)
    | HPop i => gives HvKey (ss_pop T eqb i)
    | HDel i => gives (fun _ => HvNone) (ss_del T eqb i)
    | HClear => gives (fun _ => HvNone) (ss_clear T)
    | HContains v => gives HvBool (ss_contains eqb v)
    | HCount v => gives HvNat (ss_count eqb v)
    | HUpdate its => gives (fun _ => HvNone) (ss_update T eqb ord [AIter its])
    | HDifferenceUpdate its => gives (fun _ => HvNone) (ss_difference_update T eqb ord [AIter its])
    | HSymmetricDifferenceUpdate its => gives (fun _ => HvNone) (ss_symmetric_difference_update T eqb ord (AIter its))
    | HIntersectionUpdate its => gives (fun _ => HvNone) (ss_intersection_update T eqb ord [AIter its])
    end.
  Definition dict_total (o : hdop V B) : M (sdict S V B) (hval V B) :=
    match o with
    | GSet k v => gives (fun _ => HvNone) (sd_setitem T eqb k v)
    | GDel k => gives (fun _ => HvNone) (sd_delitem T eqb k)
    | GPop k v => gives HvVal (sd_pop T eqb k v)
    | GPopItem i => gives HvPair (sd_popitem T eqb i)
    | GPeekItem i => gives HvPair (sd_peekitem T eqb i)
    | GSetDefault k v => gives HvVal (sd_setdefault T eqb k v)
    | GGet k => gives HvVal (sd_getitem eqb k)
    | GContains k => gives HvBool (sd_contains eqb k)
    | GClear => gives (fun _ => HvNone) (sd_clear T)
    | GUpdate a => gives (fun _ => HvNone) (sd_update T eqb a)
    end.
End Total.

(** The value or key that an operation on one of them is called with. *)
Definition set_arg {V} (o : hsop V) : option V :=
  match o with HAdd v | HDiscard v | HRemove v | HContains v | HCount v => Some v | _ => None end.
Definition dict_arg {V B} (o : hdop V B) : option V :=
  match o with GSet k _ | GDel k | GPop k _ | GSetDefault k _ | GGet k | GContains k => Some k | _ => None end.

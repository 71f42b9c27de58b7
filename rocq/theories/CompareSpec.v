(** * What comparison operators between objects of different classes mean *)
From Verif Require Import PyBase Model Spec History Reach ListClass ClassSpec ModelSet SetSpec ModelDict DictSpec ModelMixed ModelCompare.
Local Set Implicit Arguments.

Inductive kind : Set := KPyList | KPyTuple | KPySet | KFrozen | KDictKeys | KSorted | KSortedKey | KSortedSet | KKeysView | KValuesView | KOther.
Definition set_like (k : kind) : bool := match k with KPySet | KFrozen | KDictKeys | KSortedSet | KKeysView => true | _ => false end.
Definition seq_like (k : kind) : bool :=
  match k with KPyList | KPyTuple | KSorted | KSortedKey | KSortedSet | KKeysView | KValuesView => true | _ => false end.
Definition sorted_list (k : kind) : bool := match k with KSorted | KSortedKey => true | _ => false end.

(** How two operands are compared: as sets, as sequences, or not at all. *)
Inductive manner : Set := AsSets | AsSequences | NotAtAll.
Definition manner_of (j k : kind) : manner :=
  if set_like j && set_like k then AsSets
  else if (sorted_list j || sorted_list k) && seq_like j && seq_like k then AsSequences
  else match j, k with KPyList, KPyList | KPyTuple, KPyTuple => AsSequences | _, _ => NotAtAll end.

Section Denotes.
  Context {S V K : Type}.
  Variable T : listcls S V K.
  (** The order of the keys of a SortedKeyList; [==] of keys; [<] and [==] of values. *)
  Variable key : V -> K.
  Variables kltb keqb : K -> K -> bool.
  Variables vltb eqb : V -> V -> bool.
  Variable dflt : nat.
  Variable ord : nat -> list V -> list V.

  (** [x] is an object of kind [k] with the values [l], reached by some history. *)
  Definition denotes (x : operand (S:=S) (V:=V) (K:=K)) (k : kind) (l : list V) : Prop :=
    match x with
    | OPyList m => k = KPyList /\ m = l
    | OPyTuple m => k = KPyTuple /\ m = l
    | OPySet m => k = KPySet /\ m = l /\ distinct eqb m
    | OFrozen m => k = KFrozen /\ m = l /\ distinct eqb m
    | ODictKeys m => k = KDictKeys /\ m = l /\ distinct eqb m
    | OSorted c => k = KSorted /\ sl_reach vltb eqb dflt c /\ shows c l
    | OSortedKey s => k = KSortedKey /\ skl_reach key kltb keqb vltb eqb dflt s /\ kshows s l
    | OSet s => k = KSortedSet /\ ss_reach T eqb ord s /\ ss_shows T s l
    | OKeys d => k = KKeysView /\ sd_reach T eqb eqb d /\ exists m, sd_shows T eqb d m /\ l = map fst m
    | OValues d => k = KValuesView /\ sd_reach T eqb eqb d /\ exists m, sd_shows T eqb d m /\ l = map snd m
    | OOther => k = KOther
    end.
End Denotes.

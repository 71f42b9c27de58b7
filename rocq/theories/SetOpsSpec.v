(** * What the set operators between objects of different classes mean *)
From Verif Require Import PyBase Model Spec History Reach ListClass ClassSpec ModelSet SetSpec ModelDict DictSpec ModelCompare CompareSpec ModelSetOps.
Local Set Implicit Arguments.

(** Whether a value belongs to [x op y], given whether it belongs to [x] and to [y]. *)
Definition op_means (op : setop) (left right : Prop) : Prop :=
  match op with
  | OpAnd => left /\ right
  | OpOr => left \/ right
  | OpSub => left /\ ~ right
  | OpXor => (left /\ ~ right) \/ (right /\ ~ left)
  end.

(** What [x op y] is: a SortedSet with the key function of [x], one with the key function of [y], one without, a set, a frozenset. *)
Inductive outcome : Set := LikeLeft | LikeRight | NoKey | PySet | PyFrozen.
Definition result_kind (op : setop) (j k : kind) : option outcome :=
  match j, k with
  | KOther, _ | _, KOther => None
  | KSortedSet, _ => Some LikeLeft
  | KKeysView, _ => Some NoKey
  | KDictKeys, _ => Some PySet
  | KPySet, (KPySet | KFrozen) => Some PySet
  | KFrozen, (KPySet | KFrozen) => Some PyFrozen
  | _, KSortedSet => Some (match op with OpSub => NoKey | _ => LikeRight end)
  | _, KKeysView => Some NoKey
  | _, KDictKeys => Some PySet
  | _, _ => None
  end.

Section Outcome.
  Context {S S' V K K' SN KN : Type}.
  Variable T : listcls S V K.
  Variable T' : listcls S' V K'.
  Variable N : listcls SN V KN.
  Variables ltb ltb' nltb eqb : V -> V -> bool.
  Variable ord : nat -> list V -> list V.

  (** A usable SortedSet in the order [lt] whose members are the values that satisfy [P]. *)
  Definition is_sset {S0 K0} (C : listcls S0 V K0) (lt : V -> V -> bool) (s : sset S0 V) (P : V -> Prop) : Prop :=
    ss_reach C eqb ord s /\ exists l, ss_shows C s l /\ sorted lt l /\ distinct eqb l /\ forall v, member eqb v l <-> P v.
  Definition is_members (l : list V) (P : V -> Prop) : Prop := distinct eqb l /\ forall v, member eqb v l <-> P v.
  Definition is_outcome (c : outcome) (r : result (S:=S) (S':=S') (V:=V) (SN:=SN)) (P : V -> Prop) : Prop :=
    match c, r with
    | LikeLeft, RLeft s => is_sset T ltb s P
    | LikeRight, RRight s => is_sset T' ltb' s P
    | NoKey, RPlain s => is_sset N nltb s P
    | PySet, RPySet l | PyFrozen, RFrozen l => is_members l P
    | _, _ => False
    end.
End Outcome.

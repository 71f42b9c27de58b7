(** * What [|] and [|=] between a SortedDict and another mapping mean *)
From Verif Require Import PyBase Model Spec History Reach ListClass ClassSpec ModelSet SetSpec ModelDict DictSpec ModelDictOps.
Local Set Implicit Arguments.

(** What an expression gives: a SortedDict with the key function of [x], one with that of [y], an object of another class. *)
Inductive dclass : Set := LikeX | LikeY | Other (k : mkind).
Definition or_class (j k : mkind) : option dclass :=
  match j, k with
  | YSorted, (YPairs | YNone) => None
  | YSorted, _ => Some LikeX
  | (YDict | YProxy | YMapping), YSorted => Some LikeY
  | (YOrdered | YDefault | YUser), YSorted => Some (Other j)
  | _, _ => None
  end.
Definition ior_class (j k : mkind) : option dclass :=
  match j, k with
  | YSorted, YNone => None
  | YSorted, _ => Some LikeX
  | (YDict | YOrdered | YDefault | YUser), YSorted => Some (Other j)
  | YMapping, YSorted => Some LikeY
  | _, _ => None
  end.

Section Outcome.
  Context {S S' A B K K' : Type}.
  Variable T : listcls S A K.
  Variable T' : listcls S' A K'.
  Variables ltb ltb' eqb : A -> A -> bool.
  Variable veqb : B -> B -> bool.

  (** [x] is a usable object of class [k] with the items [l]; only what is not a mapping can give two pairs with equal keys. *)
  Definition is_mapping_of {S0 K0} (C : listcls S0 A K0) (x : mapping S0 A B) (k : mkind) (l : list (A * B)) : Prop :=
    match x with
    | PSorted d => k = YSorted /\ sd_reach C eqb veqb d /\ sd_shows C eqb d l
    | PPy j m => k = j /\ l = m /\ match j with YSorted => False | YNone => m = [] | YPairs => True | _ => distinct_keys eqb m end
    end.
  (** What is stored under [k] after the pairs [m] are written over the items [l]. *)
  Definition overwritten (l m : list (A * B)) (k : A) (w : B) : Prop :=
    last_says eqb m k w \/ ((forall p, In p m -> eqb (fst p) k = false) /\ maps eqb l k w).
  (** A usable SortedDict in the order [lt], with key order and distinct keys. *)
  Definition is_sdict {S0 K0} (C : listcls S0 A K0) (lt : A -> A -> bool) (d : sdict S0 A B) (P : A -> B -> Prop) : Prop :=
    sd_reach C eqb veqb d /\ exists l, sd_shows C eqb d l /\ sorted lt (map fst l) /\ distinct_keys eqb l /\ forall k w, maps eqb l k w <-> P k w.
  Definition is_dclass (c : dclass) (r : dmade (S:=S) (S':=S') (A:=A) (B:=B)) (P : A -> B -> Prop) : Prop :=
    match c, r with
    | LikeX, DLeft d => is_sdict T ltb d P
    | LikeY, DRight d => is_sdict T' ltb' d P
    | Other k, DPy j l => j = k /\ distinct_keys eqb l /\ forall a w, maps eqb l a w <-> P a w
    | _, _ => False
    end.
End Outcome.

Definition class_of_made {S S' A B} (r : dmade (S:=S) (S':=S') (A:=A) (B:=B)) : dclass :=
  match r with DLeft _ => LikeX | DRight _ => LikeY | DPy k _ => Other k end.

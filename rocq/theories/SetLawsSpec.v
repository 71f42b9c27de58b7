(** * Laws between the operations of SortedSet: expressions with [|], [&], [-] and [^] *)
From Verif Require Import PyBase Model Spec History Reach ListClass ClassSpec ModelSet SetSpec.
Local Set Implicit Arguments.

Inductive setop : Type := OpOr | OpAnd | OpSub | OpXor.
(** [EBin op true _ e f]: the operation in place, on a copy of [e]; the other flag chooses what [f] is handed over as, a set or another
    iterable. *)
Inductive expr : Type := EVar (i : nat) | EBin (op : setop) (in_place as_set : bool) (e f : expr).
Definition truth_op (op : setop) (p q : bool) : bool :=
  match op with OpOr => p || q | OpAnd => p && q | OpSub => p && negb q | OpXor => xorb p q end.
(** Whether a value is in the set, given which variables it is in. *)
Fixpoint truth (rho : nat -> bool) (e : expr) : bool :=
  match e with EVar i => rho i | EBin op _ _ e f => truth_op op (truth rho e) (truth rho f) end.

Section Eval.
  Context {S V K : Type}.
  Variable T : listcls S V K.
  Variable eqb : V -> V -> bool.
  Variable ord : nat -> list V -> list V.
  Notation step := (ss_step T eqb ord).
  Definition handed (as_set : bool) (s : sset S V) : arg (V:=V) :=
    match fst (step SIter s) with RList l => if as_set then ASet l else AIter l | _ => AIter [] end.
  Definition the_op (op : setop) (in_place : bool) (a : arg (V:=V)) : sop V K :=
    match op, in_place with
    | OpOr, false => SUnion [a]
    | OpOr, true => SUpdate [a]
    | OpAnd, false => SIntersection [a]
    | OpAnd, true => SIntersectionUpdate [a]
    | OpSub, false => SDifference [a]
    | OpSub, true => SDifferenceUpdate [a]
    | OpXor, false => SSymmetricDifference a
    | OpXor, true => SSymmetricDifferenceUpdate a
    end.
  (** After [union] and the other operations that are not in place, and after [copy], the state is the new set (ModelSet.v). *)
  Fixpoint value (env : nat -> sset S V) (e : expr) : sset S V :=
    match e with
    | EVar i => env i
    | EBin op ip as_set e f =>
        let s := value env e in snd (step (the_op op ip (handed as_set (value env f))) (if ip then snd (step SCopy s) else s))
    end.
  (** [x in s] *)
  Definition has (x : V) (s : sset S V) : bool := match fst (step (SContains x) s) with RBool b => b | _ => false end.
  (** [s op t] *)
  Definition compared (op : cmpop) (s t : sset S V) : out V := fst (step (SCompare op (s_set t)) s).
  Definition size (s : sset S V) : nat := match fst (step SLen s) with RNat n => n | _ => 0 end.
End Eval.

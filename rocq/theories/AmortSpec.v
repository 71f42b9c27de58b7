(** * How often the internal lists are split or merged: vocabulary for C83

    Most changes of a SortedList by one value touch one internal list only.  Now
    and then an internal list is split or merged with a neighbour, which moves
    many values and throws the positional index away. *)
From Verif Require Import PyBase Model History FaultSpec.
Local Set Implicit Arguments.

(** At most one of the internal lists is replaced, or the first one is made. *)
Definition one_row {V} (ls ls' : list (list V)) : Prop :=
  ls' = ls \/ (ls = [] /\ exists r, ls' = [r]) \/
  exists a r r' b, ls = a ++ r :: b /\ ls' = a ++ r' :: b.

(** A cheap step: the container is empty afterwards, or at most one internal list
    is replaced and the positional index, if there was one, is not thrown away. *)
Definition calm {V K} (c c' : core V K) : Prop :=
  lists c' = [] \/ (one_row (lists c) (lists c') /\ (index c <> [] -> index c' <> [])).

(** All steps of the history [ws] from [s] are cheap, but at most [n]. *)
Inductive calm_but {W S R V K} (step : W -> S -> R * S) (view : S -> core V K) : nat -> S -> list W -> Prop :=
| calm_end s : calm_but step view 0 s []
| calm_step n s w ws : calm (view s) (view (snd (step w s))) -> calm_but step view n (snd (step w s)) ws ->
    calm_but step view n s (w :: ws)
| calm_not n s w ws : calm_but step view n (snd (step w s)) ws -> calm_but step view (Datatypes.S n) s (w :: ws).

(** The operations that add or remove at most one value, empty the container, or
    change nothing. *)
Definition single {V} (o : lop V) : Prop :=
  match o with
  | LUpdate _ | LDelSlice _ | LReset _ | LIAdd _ | LIMul _ | LCopy | LPlus _ | LMul _ | LReduce => False
  | _ => True
  end.
Definition ksingle {V K} (o : kop V K) : Prop := match o with KList o => single o | _ => True end.

(** Those among them that may add or remove a value. *)
Definition edit {V} (o : lop V) : nat :=
  match o with LAdd _ | LDiscard _ | LRemove _ | LDel _ | LPop _ => 1 | _ => 0 end.
Definition kedit {V K} (o : kop V K) : nat := match o with KList o => edit o | _ => 0 end.
Definition edits {V} (ws : list (wild V)) : nat := list_sum (map (fun w => edit (w_op w)) ws).
Definition kedits {V K} (ws : list (kwild V K)) : nat := list_sum (map (fun w => kedit (kw_op w)) ws).

(** * Comparisons that use the list they compare for: vocabulary *)
From Coq Require Import Permutation.
From Verif Require Import PyBase Model ModelReentry.
Local Set Implicit Arguments.

Section Spec.
  Context {W V : Type}.

  (** The code deletes nothing. *)
  Fixpoint adds_only {A} (m : code W V A) : Prop :=
    match m with
    | CRet _ | CRaise _ => True
    | CAct _ k => forall w, adds_only (k w)
    | CAdd _ k => forall r, adds_only (k r)
    | CDel _ _ => False
    | CItem _ k => forall r, adds_only (k r)
    | CLen k => forall n, adds_only (k n)
    | CIter k => forall l, adds_only (k l)
    end.
  (** On some path the code raises [e]; calls [sl.add(v)]. *)
  Fixpoint may_throw {A} (m : code W V A) (e : exn) : Prop :=
    match m with
    | CRet _ => False
    | CRaise e' => e' = e
    | CAct _ k => exists w, may_throw (k w) e
    | CAdd _ k | CDel _ k => exists r, may_throw (k r) e
    | CItem _ k => exists r, may_throw (k r) e
    | CLen k => exists n, may_throw (k n) e
    | CIter k => exists l, may_throw (k l) e
    end.
  Fixpoint may_add {A} (m : code W V A) (v : V) : Prop :=
    match m with
    | CRet _ | CRaise _ => False
    | CAct _ k => exists w, may_add (k w) v
    | CAdd x k => x = v \/ exists r, may_add (k r) v
    | CDel _ k => exists r, may_add (k r) v
    | CItem _ k => exists r, may_add (k r) v
    | CLen k => exists n, may_add (k n) v
    | CIter k => exists l, may_add (k l) v
    end.

  (** A list to which values were added, with a comparison that may be another each time, and from which values were read by index. *)
  Inductive added (load : nat) : W * robj V -> Prop :=
  | added_new w : added load (w, r_empty load)
  | added_add lt depth v s r s' : added load s -> (forall x y, adds_only (lt x y)) -> r_add lt depth v s = (r, s') -> added load s'
  | added_item i s r s' : added load s -> on_body (getitem_int i) s = (r, s') -> added load s'.

  (** What is left of the invariants of a SortedList: it holds the values whose [add] returned, [len] counts them, there is a maximum for
      every sublist and no sublist is empty. *)
  Definition holds_added (o : robj V) : Prop :=
    Permutation (concat (lists (body o))) (done o) /\ len (body o) = length (done o) /\
    length (maxes (body o)) = length (lists (body o)) /\ Forall (fun l => l <> []) (lists (body o)).
End Spec.

(** A comparison that only answers, or raises. *)
Definition told {W V A} (r : res A) : code W V A := match r with Ok a => CRet a | Err e => CRaise e end.
(** Every sublist has a number of its own. *)
Definition numbered {V} (o : robj V) : Prop :=
  length (ids o) = length (lists (body o)) /\ NoDup (ids o) /\ Forall (fun j => j < fresh o) (ids o).
(** A comparison of numbers that tells the truth and, the third time, first runs [m]. *)
Definition third (m : code nat nat bool -> code nat nat bool) (x y : nat) : code nat nat bool :=
  CAct S (fun w => if w =? 2 then m (CRet (x <? y)) else CRet (x <? y)).
(** Every path of [m] ends with the answer [b]. *)
Fixpoint always_says {W V A} (m : code W V A) (b : A) : Prop :=
  match m with
  | CRet a => a = b
  | CRaise _ => False
  | CAct _ k => forall w, always_says (k w) b
  | CAdd _ k | CDel _ k => forall r, always_says (k r) b
  | CItem _ k => forall r, always_says (k r) b
  | CLen k => forall n, always_says (k n) b
  | CIter k => forall l, always_says (k l) b
  end.
(** The values [l], added one by one with comparisons that only answer. *)
Definition filled (w load : nat) (l : list nat) : nat * robj nat :=
  fold_left (fun s v => snd (r_add (fun x y => CRet (x <? y)) 1 v s)) l (w, r_empty load).

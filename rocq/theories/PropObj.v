(** * Property theorems: SortedSets share no objects (C84) *)
From Coq Require Import Permutation.
From Verif Require Import PyBase Model Spec History Reach Concrete ListClass ClassSpec ModelSet SetSpec ConcreteSet ModelObj ObjSpec ObjProps ObjSets.

(** C84: a program that holds several SortedSets and several sets, hands them to each other (and to themselves) as arguments, changes
    its own sets, copies SortedSets, calls [__init__] on them again and uses the methods they expose, sees what it would see were every
    SortedSet an independent value ([r_run]); no [_set] or [_list] is used twice, and the exposed methods belong to the current ones.  For
    every [<] and [==], also those that raise or contradict themselves, and every order of iterating sets. *)
Theorem C84_plain : forall (V K : Type) (lt eq : V -> V -> res bool) (dflt : nat) (eqb : V -> V -> bool) (ord : nat -> nat -> list V -> list V) n
    (ops : list (pop V K)) outs w outs' objs mine,
  p_run (plain lt eq dflt) eqb ord n ops p_init = (outs, w) ->
  r_run (plain lt eq dflt) eqb ord n ops ([], []) = (outs', (objs, mine)) ->
  outs = outs' /\ seen w = map (fun p => (Ok (fst p), Ok (snd p))) objs /\ seen_mine w = map (@Ok _) mine /\ unshared w.
Proof. exact c84_plain. Qed.
Print Assumptions C84_plain.

(** Comparing with 99 raises TypeError. *)
Example C84_plain_case :
  let lt a b := if Nat.eqb a 99 || Nat.eqb b 99 then Err TypeError else Ok (Nat.ltb a b) in
  let ops := [PSet (PLit [3; 1; 2; 3]); PNew (Some (PMine 0)); PAdd 0 9; POp 0 (SRemove 2); PLook 0; POp 0 SCopy;
    PMany 1 BUpdate [PObj 0; PMine 0; PObj 1]; POne 0 BSymmetricDifferenceUpdate (PObj 0); POp 0 SIter; POp 1 (SAdd 99);
    POp 1 (SFwd (FBisectLeft 4)); PInit 1 (Some (PObj 0)); PMany 1 BUnion [PObj 1]; PInit 0 (Some (PObj 0)); POp 0 (SAdd 5);
    POne 0 BIsSubset (PObj 1); PCompare 1 Cgt (PObj 0); POp 0 (SFwd (FBisectRight 7)); PCompare 0 Ceq (PMine 0)] in
  let run := p_run (K := nat) (plain lt (total2 Nat.eqb) 2) Nat.eqb (fun _ _ l => rev l) 0 ops p_init in
  fst run =
    [RUnit; RUnit; RUnit; RUnit; RList [9; 2; 1; 3]; RUnit; RUnit; RUnit; RList []; RExn TypeError; RNat 3; RExn TypeError; RUnit;
     RUnit; RUnit; RBool false; RBool false; RNat 1; RBool false] /\
  map fst (seen (snd run)) = [Ok [5]; Ok [1; 3; 9; 2; 99]; Ok [1; 2; 3; 9]] /\ seen_mine (snd run) = [Ok [3; 1; 2; 9]] /\
  p_objs (snd run) = [mksobj 1 3 1 3; mksobj 2 1 2 1; mksobj 3 2 3 2] /\ p_mine (snd run) = [0].
Proof. cbv zeta. vm_compute. repeat match goal with |- _ /\ _ => split end; reflexivity. Qed.

(** C84 for SortedSets with a key function. *)
Theorem C84_keyed : forall (V K : Type) (eq : V -> V -> res bool) (klt keq : K -> K -> res bool) (key : V -> res K) (dflt : nat)
    (eqb : V -> V -> bool) (ord : nat -> nat -> list V -> list V) n (ops : list (pop V K)) outs w outs' objs mine,
  p_run (keyed eq klt keq key dflt) eqb ord n ops p_init = (outs, w) ->
  r_run (keyed eq klt keq key dflt) eqb ord n ops ([], []) = (outs', (objs, mine)) ->
  outs = outs' /\ seen w = map (fun p => (Ok (fst p), Ok (snd p))) objs /\ seen_mine w = map (@Ok _) mine /\ unshared w.
Proof. exact c84_keyed. Qed.
Print Assumptions C84_keyed.

Example C84_keyed_case :
  let run := p_run kT pairb (fun _ => flip) 0
   [PSet (PLit [(3, 0); (1, 0); (3, 1)]); PNew (Some (PMine 0)); PDiscard 0 (3, 1); PMany 0 BDifference [PMine 0];
    POp 0 SIter; PInit 0 None; POp 1 SIter; POp 1 (SAdd (3, 7)); POp 1 SReduce; POp 2 (SPop 0%Z); PMany 0 BUpdate [PObj 1];
    POp 0 SIter; POp 1 SIter; POp 2 SIter; POp 0 (SFwd (FBisectKeyRight 2)); PLook 0] p_init in
  fst run =
    [RUnit; RUnit; RUnit; RUnit; RList [(1, 0); (3, 0); (3, 1)]; RUnit; RList [(3, 1)]; RUnit; RUnit; RVal (3, 1); RUnit;
     RList [(1, 0); (3, 7); (3, 0); (3, 1)]; RList [(3, 1); (3, 7)]; RList [(3, 7)]; RNat 1; RList [(1, 0); (3, 0)]] /\
  p_objs (snd run) = [mksobj 1 2 1 2; mksobj 2 1 2 1; mksobj 3 3 3 3].
Proof. cbv zeta. vm_compute. repeat match goal with |- _ /\ _ => split end; reflexivity. Qed.

(** C84 for a total order: each SortedSet of such a program is at all times the sorted list of the mathematical set that the
    operations called on it, and on nothing else, make of it ([world_effect] in ObjSpec.v). *)
Theorem C84_sets : forall S V K (T : listcls S V K) (ltb eqb : V -> V -> bool) fref dflt (ord : nat -> nat -> list V -> list V) n ops outs w,
  list_class T ltb eqb fref dflt -> (forall k, any_order (ord k)) -> Forall pop_ok ops ->
  p_run T eqb ord n ops p_init = (outs, w) ->
  exists objs mine, world_history ltb eqb fref ops [] [] outs objs mine /\
    Forall2 (shows_as T w) (p_objs w) objs /\ seen_mine w = map (@Ok _) mine.
Proof. exact c84_sets. Qed.
Print Assumptions C84_sets.

Example C84_sets_case : list_class kT (by_key (@fst nat nat) Nat.ltb) pairb (fwd_keyed (@fst nat nat) Nat.ltb pairb) 2 /\
  (forall k : nat, any_order flip) /\ Forall (pop_ok (K := nat))
   [PSet (PLit [(3, 0); (1, 0); (3, 1)]); PNew (Some (PMine 0)); PDiscard 0 (3, 1); PMany 0 BDifference [PMine 0];
    POp 0 SIter; PInit 0 None; POp 1 SIter; POp 1 (SAdd (3, 7)); POp 1 SReduce; POp 2 (SPop 0%Z); PMany 0 BUpdate [PObj 1];
    POp 0 SIter; POp 1 SIter; POp 2 SIter; POp 0 (SFwd (FBisectKeyRight 2)); PLook 0] /\
  let w := snd (p_run kT pairb (fun _ => flip) 0
   [PSet (PLit [(3, 0); (1, 0); (3, 1)]); PNew (Some (PMine 0)); PDiscard 0 (3, 1); PMany 0 BDifference [PMine 0];
    POp 0 SIter; PInit 0 None; POp 1 SIter; POp 1 (SAdd (3, 7)); POp 1 SReduce; POp 2 (SPop 0%Z); PMany 0 BUpdate [PObj 1];
    POp 0 SIter; POp 1 SIter; POp 2 SIter; POp 0 (SFwd (FBisectKeyRight 2)); PLook 0] p_init) in
  map (fun o => let! c := getn (h_lists (p_heap w)) (o_list o) in fst (l_iter kT c)) (p_objs w) =
    [Ok [(1, 0); (3, 7); (3, 0); (3, 1)]; Ok [(3, 1); (3, 7)]; Ok [(3, 7)]] /\ seen_mine w = [Ok [(3, 0); (1, 0)]].
Proof.
  split; [apply kT_class|]. split; [intros; apply flip_order|]. split; [repeat constructor|]. cbv zeta. split; vm_compute; reflexivity.
Qed.

(** * Property theorems: SortedDicts share no objects (C85) *)
From Verif Require Import PyBase Model Spec History Reach Concrete ListClass ClassSpec ModelSet SetSpec ConcreteSet ModelDict DictSpec ObjSpec ModelDObj
  DObjSpec DObjProps DObjDicts.

(** C85: a program that holds several SortedDicts, views of them and several dicts, hands them to each other (and to themselves) as
    arguments, changes its own dicts, copies SortedDicts, calls [__init__] on them again, changes them through the views, and uses the
    methods they expose, sees what it would see were every SortedDict an independent value ([v_run]); no [_list] is used twice, and the
    cached and the exposed methods belong to the current one.  For every [<] and [==], also those that raise or contradict themselves. *)
Theorem C85_plain : forall (A B K : Type) (lt eq : A -> A -> res bool) (dflt : nat) (eqb : A -> A -> bool) (veqb : B -> B -> bool)
    (ops : list (qop A B K)) outs w outs' v,
  q_run (plain lt eq dflt) eqb veqb ops q_init = (outs, w) ->
  v_run (plain lt eq dflt) eqb veqb ops v_init = (outs', v) ->
  outs = outs' /\ dseen w = map (fun s => (d_items s, Ok (d_list s))) (v_dicts v) /\ w_mine w = v_mine v /\ dunshared w.
Proof. exact c85_plain. Qed.
Print Assumptions C85_plain.

(** Comparing with 99 raises TypeError. *)
Example C85_plain_case :
  let lt a b := if Nat.eqb a 99 || Nat.eqb b 99 then Err TypeError else Ok (Nat.ltb a b) in
  let ops := [QDict (QLit [(3, 30); (1, 10); (3, 31)]); QNew (QMine 0); QView 0; QDictSet 0 2 20; QOp 0 (DSet 5 50); QDictLook 0;
    QViewOp 0 DItems; QOp 0 DCopy; QUpdate 1 (QMine 0); QUpdate 1 (QObj 1); QOr 1 (QObj 0); QViewOp 0 (DViewDel 0%Z); QOp 0 DIter;
    QOp 1 DIter; QOp 1 (DSet 99 0); QOp 1 (DFwd (FBisectLeft 4)); QEq 1 (QObj 2); QInit 0 (QLit []); QViewOp 0 DIter; QOp 0 DLen;
    QOp 0 (DDel 3); QInit 0 (QObj 1); QViewOp 0 DItems; QOp 0 (DFwd (FBisectRight 2))] in
  let run := q_run (K := nat) (plain lt (total2 Nat.eqb) 2) Nat.eqb Nat.eqb ops q_init in
  fst run =
    [ONone; ONone; ONone; ONone; ONone; OItems [(3, 31); (1, 10); (2, 20)]; OItems [(1, 10); (3, 31); (5, 50)]; ONone; ONone; ONone;
     ONone; ONone; OKeys [3; 5]; OKeys [1; 2; 3; 5]; OExn TypeError; OFwd (RNat 3); OBool true; ONone; OKeys []; ONat 2; OExn ValueError;
     ONone; OItems [(1, 10); (2, 20); (3, 31); (5, 50)]; OFwd (RNat 2)] /\
  w_dicts (snd run) = [mkdobj [(5, 50); (1, 10); (2, 20); (3, 31)] 4 4 4; mkdobj [(1, 10); (3, 31); (5, 50); (2, 20)] 1 1 1;
    mkdobj [(1, 10); (2, 20); (3, 31); (5, 50)] 2 2 2] /\
  w_mine (snd run) = [[(3, 31); (1, 10); (2, 20)]] /\ w_views (snd run) = [0].
Proof. cbv zeta. vm_compute. repeat match goal with |- _ /\ _ => split end; reflexivity. Qed.

(** C85 for SortedDicts with a key function. *)
Theorem C85_keyed : forall (A B K : Type) (eq : A -> A -> res bool) (klt keq : K -> K -> res bool) (key : A -> res K) (dflt : nat)
    (eqb : A -> A -> bool) (veqb : B -> B -> bool) (ops : list (qop A B K)) outs w outs' v,
  q_run (keyed eq klt keq key dflt) eqb veqb ops q_init = (outs, w) ->
  v_run (keyed eq klt keq key dflt) eqb veqb ops v_init = (outs', v) ->
  outs = outs' /\ dseen w = map (fun s => (d_items s, Ok (d_list s))) (v_dicts v) /\ w_mine w = v_mine v /\ dunshared w.
Proof. exact c85_keyed. Qed.
Print Assumptions C85_keyed.

Example C85_keyed_case :
  let run := q_run kT pairb Nat.eqb
   [QNew (QLit [((3, 0), 1); ((1, 0), 2); ((3, 1), 3)]); QDict (QObj 0); QROr 0 (QMine 0); QView 1; QOp 1 (DPopItem (-1)%Z);
    QOp 0 DReversed; QViewOp 0 DKeysReversed; QOp 0 (DReduce true); QUpdate 2 (QObj 1); QOp 2 (DSet (3, 1) 7); QEq 0 (QObj 2);
    QEq 0 (QMine 0); QDictPop 0 (1, 0); QViewOp 0 (DViewDelSlice (mkslice None None None)); QOp 1 DItems; QOp 0 DItems;
    QOp 2 DItems; QOp 2 (DFwd (FBisectKeyRight 2)); QDictLook 0] q_init in
  fst run =
    [ONone; ONone; ONone; ONone; OItem (3, 1, 3); OKeys [(3, 1); (3, 0); (1, 0)]; OKeys [(3, 0); (1, 0)]; ONone; ONone; ONone;
     OBool false; OBool true; ONone; ONone; OItems []; OItems [(1, 0, 2); (3, 0, 1); (3, 1, 3)];
     OItems [(1, 0, 2); (3, 0, 1); (3, 1, 7)]; OFwd (RNat 1); OItems [(3, 0, 1); (3, 1, 3)]] /\
  w_dicts (snd run) = [mkdobj [(3, 0, 1); (1, 0, 2); (3, 1, 3)] 0 0 0; mkdobj [] 1 1 1; mkdobj [(3, 0, 1); (1, 0, 2); (3, 1, 7)] 2 2 2].
Proof. cbv zeta. vm_compute. repeat match goal with |- _ /\ _ => split end; reflexivity. Qed.

(** C85 for a total order, in programs that call [__init__] once: every SortedDict of such a program is at all times a plain mapping,
    listed in key order, to which the operations called on it and on its views are applied, and no others. *)
Theorem C85_dicts : forall S A B K (T : listcls S A K) ltb eqb (veqb : B -> B -> bool) fref dflt ops outs w outs' m,
  list_class T ltb eqb fref dflt -> Forall (qop_ok eqb) ops ->
  q_run T eqb veqb ops q_init = (outs, w) -> m_run ltb eqb veqb fref ops v_init = (outs', m) ->
  outs = outs' /\ map (@q_items A B) (w_dicts w) = v_dicts m /\ w_mine w = v_mine m /\
  Forall2 (lists_as T eqb w) (w_dicts w) (map (listing ltb) (v_dicts m)).
Proof. exact c85_dicts. Qed.
Print Assumptions C85_dicts.

Example C85_dicts_case : list_class kT (by_key (@fst nat nat) Nat.ltb) pairb (fwd_keyed (@fst nat nat) Nat.ltb pairb) 2 /\
  Forall (qop_ok (B := nat) (K := nat) pairb)
   [QNew (QLit [((3, 0), 1); ((1, 0), 2); ((3, 1), 3)]); QDict (QObj 0); QROr 0 (QMine 0); QView 1; QOp 1 (DPopItem (-1)%Z);
    QOp 0 DReversed; QViewOp 0 DKeysReversed; QOp 0 (DReduce true); QUpdate 2 (QObj 1); QOp 2 (DSet (3, 1) 7); QEq 0 (QObj 2);
    QEq 0 (QMine 0); QDictPop 0 (1, 0); QViewOp 0 (DViewDelSlice (mkslice None None None)); QOp 1 DItems; QOp 0 DItems;
    QOp 2 DItems; QOp 2 (DFwd (FBisectKeyRight 2)); QDictLook 0] /\
  let run := m_run (by_key (@fst nat nat) Nat.ltb) pairb Nat.eqb (fwd_keyed (@fst nat nat) Nat.ltb pairb)
   [QNew (QLit [((3, 0), 1); ((1, 0), 2); ((3, 1), 3)]); QDict (QObj 0); QROr 0 (QMine 0); QView 1; QOp 1 (DPopItem (-1)%Z);
    QOp 0 DReversed; QViewOp 0 DKeysReversed; QOp 0 (DReduce true); QUpdate 2 (QObj 1); QOp 2 (DSet (3, 1) 7); QEq 0 (QObj 2);
    QEq 0 (QMine 0); QDictPop 0 (1, 0); QViewOp 0 (DViewDelSlice (mkslice None None None)); QOp 1 DItems; QOp 0 DItems;
    QOp 2 DItems; QOp 2 (DFwd (FBisectKeyRight 2)); QDictLook 0] v_init in
  fst run =
    [ONone; ONone; ONone; ONone; OItem (3, 1, 3); OKeys [(3, 1); (3, 0); (1, 0)]; OKeys [(3, 0); (1, 0)]; ONone; ONone; ONone;
     OBool false; OBool true; ONone; ONone; OItems []; OItems [(1, 0, 2); (3, 0, 1); (3, 1, 3)];
     OItems [(1, 0, 2); (3, 0, 1); (3, 1, 7)]; OFwd (RNat 1); OItems [(3, 0, 1); (3, 1, 3)]] /\
  v_dicts (snd run) = [[(3, 0, 1); (1, 0, 2); (3, 1, 3)]; []; [(3, 0, 1); (1, 0, 2); (3, 1, 7)]].
Proof.
  split; [apply kT_class|]. split; [repeat constructor|]. cbv zeta. split; vm_compute; reflexivity.
Qed.

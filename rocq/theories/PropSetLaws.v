(** * C125: laws of SortedSet (proofs in SetLawsProps.v) *)
From Verif Require Import PyBase Model Spec History Reach ListClass ClassSpec ModelSet SetSpec SetLawsSpec SetLawsProps Concrete ConcreteCompare.

(** C125: in any expression of [|], [&], [-], [^] and their in-place forms over SortedSets, a value is in the result exactly if the
    Boolean combination of its memberships says so; membership is what [in] answers. *)
Theorem C125_members : forall S V K (T : listcls S V K) ltb eqb fref dflt ord env e,
  list_class T ltb eqb fref dflt -> any_order ord -> (forall i, ss_reach T eqb ord (env i)) ->
  ss_reach T eqb ord (value T eqb ord env e) /\
  forall x, has T eqb ord x (value T eqb ord env e) = truth (fun i => has T eqb ord x (env i)) e.
Proof. exact c125_members. Qed.
Print Assumptions C125_members.

Example C125_members_case : let env i := match i with 0 => nset [1; 2; 3; 4] | 1 => nset [3; 4; 5] | _ => nset [4; 6; 1] end in
  let e := EBin OpXor true false (EBin OpOr false true (EVar 0) (EVar 1)) (EVar 2) in
  list_class nT Nat.ltb Nat.eqb (fwd_plain Nat.ltb Nat.eqb) 2 /\ any_order back /\ (forall i, ss_reach nT Nat.eqb back (env i)) /\
  fst (ss_iter nT (value nT Nat.eqb back env e)) = Ok [2; 3; 5; 6] /\ has nT Nat.eqb back 4 (value nT Nat.eqb back env e) = false /\
  truth (fun i => has nT Nat.eqb back 4 (env i)) e = false.
Proof. split; [apply nT_class|]. split; [apply back_order|]. split; [intros [|[|i]]; apply nset_reach|]. vm_compute. repeat match goal with |- _ /\ _ => split end; reflexivity. Qed.

(** C125: every law of Boolean algebra holds: expressions that are equivalent as formulas compare equal, if one implies the other the sets
    are [<=], if they exclude one another [isdisjoint] says so. *)
Theorem C125_laws : forall S V K (T : listcls S V K) ltb eqb fref dflt ord env e f,
  list_class T ltb eqb fref dflt -> any_order ord -> (forall i, ss_reach T eqb ord (env i)) ->
  ((forall rho, truth rho e = truth rho f) -> compared T eqb ord Ceq (value T eqb ord env e) (value T eqb ord env f) = RBool true) /\
  ((forall rho, truth rho e = true -> truth rho f = true) -> compared T eqb ord Cle (value T eqb ord env e) (value T eqb ord env f) = RBool true) /\
  ((forall rho, truth rho e = true -> truth rho f = true -> False) ->
     forall b, fst (ss_step T eqb ord (SIsDisjoint (handed T eqb ord b (value T eqb ord env f))) (value T eqb ord env e)) = RBool true).
Proof. exact c125_laws. Qed.
Print Assumptions C125_laws.

Example C125_laws_case : let env i := match i with 0 => nset [1; 2; 3; 4] | 1 => nset [3; 4; 5] | _ => nset [4; 6; 1] end in
  let e := EBin OpSub false true (EVar 0) (EBin OpOr true false (EVar 1) (EVar 2)) in
  let f := EBin OpAnd true true (EBin OpSub true false (EVar 0) (EVar 1)) (EBin OpSub false false (EVar 0) (EVar 2)) in
  list_class nT Nat.ltb Nat.eqb (fwd_plain Nat.ltb Nat.eqb) 2 /\ any_order back /\ (forall i, ss_reach nT Nat.eqb back (env i)) /\ (forall rho, truth rho e = truth rho f) /\
  fst (ss_iter nT (value nT Nat.eqb back env e)) = Ok [2] /\ fst (ss_iter nT (value nT Nat.eqb back env f)) = Ok [2].
Proof. split; [apply nT_class|]. split; [apply back_order|]. split; [intros [|[|i]]; apply nset_reach|]. split; [intros rho; cbn; destruct (rho 0), (rho 1), (rho 2); reflexivity|]. vm_compute. repeat match goal with |- _ /\ _ => split end; reflexivity. Qed.

(** C125: the comparisons say of two SortedSets what [in] says of all values, and agree with one another. *)
Theorem C125_compare : forall S V K (T : listcls S V K) ltb eqb fref dflt ord s t,
  list_class T ltb eqb fref dflt -> any_order ord -> ss_reach T eqb ord s -> ss_reach T eqb ord t ->
  let has := has T eqb ord in let cmp op := compared T eqb ord op s t in
  (cmp Ceq = RBool true <-> forall x, has x s = has x t) /\ (cmp Cle = RBool true <-> forall x, has x s = true -> has x t = true) /\
  (cmp Cge = RBool true <-> forall x, has x t = true -> has x s = true) /\
  (cmp Cne = RBool true <-> cmp Ceq = RBool false) /\ (cmp Clt = RBool true <-> cmp Cle = RBool true /\ cmp Cge = RBool false) /\
  (cmp Cgt = RBool true <-> cmp Cge = RBool true /\ cmp Cle = RBool false).
Proof. exact c125_compare. Qed.
Print Assumptions C125_compare.

Example C125_compare_case : let s := nset [1; 2; 3; 4] in let t := nset [2; 4] in
  list_class nT Nat.ltb Nat.eqb (fwd_plain Nat.ltb Nat.eqb) 2 /\ any_order back /\ ss_reach nT Nat.eqb back s /\ ss_reach nT Nat.eqb back t /\
  compared nT Nat.eqb back Cgt s t = RBool true /\ compared nT Nat.eqb back Cle s t = RBool false /\ compared nT Nat.eqb back Cne s t = RBool true.
Proof. split; [apply nT_class|]. split; [apply back_order|]. split; [apply nset_reach|]. split; [apply nset_reach|]. vm_compute. repeat match goal with |- _ /\ _ => split end; reflexivity. Qed.

(** C125: [len] of the union, intersection, difference and symmetric difference of any two such sets. *)
Theorem C125_sizes : forall S V K (T : listcls S V K) ltb eqb fref dflt ord env e f i j,
  list_class T ltb eqb fref dflt -> any_order ord -> (forall i, ss_reach T eqb ord (env i)) ->
  let n x := size T eqb ord (value T eqb ord env x) in let bin op := EBin op i j e f in
  n (bin OpOr) + n (bin OpAnd) = n e + n f /\ n (bin OpSub) + n (bin OpAnd) = n e /\ n (bin OpXor) + 2 * n (bin OpAnd) = n e + n f.
Proof. exact c125_sizes. Qed.
Print Assumptions C125_sizes.

Example C125_sizes_case : let env i := match i with 0 => nset [1; 2; 3; 4] | 1 => nset [3; 4; 5] | _ => nset [4; 6; 1] end in
  list_class nT Nat.ltb Nat.eqb (fwd_plain Nat.ltb Nat.eqb) 2 /\ any_order back /\ (forall i, ss_reach nT Nat.eqb back (env i)) /\
  size nT Nat.eqb back (value nT Nat.eqb back env (EBin OpOr true true (EVar 0) (EVar 1))) = 5 /\
  size nT Nat.eqb back (value nT Nat.eqb back env (EBin OpAnd true true (EVar 0) (EVar 1))) = 2.
Proof. split; [apply nT_class|]. split; [apply back_order|]. split; [intros [|[|i]]; apply nset_reach|]. vm_compute. repeat match goal with |- _ /\ _ => split end; reflexivity. Qed.

(** * Property theorems: [SortedDict.iloc] (C103) *)
From Verif Require Import PyBase Model History ListClass ModelSet ModelDict ModelDObj ConcreteCompare ModelIloc IlocSpec IlocProps.

(** C103: whatever a program does between, [sd.iloc] is one and the same view each time it is read, and another SortedDict (a copy, for
    example) has another one; the DeprecationWarning comes with the first reading and with no other, unless warnings raise: then every
    reading raises until one has succeeded. *)
Theorem C103_one_view : forall S A B K (T : listcls S A K) eqb (veqb : B -> B -> bool) ops outs w p i n b,
  i_run T eqb veqb ops i_init = (outs, w) -> got ops outs p i n b ->
  (forall q j m c, got ops outs q j m c -> n = m <-> i = j) /\
  (b = true <-> forall q m c, got ops outs q i m c -> p <= q) /\
  (forall q, refused ops outs q i -> q < p).
Proof. exact c103_one_view. Qed.
Print Assumptions C103_one_view.

Example C103_one_view_case :
  let ops := [IOther (QNew (QLit [(3, 30); (1, 10); (2, 20)])); ILoc 0 true; ILoc 0 false; IOther (QOp 0 DCopy); ILoc 0 true; ILoc 1 false; IOther (QViewOp 0 (DViewDel 0%Z));
    IOther (QViewOp 1 (DKeyAt 0%Z)); IOther (QViewOp 0 (DKeyAt 0%Z)); IOther (QView 0); IOther (QInit 0 (QLit [(7, 70)])); ILoc 0 false] in
  let outs := fst (i_run (K := nat) nT Nat.eqb Nat.eqb ops i_init) in
  outs = [ISee ONone; IRaised; IView 0 true; ISee ONone; IView 0 false; IView 1 true; ISee ONone; ISee (OKey 1); ISee (OKey 2); ISee ONone;
    ISee ONone; IView 0 false] /\
  got ops outs 2 0 0 true /\ got ops outs 4 0 0 false /\ got ops outs 5 1 1 true /\ got ops outs 11 0 0 false /\ refused ops outs 1 0.
Proof.
  intros ops outs. assert (E : outs = [ISee ONone; IRaised; IView 0 true; ISee ONone; IView 0 false; IView 1 true; ISee ONone; ISee (OKey 1);
    ISee (OKey 2); ISee ONone; ISee ONone; IView 0 false]) by (vm_compute; reflexivity).
  rewrite E. split; [reflexivity|]. unfold got, refused. repeat split; try reflexivity; (exists true; reflexivity) || (exists false; reflexivity).
Qed.

(** C103: this view shows and changes the SortedDict it was taken from as it is now: using it is using the SortedDict, also after changes,
    and after [__init__] was called again. *)
Theorem C103_view : forall S A B K (T : listcls S A K) eqb (veqb : B -> B -> bool) ops outs w p i n b o,
  i_run T eqb veqb ops i_init = (outs, w) -> got ops outs p i n b ->
  i_step T eqb veqb (IOther (QViewOp n o)) w = i_step T eqb veqb (IOther (QOp i o)) w.
Proof. exact c103_view. Qed.
Print Assumptions C103_view.

Example C103_view_case :
  let ops := [IOther (QNew (QLit [(3, 30); (1, 10); (2, 20)])); ILoc 0 true; ILoc 0 false; IOther (QOp 0 DCopy); ILoc 0 true; ILoc 1 false; IOther (QViewOp 0 (DViewDel 0%Z));
    IOther (QViewOp 1 (DKeyAt 0%Z)); IOther (QViewOp 0 (DKeyAt 0%Z)); IOther (QView 0); IOther (QInit 0 (QLit [(7, 70)])); ILoc 0 false] in
  let w := snd (i_run (K := nat) nT Nat.eqb Nat.eqb ops i_init) in
  got ops (fst (i_run nT Nat.eqb Nat.eqb ops i_init)) 2 0 0 true /\
  fst (i_step (K := nat) nT Nat.eqb Nat.eqb (IOther (QViewOp 0 (DKeySlice (mkslice None None None)))) w) = ISee (OKeys [2; 3; 7]) /\
  fst (i_step (K := nat) nT Nat.eqb Nat.eqb (IOther (QOp 0 DIter)) w) = ISee (OKeys [2; 3; 7]).
Proof.
  intros ops w. split; [split; [exists false; reflexivity|vm_compute; reflexivity]|]. vm_compute. split; reflexivity.
Qed.

(** C103: reading [iloc] changes no SortedDict and no dict; if the warning is raised it leaves no view behind either. *)
Theorem C103_reads_nothing : forall S A B K (T : listcls S A K) eqb (veqb : B -> B -> bool) i raising w,
  let w' := i_world (snd (i_step (K := K) T eqb veqb (ILoc i raising) w)) in
  w_lists w' = w_lists (i_world w) /\ w_dicts w' = w_dicts (i_world w) /\ w_mine w' = w_mine (i_world w) /\
  (raising = true -> w_views w' = w_views (i_world w)).
Proof. exact c103_reads_nothing. Qed.
Print Assumptions C103_reads_nothing.

Example C103_reads_nothing_case :
  let w := snd (i_run (K := nat) nT Nat.eqb Nat.eqb [IOther (QNew (QLit [(3, 30); (1, 10)]))] i_init) in
  let look w := fst (i_step (K := nat) nT Nat.eqb Nat.eqb (IOther (QOp 0 DItems)) w) in
  look w = ISee (OItems [(1, 10); (3, 30)]) /\
  look (snd (i_step (K := nat) nT Nat.eqb Nat.eqb (ILoc 0 false) w)) = ISee (OItems [(1, 10); (3, 30)]) /\
  w_views (i_world (snd (i_step (K := nat) nT Nat.eqb Nat.eqb (ILoc 0 false) w))) = [0] /\
  w_views (i_world (snd (i_step (K := nat) nT Nat.eqb Nat.eqb (ILoc 0 true) w))) = [].
Proof. vm_compute. repeat match goal with |- _ /\ _ => split end; reflexivity. Qed.

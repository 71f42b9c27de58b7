(** * C126: laws of SortedDict (proofs in DictLawsProps.v) *)
From Verif Require Import PyBase Model Spec History Reach ListClass ClassSpec ModelSet SetSpec ModelDict DictSpec DictLawsSpec DictLawsProps Concrete ConcreteCompare.

(** C126: the operations of a SortedDict agree with one another: iteration, [values], [items] and [len]; [peekitem] and the views at an index
    and for a slice; all ways to look up a key; assignment, deletion, [pop], [popitem], [setdefault]; [update], [|=], [|] and [copy]. *)
Theorem C126_laws : forall S A B K (T : listcls S A K) ltb eqb (veqb : B -> B -> bool) fref dflt s,
  list_class T ltb eqb fref dflt -> sd_reach T eqb veqb s -> dict_laws (sd_step T eqb veqb) eqb s.
Proof. exact c126_laws. Qed.
Print Assumptions C126_laws.

Example C126_laws_case : let s := ndict [(3, 30); (1, 10); (2, 20)] in let ask := dask (sd_step nT Nat.eqb Nat.eqb) in
  let after := dafter (sd_step nT Nat.eqb Nat.eqb) in
  list_class nT Nat.ltb Nat.eqb (fwd_plain Nat.ltb Nat.eqb) 2 /\ sd_reach nT Nat.eqb Nat.eqb s /\
  ask DItems s = OItems [(1, 10); (2, 20); (3, 30)] /\ ask (DPeekItem (-1)%Z) s = OItem (3, 30) /\ ask (DPopItem (-1)%Z) s = OItem (3, 30) /\
  ask DItems (after (DPopItem (-1)%Z) s) = OItems [(1, 10); (2, 20)] /\ ask (DSetDefault 2 5) s = OVal 20 /\
  ask DItems (after (DUpdate (APairs [(2, 7); (0, 1); (2, 8)])) s) = OItems [(0, 1); (1, 10); (2, 8); (3, 30)].
Proof. split; [apply nT_class|]. split; [apply ndict_reach|]. vm_compute. repeat match goal with |- _ /\ _ => split end; reflexivity. Qed.

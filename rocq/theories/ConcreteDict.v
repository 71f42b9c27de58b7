(** * Concrete reachable SortedDicts used beside the property theorems *)
From Verif Require Import PyBase Model Spec History Reach Concrete ListClass ClassSpec ModelSet SetSpec ConcreteSet
  ModelDict DictSpec.
Local Unset Implicit Arguments.

(** Without a key function: keys are pairs compared by their first component (see [Concrete]);
    a bulk update, an item-wise update, a slice deletion and some single operations. *)
Definition dd_ops : list (dop pv nat nat) :=
  [DSet (5, 0) 50; DUpdate (APairs [((3, 1), 31); ((9, 0), 90); ((3, 2), 32); ((7, 0), 70); ((1, 1), 11)]);
   DUpdate (ADict [((8, 0), 80); ((9, 7), 97)]); DSetDefault (5, 9) 59; DSetDefault (4, 0) 40; DPop (7, 5) None;
   DUpdate (APairs [((20, 0), 1); ((21, 0), 2); ((22, 0), 3); ((23, 0), 4); ((24, 0), 5)]);
   DUpdate (ADict [((3, 9), 39)]); DItemAt 3;
   DViewDelSlice (mkslice (Some 7%Z) None (Some 2%Z)); DPopItem (-1)%Z; DSet (2, 0) 20; DDel (20, 0)].
Definition dd_start : sdict (core pv pv) pv nat := mksd [] (sl_init 2).
Definition dd_ex : sdict (core pv pv) pv nat := snd (sd_run pT peqb Nat.eqb dd_ops dd_start).
Definition dd_l : list (pv * nat) :=
  [((1, 1), 11); ((2, 0), 20); ((3, 1), 39); ((4, 0), 40); ((5, 0), 50); ((8, 0), 80); ((9, 0), 97); ((22, 0), 3)].
Lemma dd_ex_reach : sd_reach pT peqb Nat.eqb dd_ex.
Proof.
  exists (APairs []), dd_start, dd_ops. split; [vm_compute; reflexivity|]. split; [repeat constructor|reflexivity].
Qed.
Lemma dd_ex_shows : sd_shows pT peqb dd_ex dd_l.
Proof. vm_compute. reflexivity. Qed.

(** With a key function: keys sorted by their first component and equal when both components are,
    so that there are ties. *)
Definition kdd_ops : list (dop pv nat nat) :=
  [DUpdate (APairs [((3, 1), 31); ((9, 0), 90); ((3, 2), 32); ((1, 1), 11); ((3, 1), 13); ((3, 0), 30); ((3, 5), 35)]);
   DPop (3, 2) None; DSet (3, 2) 23; DItemAt 3; DSetDefault (3, 3) 33; DSet (3, 5) 53; DUpdate (ADict [((1, 0), 10)]);
   DDel (9, 0)].
Definition kdd_start : sdict (skl pv nat) pv nat := mksd [] (skl_init 2).
Definition kdd_ex : sdict (skl pv nat) pv nat := snd (sd_run kT pairb Nat.eqb kdd_ops kdd_start).
Definition kdd_l : list (pv * nat) :=
  [((1, 1), 11); ((1, 0), 10); ((3, 1), 13); ((3, 0), 30); ((3, 5), 53); ((3, 2), 23); ((3, 3), 33)].
Lemma kdd_ex_reach : sd_reach kT pairb Nat.eqb kdd_ex.
Proof.
  exists (APairs []), kdd_start, kdd_ops. split; [vm_compute; reflexivity|]. split; [repeat constructor|reflexivity].
Qed.
Lemma kdd_ex_shows : sd_shows kT pairb kdd_ex kdd_l.
Proof. vm_compute. reflexivity. Qed.

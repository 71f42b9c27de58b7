(** * Concrete reachable SortedSets used beside the property theorems *)
From Coq Require Import Permutation.
From Verif Require Import PyBase Model Spec History Reach Concrete ListClass ClassSpec ModelSet SetSpec.
Local Unset Implicit Arguments.

(** Hash sets are iterated forwards and backwards in turn. *)
Definition flip (n : nat) (l : list pv) : list pv := if Nat.even n then rev l else l.
Lemma flip_order : any_order flip.
Proof. intros n l. unfold flip. destruct (Nat.even n); [symmetry; apply Permutation_rev|reflexivity]. Qed.

(** Without a key function: pairs compared by their first component (see [Concrete]). *)
Definition pT : listcls (core pv pv) pv nat := plain (total2 pltb) (total2 peqb) 2.
Lemma pT_class : list_class pT pltb peqb (fwd_plain pltb peqb) 2.
Proof. apply class_plain; [apply pair_total|lia]. Qed.

(** A bulk update, element-wise updates, an intersection, a slice deletion and some single
    operations. *)
Definition ss_ops : list (sop pv nat) :=
  [SAdd (5, 0); SUpdate [AIter [(3, 1); (9, 0); (3, 2); (7, 0); (1, 1)]; ASet [(8, 0); (9, 7)]];
   SUpdate [AIter [(4, 4)]]; SDiscard (7, 5); SGet 3;
   SIntersectionUpdate [AIter [(9, 5); (8, 5); (5, 5); (4, 5); (3, 5); (1, 5); (0, 5)]];
   SUpdate [AIter [(10, 0); (11, 0); (12, 0); (13, 0); (14, 0); (15, 0); (16, 0)]];
   SDelSlice (mkslice (Some 9%Z) None (Some 2%Z)); SDifferenceUpdate [AIter [(10, 1); (20, 1)]]; SAdd (10, 9)].
Definition ss_start : sset (core pv pv) pv := mksset [] (sl_init 2) 1.
Definition ss_ex : sset (core pv pv) pv := snd (ss_run pT peqb flip ss_ops ss_start).
Definition ss_l : list pv :=
  [(1, 5); (3, 5); (4, 5); (5, 5); (8, 5); (9, 5); (10, 9); (11, 0); (12, 0); (14, 0); (16, 0)].
Lemma ss_ex_reach : ss_reach pT peqb flip ss_ex.
Proof.
  exists 0, None, ss_start, ss_ops. split; [vm_compute; reflexivity|]. split; [repeat constructor|reflexivity].
Qed.
Lemma ss_ex_shows : ss_shows pT ss_ex ss_l.
Proof. vm_compute. reflexivity. Qed.
(** The hash set lists its members in another order than the list. *)
Lemma ss_ex_set : s_set ss_ex <> ss_l.
Proof. vm_compute. discriminate. Qed.

(** With a key function: pairs sorted by their first component and equal when both components
    are. *)
Definition kT : listcls (skl pv nat) pv nat :=
  keyed (total2 pairb) (total2 Nat.ltb) (total2 Nat.eqb) (total1 (@fst nat nat)) 2.
Lemma pairb_equiv : Equiv pairb.
Proof.
  split; unfold pairb; intros [a b]; cbn.
  - rewrite !Nat.eqb_refl. reflexivity.
  - intros [c d]; cbn. rewrite !andb_true_iff, !Nat.eqb_eq. lia.
  - intros [c d] [e f]; cbn. rewrite !andb_true_iff, !Nat.eqb_eq. lia.
Qed.
Lemma kT_class : list_class kT (by_key (@fst nat nat) Nat.ltb) pairb (fwd_keyed (@fst nat nat) Nat.ltb pairb) 2.
Proof. apply class_keyed; [apply nat_total|apply pairb_equiv|apply pairb_compat|lia]. Qed.
Definition kss_ops : list (sop pv nat) :=
  [SUpdate [AIter [(3, 1); (9, 0); (3, 2); (7, 0); (1, 1); (3, 1); (3, 0); (3, 5)]]; SGet 3; SAdd (3, 3);
   SDiscard (3, 1); SDiscard (7, 5); SSymmetricDifferenceUpdate (AIter [(9, 0); (1, 0)]); SAdd (1, 2)].
Definition kss_start : sset (skl pv nat) pv := mksset [] (skl_init 2) 1.
Definition kss_ex : sset (skl pv nat) pv := snd (ss_run kT pairb flip kss_ops kss_start).
Definition kss_l : list pv := [(1, 0); (1, 1); (1, 2); (3, 3); (3, 5); (3, 0); (3, 2); (7, 0)].
Lemma kss_ex_reach : ss_reach kT pairb flip kss_ex.
Proof.
  exists 0, None, kss_start, kss_ops. split; [vm_compute; reflexivity|]. split; [repeat constructor|reflexivity].
Qed.
Lemma kss_ex_shows : ss_shows kT kss_ex kss_l.
Proof. vm_compute. reflexivity. Qed.

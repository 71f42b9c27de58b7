(** * Orders used beside the property theorems on views *)
From Coq Require Import Permutation.
From Verif Require Import PyBase Model Spec History Reach Concrete ListClass ClassSpec ModelSet SetSpec ConcreteSet
  ModelDict DictSpec ConcreteDict ModelView ViewSpec.
Local Unset Implicit Arguments.

(** Pairs in the order of tuples: first components first. *)
Definition lexb {A B} (l1 e1 : A -> A -> bool) (l2 : B -> B -> bool) (p q : A * B) : bool :=
  l1 (fst p) (fst q) || (e1 (fst p) (fst q) && l2 (snd p) (snd q)).
Lemma lex_nat {A B} (f : A -> nat) (g : B -> nat) :
  TotalOrder (lexb (fun x y => f x <? f y) (fun x y => f x =? f y) (fun x y => g x <? g y))
    (item_eqb (fun x y => f x =? f y) (fun x y => g x =? g y)).
Proof.
  assert (HL : forall p q : A * B, lexb (fun x y => f x <? f y) (fun x y => f x =? f y) (fun x y => g x <? g y) p q = true <->
    f (fst p) < f (fst q) \/ (f (fst p) = f (fst q) /\ g (snd p) < g (snd q))).
  { intros p q. unfold lexb. rewrite orb_true_iff, andb_true_iff, !Nat.ltb_lt, Nat.eqb_eq. reflexivity. }
  constructor; [constructor|].
  - intros x. apply not_true_iff_false. rewrite HL. lia.
  - intros x y z. rewrite !HL. lia.
  - intros x y z. rewrite !HL. lia.
  - intros x y. apply eq_true_iff_eq. rewrite andb_true_iff, !negb_true_iff, <- !not_true_iff_false, !HL.
    unfold item_eqb. rewrite andb_true_iff, !Nat.eqb_eq. lia.
Qed.

(** The keys of [kdd_ex] as tuples. *)
Definition tupb : pv -> pv -> bool := lexb Nat.ltb Nat.eqb Nat.ltb.
Lemma tup_total : TotalOrder tupb pairb.
Proof. exact (lex_nat (fun x : nat => x) (fun x : nat => x)). Qed.
(** The items of [dd_ex]. *)
Definition itemb : pv * nat -> pv * nat -> bool := lexb pltb peqb Nat.ltb.
Lemma item_total : TotalOrder itemb (item_eqb peqb Nat.eqb).
Proof. exact (lex_nat (@fst nat nat) (fun x : nat => x)). Qed.
Definition itflip (n : nat) (l : list (pv * nat)) : list (pv * nat) := if Nat.even n then rev l else l.
Lemma itflip_order : any_order itflip.
Proof. intros n l. unfold itflip. destruct (Nat.even n); [symmetry; apply Permutation_rev|reflexivity]. Qed.
Definition tupN : listcls (core pv pv) pv nat := plain (total2 tupb) (total2 pairb) 2.
Definition itemN : listcls (core (pv * nat) (pv * nat)) (pv * nat) nat := plain (total2 itemb) (total2 (item_eqb peqb Nat.eqb)) 2.

(** What a computation that returns a set shows. *)
Definition set_list {St SN X KN} (N : listcls SN X KN) (m : res (sset SN X) * St) : res (list X) :=
  match fst m with Ok r => fst (ss_iter N r) | Err e => Err e end.

(** A dict with repeated values. *)
Definition rep_ops : list (dop pv nat nat) :=
  [DUpdate (APairs [((4, 0), 7); ((1, 0), 5); ((3, 0), 7); ((2, 0), 7); ((5, 0), 5)]); DSet (1, 3) 7; DSet (0, 0) 6].
Definition rep_ex : sdict (core pv pv) pv nat := snd (sd_run pT peqb Nat.eqb rep_ops dd_start).
Definition rep_l : list (pv * nat) := [((0, 0), 6); ((1, 0), 7); ((2, 0), 7); ((3, 0), 7); ((4, 0), 7); ((5, 0), 5)].
Lemma rep_reach : sd_reach pT peqb Nat.eqb rep_ex.
Proof. exists (APairs []), dd_start, rep_ops. split; [vm_compute; reflexivity|]. split; [repeat constructor|reflexivity]. Qed.
Lemma rep_shows : sd_shows pT peqb rep_ex rep_l.
Proof. vm_compute. reflexivity. Qed.

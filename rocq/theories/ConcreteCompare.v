(** * Concrete objects of different classes used beside the property theorems *)
From Coq Require Import Permutation.
From Verif Require Import PyBase Model Spec History Reach Concrete ListClass ClassSpec ModelSet SetSpec ModelDict DictSpec ModelMixed ModelCompare CompareSpec.
Local Unset Implicit Arguments.

(** Numbers; SortedKeyLists are sorted by the last digit. *)
Definition last_digit (v : nat) : nat := Nat.modulo v 10.
Lemma last_digit_compat : EqCompat (by_key last_digit Nat.ltb) Nat.eqb.
Proof. intros x y E. apply Nat.eqb_eq in E. subst. unfold by_key. rewrite Nat.ltb_irrefl. auto. Qed.
Definition nT : listcls (core nat nat) nat nat := plain (total2 Nat.ltb) (total2 Nat.eqb) 2.
Lemma nT_class : list_class nT Nat.ltb Nat.eqb (fwd_plain Nat.ltb Nat.eqb) 2.
Proof. apply class_plain; [apply nat_total|lia]. Qed.
(** Hash sets are iterated backwards. *)
Definition back (n : nat) (l : list nat) : list nat := rev l.
Lemma back_order : any_order back.
Proof. intros n l. symmetry. apply Permutation_rev. Qed.

Definition nlist (l : list nat) : core nat nat := snd (sl_run (total2 Nat.ltb) (total2 Nat.eqb) 2 [LUpdate l] (sl_init 2)).
Definition nkey (l : list nat) : skl nat nat :=
  snd (skl_run (total2 Nat.ltb) (total2 Nat.eqb) (total2 Nat.ltb) (total2 Nat.eqb) (total1 last_digit) 2 [KList (LUpdate l)] (skl_init 2)).
Definition nset (l : list nat) : sset (core nat nat) nat := snd (ss_run nT Nat.eqb back [SUpdate [AIter l]] (mksset [] (sl_init 2) 1)).
Definition ndict (l : list (nat * nat)) : sdict (core nat nat) nat nat := snd (sd_run nT Nat.eqb Nat.eqb [DUpdate (APairs l)] (mksd [] (sl_init 2))).
Lemma nlist_reach l : sl_reach Nat.ltb Nat.eqb 2 (nlist l).
Proof. exists [LUpdate l]. split; [repeat constructor|reflexivity]. Qed.
Lemma nkey_reach l : skl_reach last_digit Nat.ltb Nat.eqb Nat.ltb Nat.eqb 2 (nkey l).
Proof. exists [KList (LUpdate l)]. split; [repeat constructor|reflexivity]. Qed.
Lemma nset_reach l : ss_reach nT Nat.eqb back (nset l).
Proof. exists 0, None, (mksset [] (sl_init 2) 1), [SUpdate [AIter l]]. split; [vm_compute; reflexivity|]. split; [repeat constructor|reflexivity]. Qed.
Lemma ndict_reach l : sd_reach nT Nat.eqb Nat.eqb (ndict l).
Proof. exists (APairs []), (mksd [] (sl_init 2)), [DUpdate (APairs l)]. split; [vm_compute; reflexivity|]. split; [repeat constructor|reflexivity]. Qed.

Definition nop : Type := operand (S:=core nat nat) (V:=nat) (K:=nat).
Notation nden := (denotes nT last_digit Nat.ltb Nat.eqb Nat.ltb Nat.eqb 2 back).
Notation ncmp := (rich nT (total2 Nat.ltb) (total2 Nat.eqb) Nat.eqb (sp_compare Nat.eqb Nat.ltb)).
Definition nhyps : Prop := list_class nT Nat.ltb Nat.eqb (fwd_plain Nat.ltb Nat.eqb) 2 /\ TotalOrder Nat.ltb Nat.eqb /\
  EqCompat (by_key last_digit Nat.ltb) Nat.eqb /\ any_order back.
Lemma nhyps_ok : nhyps.
Proof. split; [apply nT_class|]. split; [apply nat_total|]. split; [apply last_digit_compat|apply back_order]. Qed.

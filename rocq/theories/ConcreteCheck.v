(** * States made by hand for the self checks *)
From Verif Require Import PyBase Model Spec History Reach ListClass ClassSpec ModelSet SetSpec ModelDict DictSpec CheckSpec.

(** Three sublists whose leaves begin at position 2 of the index, which is not the start of a row. *)
Definition ck_bad : core nat nat := mkcore [[1; 2]; [3; 4]; [5; 6; 7]] [2; 4; 7] [7; 5; 2; 2; 3] 2 7 4.
Lemma ck_bad_sorted : sorted Nat.ltb [1; 2; 3; 4; 5; 6; 7].
Proof. unfold sorted. repeat constructor. Qed.

(** The same sublists with the index that [_build_index] makes. *)
Definition ck_good : core nat nat := mkcore [[1; 2]; [3; 4]; [5; 6; 7]] [2; 4; 7] [7; 4; 3; 2; 2; 3] 3 7 4.
Lemma ck_good_row : tree_row ck_good.
Proof. right. split; [cbn; lia|]. exists 2. reflexivity. Qed.

(** Pairs ordered by their first component; the list is keyed. *)
Definition ck_keyed : skl (nat * nat) nat :=
  mkskl (mkcore [[(1, 5); (1, 3)]; [(1, 4); (2, 0)]; [(5, 5); (5, 4); (7, 1)]] [1; 2; 7] [7; 4; 3; 2; 2; 3] 3 7 4)
    [[1; 1]; [1; 2]; [5; 5; 7]].

Definition ckT : listcls (core nat nat) nat nat := plain (total2 Nat.ltb) (total2 Nat.eqb) 4.
Definition ckK : listcls (skl nat nat) nat nat :=
  keyed (total2 Nat.eqb) (total2 Nat.ltb) (total2 Nat.eqb) (total1 (fun v => 10 - v)) 4.

(** A list with a value twice, and a set with as many members. *)
Definition ck_twice : core nat nat := mkcore [[1; 1]] [1] [] 0 2 4.
Definition ck_set : sset (core nat nat) nat := mksset [1; 2] ck_twice 0.
Definition ck_dict : sdict (core nat nat) nat nat := mksd [(1, 10); (2, 20)] ck_twice.

(** Consistent ones. *)
Definition ck_okset : sset (core nat nat) nat := mksset [7; 3; 1; 2; 6; 5; 4] ck_good 0.
Definition ck_okdict : sdict (core nat nat) nat nat := mksd [(7, 0); (3, 1); (1, 1); (2, 8); (6, 2); (5, 9); (4, 4)] ck_good.
Definition ck_down : skl nat nat :=
  mkskl (mkcore [[9; 8]; [7; 6]; [5; 4; 3]] [2; 4; 7] [7; 4; 3; 2; 2; 3] 3 7 4) [[1; 2]; [3; 4]; [5; 6; 7]].
Definition ck_kset : sset (skl nat nat) nat := mksset [7; 3; 9; 8; 6; 5; 4] ck_down 0.
Definition ck_kdict : sdict (skl nat nat) nat nat := mksd [(7, 0); (3, 1); (9, 1); (8, 8); (6, 2); (5, 9); (4, 4)] ck_down.

(** * Concrete reachable states used beside the property theorems

    Values are pairs compared and tested for equality by their first component
    only, so that equal values can be told apart (like [1], [1.0] and [True]).
    The load factor is 2, so a handful of values spreads over several sublists. *)
From Verif Require Import PyBase Model Spec History Reach.
Local Unset Implicit Arguments.

Definition pv : Type := (nat * nat)%type.
Definition pltb (x y : pv) : bool := fst x <? fst y.
Definition peqb (x y : pv) : bool := fst x =? fst y.

Lemma pair_total : TotalOrder pltb peqb.
Proof.
  unfold pltb, peqb. constructor; [constructor|]; intros.
  - apply Nat.ltb_irrefl.
  - rewrite Nat.ltb_lt in *. lia.
  - rewrite !Nat.ltb_lt in *. lia.
  - destruct (Nat.eqb_spec (fst x) (fst y)), (Nat.ltb_spec (fst x) (fst y)), (Nat.ltb_spec (fst y) (fst x)); cbn; lia.
Qed.

(** Two adds, a bulk update with ties, an indexed read (builds the positional
    index), a discard, further adds of tied values around an indexed read: the
    last add patches the index in place. *)
Definition ex_ops : list (lop pv) :=
  [LAdd (5, 0); LAdd (1, 0); LUpdate [(3, 1); (9, 0); (3, 2); (7, 0); (1, 1); (8, 0)];
   LGet 3; LDiscard (7, 5); LAdd (3, 3); LGet 4; LAdd (8, 1)].
Definition ex_l : list pv := [(1, 0); (1, 1); (3, 1); (3, 2); (3, 3); (5, 0); (8, 0); (8, 1); (9, 0)].
Definition ex_c : core pv pv := snd (sl_run (total2 pltb) (total2 peqb) 2 ex_ops (sl_init 2)).

Lemma ex_reach : sl_reach pltb peqb 2 ex_c.
Proof. exists ex_ops. split; [repeat constructor|reflexivity]. Qed.
Lemma ex_shows : shows ex_c ex_l.
Proof. vm_compute. reflexivity. Qed.
(** Three sublists and a built index. *)
Lemma ex_lists : lists ex_c = [[(1, 0); (1, 1)]; [(3, 1); (3, 2); (3, 3); (5, 0)]; [(8, 0); (8, 1); (9, 0)]] /\ index ex_c = [9; 6; 3; 2; 4; 3].
Proof. vm_compute. split; reflexivity. Qed.

(** ** SortedKeyList: pairs sorted by their first component, but equal only when
    both components are. *)
Definition pairb (x y : pv) : bool := (fst x =? fst y) && (snd x =? snd y).
Lemma nat_total : TotalOrder Nat.ltb Nat.eqb.
Proof.
  constructor; [constructor|]; intros.
  - apply Nat.ltb_irrefl.
  - rewrite Nat.ltb_lt in *. lia.
  - rewrite !Nat.ltb_lt in *. lia.
  - destruct (Nat.eqb_spec x y), (Nat.ltb_spec x y), (Nat.ltb_spec y x); cbn; lia.
Qed.
Lemma pairb_compat : EqCompat (by_key (@fst nat nat) Nat.ltb) pairb.
Proof.
  intros x y H. unfold pairb in H. apply andb_true_iff in H as [H _]. apply Nat.eqb_eq in H.
  unfold by_key. rewrite H. split; apply Nat.ltb_irrefl.
Qed.
Definition kex_ops : list (kop pv nat) :=
  [KList (LUpdate [(3, 1); (9, 0); (3, 2); (7, 0); (1, 1); (3, 0); (3, 5); (3, 4)]); KList (LGet 3);
   KList (LDiscard (7, 0)); KList (LDiscard (3, 9)); KList (LAdd (3, 3)); KList (LGet 4); KList (LAdd (1, 0))].
Definition kex_l : list pv :=
  [(1, 1); (1, 0); (3, 1); (3, 2); (3, 0); (3, 5); (3, 4); (3, 3); (9, 0)].
Definition kex_s : skl pv nat :=
  snd (skl_run (total2 pltb) (total2 pairb) (total2 Nat.ltb) (total2 Nat.eqb) (total1 (@fst nat nat)) 2 kex_ops (skl_init 2)).
Lemma kex_reach : skl_reach (@fst nat nat) Nat.ltb Nat.eqb pltb pairb 2 kex_s.
Proof. exists kex_ops. split; [repeat constructor|reflexivity]. Qed.
Lemma kex_shows : kshows kex_s kex_l.
Proof. vm_compute. reflexivity. Qed.
(** The run of key 3 spans three sublists. *)
Lemma kex_lists : keys kex_s = [[1; 1; 3]; [3; 3]; [3; 3; 3; 9]].
Proof. vm_compute. reflexivity. Qed.

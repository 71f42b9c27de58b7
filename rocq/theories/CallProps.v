(** * The claims about numbers of comparisons *)
From Verif Require Import PyBase Model Spec History BaseFacts Shape ListSim HistFacts Reach ListProps KeyProps Calls CallSpec CallFacts.
Local Unset Implicit Arguments.

Lemma asks_from {V S A} lt eq (ml : (V -> V -> res bool) -> (V -> V -> res bool) -> ML V S A) m s n :
  (forall lt eq, erase (ml lt eq) s = m lt eq s) ->
  (forall lt' eq', stable lt eq lt' eq' (ml lt eq) (ml lt' eq')) ->
  calls (ml lt eq) s <= n -> asks lt eq ml m s n.
Proof.
  intros He Hs Hc. exists (fst (ml lt eq s)). split; [|split; [exact Hc|]].
  - rewrite <- He. unfold erase. apply surjective_pairing.
  - intros lt' eq' Ha. rewrite <- !He. unfold erase. rewrite (Hs lt' eq' s Ha). reflexivity.
Qed.

Section C53.
  Variable V : Type.
  Variables ltb eqb : V -> V -> bool.
  Variable dflt : nat.
  Hypothesis HT : TotalOrder ltb eqb.
  Hypothesis Hd : 1 <= dflt.
  Variables (c : core V V) (l : list V).
  Hypothesis HR : sl_reach ltb eqb dflt c.
  Hypothesis HS : shows c l.
  Notation lt := (total2 ltb). Notation eq := (total2 eqb).
  Lemma c53_widths : width c = Nat.log2 (length (lists c)) + Nat.log2 (longest (lists c)) /\ width c <= Nat.log2 (length l) + 4.
  Proof.
    destruct (reach_inv ltb eqb dflt HT Hd c HR) as [H _]. destruct (lshape_width c H) as [E Hw].
    split; [unfold width; rewrite E; reflexivity|]. injection HS as <-. exact Hw.
  Qed.
End C53.

Lemma c53_contains : forall V (ltb eqb : V -> V -> bool) dflt c l v,
  TotalOrder ltb eqb -> 1 <= dflt -> sl_reach ltb eqb dflt c -> shows c l ->
  asks (total2 ltb) (total2 eqb) (fun lt eq => sl_contains_log lt eq v) (fun lt eq => sl_contains lt eq v) c
    (Nat.log2 (length (lists c)) + Nat.log2 (longest (lists c)) + 3) /\
  asks (total2 ltb) (total2 eqb) (fun lt eq => sl_contains_log lt eq v) (fun lt eq => sl_contains lt eq v) c
    (Nat.log2 (length l) + 7).
Proof.
  intros V ltb eqb dflt c l v HT Hd HR HS. destruct (c53_widths V ltb eqb dflt HT Hd c l HR HS) as [E Hw].
  pose proof (sl_contains_calls (total2 ltb) (total2 eqb) v c).
  split; (apply asks_from; [intros; apply sl_contains_erase|intros; apply sl_contains_stable|lia]).
Qed.

Lemma c53_discard_remove : forall V (ltb eqb : V -> V -> bool) dflt c l v,
  TotalOrder ltb eqb -> 1 <= dflt -> sl_reach ltb eqb dflt c -> shows c l ->
  asks (total2 ltb) (total2 eqb) (fun lt eq => sl_discard_log lt eq v) (fun lt eq => sl_discard lt eq v) c
    (Nat.log2 (length l) + 7) /\
  asks (total2 ltb) (total2 eqb) (fun lt eq => sl_remove_log lt eq v) (fun lt eq => sl_remove lt eq v) c
    (Nat.log2 (length l) + 7).
Proof.
  intros V ltb eqb dflt c l v HT Hd HR HS. destruct (c53_widths V ltb eqb dflt HT Hd c l HR HS) as [E Hw].
  pose proof (sl_discard_calls (total2 ltb) (total2 eqb) v c). pose proof (sl_remove_calls (total2 ltb) (total2 eqb) v c).
  split.
  - apply asks_from; [intros; apply sl_discard_erase|intros; apply sl_discard_stable|lia].
  - apply asks_from; [intros; apply sl_remove_erase|intros; apply sl_remove_stable|lia].
Qed.

Lemma c53_add : forall V (ltb eqb : V -> V -> bool) dflt c l v,
  TotalOrder ltb eqb -> 1 <= dflt -> sl_reach ltb eqb dflt c -> shows c l ->
  asks (total2 ltb) (total2 eqb) (fun lt _ => sl_add_log lt v) (fun lt _ => sl_add lt v) c (Nat.log2 (length l) + 6).
Proof.
  intros V ltb eqb dflt c l v HT Hd HR HS. destruct (c53_widths V ltb eqb dflt HT Hd c l HR HS) as [E Hw].
  pose proof (sl_add_calls (total2 ltb) v c).
  apply asks_from; [intros; apply sl_add_erase|intros; apply sl_add_stable|lia].
Qed.

Lemma c53_bisect : forall V (ltb eqb : V -> V -> bool) dflt c l v,
  TotalOrder ltb eqb -> 1 <= dflt -> sl_reach ltb eqb dflt c -> shows c l ->
  asks (total2 ltb) (total2 eqb) (fun lt _ => sl_bisect_left_log lt v) (fun lt _ => sl_bisect_left lt v) c
    (Nat.log2 (length l) + 6) /\
  asks (total2 ltb) (total2 eqb) (fun lt _ => sl_bisect_right_log lt v) (fun lt _ => sl_bisect_right lt v) c
    (Nat.log2 (length l) + 6).
Proof.
  intros V ltb eqb dflt c l v HT Hd HR HS. destruct (c53_widths V ltb eqb dflt HT Hd c l HR HS) as [E Hw].
  pose proof (sl_bisect_left_calls (total2 ltb) v c). pose proof (sl_bisect_right_calls (total2 ltb) v c).
  split.
  - apply asks_from; [intros; apply sl_bisect_left_erase|intros; apply sl_bisect_left_stable|lia].
  - apply asks_from; [intros; apply sl_bisect_right_erase|intros; apply sl_bisect_right_stable|lia].
Qed.

Lemma c53_count_index : forall V (ltb eqb : V -> V -> bool) dflt c l v start stop,
  TotalOrder ltb eqb -> 1 <= dflt -> sl_reach ltb eqb dflt c -> shows c l ->
  asks (total2 ltb) (total2 eqb) (fun lt _ => sl_count_log lt v) (fun lt _ => sl_count lt v) c
    (2 * Nat.log2 (length l) + 12) /\
  asks (total2 ltb) (total2 eqb) (fun lt eq => sl_index_log lt eq v start stop) (fun lt eq => sl_index lt eq v start stop) c
    (2 * Nat.log2 (length l) + 13).
Proof.
  intros V ltb eqb dflt c l v a b HT Hd HR HS. destruct (c53_widths V ltb eqb dflt HT Hd c l HR HS) as [E Hw].
  pose proof (sl_count_calls (total2 ltb) v c). pose proof (sl_index_calls (total2 ltb) (total2 eqb) v a b c).
  split.
  - apply asks_from; [intros; apply sl_count_erase|intros; apply sl_count_stable|lia].
  - apply asks_from; [intros; apply sl_index_erase|intros; apply sl_index_stable|lia].
Qed.

Lemma c53_key : forall V K (key : V -> K) (kltb keqb : K -> K -> bool) (vltb eqb : V -> V -> bool) dflt s l v k,
  TotalOrder kltb keqb -> 1 <= dflt -> skl_reach key kltb keqb vltb eqb dflt s -> kshows s l ->
  asks (total2 kltb) (total2 keqb) (fun klt _ => skl_add_log klt (total1 key) v) (fun klt _ => skl_add klt (total1 key) v) s
    (Nat.log2 (length l) + 6) /\
  asks (total2 kltb) (total2 keqb) (fun klt _ => skl_bisect_key_left_log klt (total1 key) k)
    (fun klt _ => skl_bisect_key_left klt (total1 key) k) s (Nat.log2 (length l) + 6) /\
  asks (total2 kltb) (total2 keqb) (fun klt _ => skl_bisect_key_right_log klt (total1 key) k)
    (fun klt _ => skl_bisect_key_right klt (total1 key) k) s (Nat.log2 (length l) + 6).
Proof.
  intros V K key kltb keqb vltb eqb dflt s l v k HT Hd HR HS.
  pose proof (shape_width (total1 key) s (proj1 (kreach_inv_any key kltb keqb vltb eqb dflt HT Hd s HR))) as Hw.
  injection HS as HS. unfold contents in HS. rewrite HS in Hw.
  pose proof (skl_add_calls (total1 key) (total2 kltb) v s).
  pose proof (skl_bisect_key_left_calls (total1 key) (total2 kltb) k s).
  pose proof (skl_bisect_key_right_calls (total1 key) (total2 kltb) k s).
  split; [|split].
  - apply asks_from; [intros; apply skl_add_erase|intros; apply skl_add_stable|lia].
  - apply asks_from; [intros; apply skl_bisect_key_left_erase|intros; apply skl_bisect_key_left_stable|lia].
  - apply asks_from; [intros; apply skl_bisect_key_right_erase|intros; apply skl_bisect_key_right_stable|lia].
Qed.

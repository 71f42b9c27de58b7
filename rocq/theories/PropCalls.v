(** * Property theorems: numbers of comparisons (C53) *)
From Verif Require Import PyBase Model Spec History Reach Concrete Calls CallSpec CallProps.

(** C53: [v in sl] makes at most log2 (number of sublists) + log2 (longest sublist) + 3 comparisons,
    and, whatever the load factor, at most log2 (len sl) + 7. *)
Theorem C53_contains : forall V (ltb eqb : V -> V -> bool) dflt c l v,
  TotalOrder ltb eqb -> 1 <= dflt -> sl_reach ltb eqb dflt c -> shows c l ->
  asks (total2 ltb) (total2 eqb) (fun lt eq => sl_contains_log lt eq v) (fun lt eq => sl_contains lt eq v) c
    (Nat.log2 (length (lists c)) + Nat.log2 (longest (lists c)) + 3) /\
  asks (total2 ltb) (total2 eqb) (fun lt eq => sl_contains_log lt eq v) (fun lt eq => sl_contains lt eq v) c
    (Nat.log2 (length l) + 7).
Proof. exact c53_contains. Qed.
Print Assumptions C53_contains.

Example C53_case : TotalOrder pltb peqb /\ 1 <= 2 /\ sl_reach pltb peqb 2 ex_c /\ shows ex_c ex_l /\
  fst (sl_contains_log (total2 pltb) (total2 peqb) (3, 7) ex_c) = [Less (5, 0) (3, 7); Less (1, 1) (3, 7); Less (3, 3) (3, 7); Less (3, 2) (3, 7); Less (3, 1) (3, 7); Same (3, 1) (3, 7)].
Proof. split; [exact pair_total|]. split; [lia|]. split; [exact ex_reach|]. split; [exact ex_shows|]. vm_compute. repeat match goal with |- _ /\ _ => split end; reflexivity. Qed.

(** C53: [discard] and [remove] make at most log2 (len sl) + 7 comparisons. *)
Theorem C53_discard_remove : forall V (ltb eqb : V -> V -> bool) dflt c l v,
  TotalOrder ltb eqb -> 1 <= dflt -> sl_reach ltb eqb dflt c -> shows c l ->
  asks (total2 ltb) (total2 eqb) (fun lt eq => sl_discard_log lt eq v) (fun lt eq => sl_discard lt eq v) c
    (Nat.log2 (length l) + 7) /\
  asks (total2 ltb) (total2 eqb) (fun lt eq => sl_remove_log lt eq v) (fun lt eq => sl_remove lt eq v) c
    (Nat.log2 (length l) + 7).
Proof. exact c53_discard_remove. Qed.
Print Assumptions C53_discard_remove.

Example C53_discard_case : TotalOrder pltb peqb /\ 1 <= 2 /\ sl_reach pltb peqb 2 ex_c /\ shows ex_c ex_l /\
  length (fst (sl_remove_log (total2 pltb) (total2 peqb) (3, 7) ex_c)) = 6.
Proof. split; [exact pair_total|]. split; [lia|]. split; [exact ex_reach|]. split; [exact ex_shows|]. vm_compute. repeat match goal with |- _ /\ _ => split end; reflexivity. Qed.

(** C53: [add] makes at most log2 (len sl) + 6 comparisons. *)
Theorem C53_add : forall V (ltb eqb : V -> V -> bool) dflt c l v,
  TotalOrder ltb eqb -> 1 <= dflt -> sl_reach ltb eqb dflt c -> shows c l ->
  asks (total2 ltb) (total2 eqb) (fun lt _ => sl_add_log lt v) (fun lt _ => sl_add lt v) c (Nat.log2 (length l) + 6).
Proof. exact c53_add. Qed.
Print Assumptions C53_add.

Example C53_add_case : TotalOrder pltb peqb /\ 1 <= 2 /\ sl_reach pltb peqb 2 ex_c /\ shows ex_c ex_l /\
  fst (sl_add_log (total2 pltb) (3, 7) ex_c) = [Less (3, 7) (5, 0); Less (3, 7) (1, 1); Less (3, 7) (3, 3); Less (3, 7) (5, 0)].
Proof. split; [exact pair_total|]. split; [lia|]. split; [exact ex_reach|]. split; [exact ex_shows|]. vm_compute. repeat match goal with |- _ /\ _ => split end; reflexivity. Qed.

(** C53: [bisect_left] and [bisect_right] make at most log2 (len sl) + 6 comparisons. *)
Theorem C53_bisect : forall V (ltb eqb : V -> V -> bool) dflt c l v,
  TotalOrder ltb eqb -> 1 <= dflt -> sl_reach ltb eqb dflt c -> shows c l ->
  asks (total2 ltb) (total2 eqb) (fun lt _ => sl_bisect_left_log lt v) (fun lt _ => sl_bisect_left lt v) c
    (Nat.log2 (length l) + 6) /\
  asks (total2 ltb) (total2 eqb) (fun lt _ => sl_bisect_right_log lt v) (fun lt _ => sl_bisect_right lt v) c
    (Nat.log2 (length l) + 6).
Proof. exact c53_bisect. Qed.
Print Assumptions C53_bisect.

Example C53_bisect_case : TotalOrder pltb peqb /\ 1 <= 2 /\ sl_reach pltb peqb 2 ex_c /\ shows ex_c ex_l /\
  length (fst (sl_bisect_right_log (total2 pltb) (3, 7) ex_c)) = 4.
Proof. split; [exact pair_total|]. split; [lia|]. split; [exact ex_reach|]. split; [exact ex_shows|]. vm_compute. repeat match goal with |- _ /\ _ => split end; reflexivity. Qed.

(** C53: [count] and [index] make at most 2 * log2 (len sl) + 13 comparisons. *)
Theorem C53_count_index : forall V (ltb eqb : V -> V -> bool) dflt c l v start stop,
  TotalOrder ltb eqb -> 1 <= dflt -> sl_reach ltb eqb dflt c -> shows c l ->
  asks (total2 ltb) (total2 eqb) (fun lt _ => sl_count_log lt v) (fun lt _ => sl_count lt v) c
    (2 * Nat.log2 (length l) + 12) /\
  asks (total2 ltb) (total2 eqb) (fun lt eq => sl_index_log lt eq v start stop) (fun lt eq => sl_index lt eq v start stop) c
    (2 * Nat.log2 (length l) + 13).
Proof. exact c53_count_index. Qed.
Print Assumptions C53_count_index.

Example C53_count_case : TotalOrder pltb peqb /\ 1 <= 2 /\ sl_reach pltb peqb 2 ex_c /\ shows ex_c ex_l /\
  length (fst (sl_count_log (total2 pltb) (3, 7) ex_c)) = 9.
Proof. split; [exact pair_total|]. split; [lia|]. split; [exact ex_reach|]. split; [exact ex_shows|]. vm_compute. repeat match goal with |- _ /\ _ => split end; reflexivity. Qed.

(** C53, SortedKeyList: [add], [bisect_key_left] and [bisect_key_right] make at most
    log2 (len skl) + 6 comparisons of keys. *)
Theorem C53_keylist : forall V K (key : V -> K) (kltb keqb : K -> K -> bool) (vltb eqb : V -> V -> bool) dflt s l v k,
  TotalOrder kltb keqb -> 1 <= dflt -> skl_reach key kltb keqb vltb eqb dflt s -> kshows s l ->
  asks (total2 kltb) (total2 keqb) (fun klt _ => skl_add_log klt (total1 key) v) (fun klt _ => skl_add klt (total1 key) v) s
    (Nat.log2 (length l) + 6) /\
  asks (total2 kltb) (total2 keqb) (fun klt _ => skl_bisect_key_left_log klt (total1 key) k)
    (fun klt _ => skl_bisect_key_left klt (total1 key) k) s (Nat.log2 (length l) + 6) /\
  asks (total2 kltb) (total2 keqb) (fun klt _ => skl_bisect_key_right_log klt (total1 key) k)
    (fun klt _ => skl_bisect_key_right klt (total1 key) k) s (Nat.log2 (length l) + 6).
Proof. exact c53_key. Qed.
Print Assumptions C53_keylist.

Example C53_key_case : TotalOrder Nat.ltb Nat.eqb /\ 1 <= 2 /\ skl_reach (@fst nat nat) Nat.ltb Nat.eqb pltb pairb 2 kex_s /\ kshows kex_s kex_l /\
  fst (skl_add_log (total2 Nat.ltb) (total1 (@fst nat nat)) (3, 7) kex_s) = [Less 3 3; Less 3 9; Less 3 3; Less 3 9].
Proof. split; [exact nat_total|]. split; [lia|]. split; [exact kex_reach|]. split; [exact kex_shows|]. vm_compute. reflexivity. Qed.

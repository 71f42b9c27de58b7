(** * C111: numbers of comparisons of a SortedSet and a SortedDict *)
From Coq Require Import Lia.
From Verif Require Import PyBase Model Spec History Reach ListClass ClassSpec ModelSet SetSpec ModelDict DictSpec Concrete ConcreteCompare Calls CallSpec CallFacts SetCalls SetCallProps.

(** C111, SortedSet without a key function: [add], [discard] and [remove] make about as many comparisons as a binary search, and none if the
    hash set already tells that there is nothing to do; [update] and [difference_update] with at most a quarter as many values as there
    are members make that many for each value.  Comparisons inside the hash set are not counted. *)
Theorem C111_set : forall V K (ltb eqb : V -> V -> bool) dflt (ord : nat -> list V -> list V) s l v its,
  TotalOrder ltb eqb -> 1 <= dflt -> any_order ord ->
  let T := fun lt eq => plain (K:=K) lt eq dflt in
  ss_reach (T (total2 ltb) (total2 eqb)) eqb ord s -> ss_shows (T (total2 ltb) (total2 eqb)) s l ->
  let held := existsb (fun e => eqb e v) l in
  let k := length (concat (map (@items V) its)) in
  asks (total2 ltb) (total2 eqb) (fun lt _ => ss_add_log eqb (sl_add_log lt) v) (fun lt eq => ss_add (T lt eq) eqb v) s
    (if held then 0 else Nat.log2 (length l) + 6) /\
  asks (total2 ltb) (total2 eqb) (fun lt eq => ss_discard_log eqb (sl_remove_log lt eq) v) (fun lt eq => ss_discard (T lt eq) eqb v) s
    (if held then Nat.log2 (length l) + 7 else 0) /\
  asks (total2 ltb) (total2 eqb) (fun lt eq => ss_remove_log eqb (sl_remove_log lt eq) v) (fun lt eq => ss_remove (T lt eq) eqb v) s
    (if held then Nat.log2 (length l) + 7 else 0) /\
  (4 * k <= length l ->
    asks (total2 ltb) (total2 eqb) (fun lt _ => ss_update_log eqb ord (sl_add_log lt) its) (fun lt eq => ss_update (T lt eq) eqb ord its) s
      (k * (Nat.log2 (length l + k) + 6)) /\
    asks (total2 ltb) (total2 eqb) (fun lt eq => ss_difference_update_log eqb ord (sl_remove_log lt eq) its)
      (fun lt eq => ss_difference_update (T lt eq) eqb ord its) s (k * (Nat.log2 (length l) + 7))).
Proof. exact c111_set. Qed.
Print Assumptions C111_set.

Example C111_set_case :
  let s := nset [7; 3; 1; 9; 5] in
  TotalOrder Nat.ltb Nat.eqb /\ 1 <= 2 /\ any_order back /\ ss_reach nT Nat.eqb back s /\ ss_shows nT s [1; 3; 5; 7; 9] /\
  calls (ss_add_log Nat.eqb (sl_add_log (total2 Nat.ltb)) 4) s = 4 /\ calls (ss_add_log Nat.eqb (sl_add_log (total2 Nat.ltb)) 5) s = 0 /\
  calls (ss_discard_log Nat.eqb (sl_remove_log (total2 Nat.ltb) (total2 Nat.eqb)) 5) s = 5 /\
  calls (ss_update_log Nat.eqb back (sl_add_log (total2 Nat.ltb)) [AIter [4]]) s = 4 /\
  Nat.log2 5 + 6 = 8.
Proof.
  split; [apply nat_total|]. split; [lia|]. split; [apply back_order|]. split; [apply nset_reach|]. split; [reflexivity|]. vm_compute. repeat match goal with |- _ /\ _ => split end; reflexivity.
Qed.

(** C111, SortedSet with a key function: the comparisons of keys.  [discard] and [remove] are not among them, since they go
    through all values whose key is the same. *)
Theorem C111_set_keyed : forall V K (key : V -> K) (kltb keqb : K -> K -> bool) (eqb : V -> V -> bool) dflt (ord : nat -> list V -> list V) s l v its,
  TotalOrder kltb keqb -> Equiv eqb -> EqCompat (by_key key kltb) eqb -> 1 <= dflt -> any_order ord ->
  let T := fun klt keq => keyed (total2 eqb) klt keq (total1 key) dflt in
  ss_reach (T (total2 kltb) (total2 keqb)) eqb ord s -> ss_shows (T (total2 kltb) (total2 keqb)) s l ->
  let k := length (concat (map (@items V) its)) in
  asks (total2 kltb) (total2 keqb) (fun klt _ => ss_add_log eqb (skl_add_log klt (total1 key)) v) (fun klt keq => ss_add (T klt keq) eqb v) s
    (if existsb (fun e => eqb e v) l then 0 else Nat.log2 (length l) + 6) /\
  (4 * k <= length l ->
    asks (total2 kltb) (total2 keqb) (fun klt _ => ss_update_log eqb ord (skl_add_log klt (total1 key)) its)
      (fun klt keq => ss_update (T klt keq) eqb ord its) s (k * (Nat.log2 (length l + k) + 6))).
Proof. exact c111_set_keyed. Qed.
Print Assumptions C111_set_keyed.

Example C111_set_keyed_case :
  let T := keyed (total2 Nat.eqb) (total2 Nat.ltb) (total2 Nat.eqb) (total1 last_digit) 2 in
  let s := snd (ss_run T Nat.eqb back [SUpdate [AIter [17; 23; 41; 5]]] (mksset [] (skl_init 2) 1)) in
  TotalOrder Nat.ltb Nat.eqb /\ Equiv Nat.eqb /\ EqCompat (by_key last_digit Nat.ltb) Nat.eqb /\ 1 <= 2 /\ any_order back /\
  ss_reach T Nat.eqb back s /\ ss_shows T s [41; 23; 5; 17] /\
  calls (ss_add_log Nat.eqb (skl_add_log (total2 Nat.ltb) (total1 last_digit)) 4) s = 4 /\
  calls (ss_add_log Nat.eqb (skl_add_log (total2 Nat.ltb) (total1 last_digit)) 17) s = 0 /\
  calls (ss_update_log Nat.eqb back (skl_add_log (total2 Nat.ltb) (total1 last_digit)) [AIter [4]]) s = 4.
Proof.
  split; [apply nat_total|]. split; [(split; [apply Nat.eqb_refl|intros x y E; apply Nat.eqb_eq in E; subst; apply Nat.eqb_refl|intros x y z E1 E2; apply Nat.eqb_eq in E1, E2; subst; apply Nat.eqb_refl])|]. split; [apply last_digit_compat|]. split; [lia|]. split; [apply back_order|].
  split; [exists 0, None, (mksset [] (skl_init 2) 1), [SUpdate [AIter [17; 23; 41; 5]]]; split; [reflexivity|]; split; [repeat constructor|reflexivity]|].
  split; [reflexivity|]. vm_compute. repeat match goal with |- _ /\ _ => split end; reflexivity.
Qed.

(** C111, SortedDict without a key function: [d[k] = v], [setdefault], [del d[k]] and [pop] likewise, and [update] of a dict with at most
    a tenth as many items. *)
Theorem C111_dict : forall A B K (ltb eqb : A -> A -> bool) (veqb : B -> B -> bool) dflt s l k v dv a,
  TotalOrder ltb eqb -> 1 <= dflt ->
  let T := fun lt eq => plain (K:=K) lt eq dflt in
  sd_reach (T (total2 ltb) (total2 eqb)) eqb veqb s -> sd_shows (T (total2 ltb) (total2 eqb)) eqb s l ->
  let held := existsb (fun p => eqb (fst p) k) l in
  let n := length (pairs_of a) in
  asks (total2 ltb) (total2 eqb) (fun lt _ => sd_setitem_log eqb (sl_add_log lt) k v) (fun lt eq => sd_setitem (T lt eq) eqb k v) s
    (if held then 0 else Nat.log2 (length l) + 6) /\
  asks (total2 ltb) (total2 eqb) (fun lt _ => sd_setdefault_log eqb (sl_add_log lt) k v) (fun lt eq => sd_setdefault (T lt eq) eqb k v) s
    (if held then 0 else Nat.log2 (length l) + 6) /\
  asks (total2 ltb) (total2 eqb) (fun lt eq => sd_delitem_log eqb (sl_remove_log lt eq) k) (fun lt eq => sd_delitem (T lt eq) eqb k) s
    (if held then Nat.log2 (length l) + 7 else 0) /\
  asks (total2 ltb) (total2 eqb) (fun lt eq => sd_pop_log eqb (sl_remove_log lt eq) k dv) (fun lt eq => sd_pop (T lt eq) eqb k dv) s
    (if held then Nat.log2 (length l) + 7 else 0) /\
  (l <> [] -> 10 * n <= length l ->
    asks (total2 ltb) (total2 eqb) (fun lt _ => sd_update_log eqb (sl_add_log lt) a) (fun lt eq => sd_update (T lt eq) eqb a) s
      (n * (Nat.log2 (length l + n) + 6))).
Proof. exact c111_dict. Qed.
Print Assumptions C111_dict.

Example C111_dict_case :
  let s := ndict [(7, 0); (3, 1); (1, 2); (9, 3); (5, 4); (2, 5); (4, 6); (6, 7); (8, 8); (0, 9)] in
  TotalOrder Nat.ltb Nat.eqb /\ 1 <= 2 /\ sd_reach nT Nat.eqb Nat.eqb s /\ option_map (@length _) (match fst (sd_items nT Nat.eqb s) with Ok l => Some l | Err _ => None end) = Some 10 /\
  calls (sd_setitem_log Nat.eqb (sl_add_log (total2 Nat.ltb)) 14 0) s = 2 /\ calls (sd_setitem_log Nat.eqb (sl_add_log (total2 Nat.ltb)) 4 0) s = 0 /\
  calls (sd_delitem_log Nat.eqb (sl_remove_log (total2 Nat.ltb) (total2 Nat.eqb)) 4) s = 5 /\
  calls (sd_pop_log Nat.eqb (sl_remove_log (total2 Nat.ltb) (total2 Nat.eqb)) 14 (Some 1)) s = 0 /\
  calls (sd_update_log Nat.eqb (sl_add_log (total2 Nat.ltb)) (APairs [(14, 1)])) s = 2 /\
  Nat.log2 10 + 6 = 9.
Proof.
  split; [apply nat_total|]. split; [lia|]. split; [apply ndict_reach|]. vm_compute. repeat match goal with |- _ /\ _ => split end; reflexivity.
Qed.

(** C111, SortedDict with a key function: the comparisons of what the key function returns. *)
Theorem C111_dict_keyed : forall A B K (key : A -> K) (kltb keqb : K -> K -> bool) (eqb : A -> A -> bool) (veqb : B -> B -> bool) dflt s l k v a,
  TotalOrder kltb keqb -> Equiv eqb -> EqCompat (by_key key kltb) eqb -> 1 <= dflt ->
  let T := fun klt keq => keyed (total2 eqb) klt keq (total1 key) dflt in
  sd_reach (T (total2 kltb) (total2 keqb)) eqb veqb s -> sd_shows (T (total2 kltb) (total2 keqb)) eqb s l ->
  let held := existsb (fun p => eqb (fst p) k) l in
  let n := length (pairs_of a) in
  asks (total2 kltb) (total2 keqb) (fun klt _ => sd_setitem_log eqb (skl_add_log klt (total1 key)) k v)
    (fun klt keq => sd_setitem (T klt keq) eqb k v) s (if held then 0 else Nat.log2 (length l) + 6) /\
  asks (total2 kltb) (total2 keqb) (fun klt _ => sd_setdefault_log eqb (skl_add_log klt (total1 key)) k v)
    (fun klt keq => sd_setdefault (T klt keq) eqb k v) s (if held then 0 else Nat.log2 (length l) + 6) /\
  (l <> [] -> 10 * n <= length l ->
    asks (total2 kltb) (total2 keqb) (fun klt _ => sd_update_log eqb (skl_add_log klt (total1 key)) a)
      (fun klt keq => sd_update (T klt keq) eqb a) s (n * (Nat.log2 (length l + n) + 6))).
Proof. exact c111_dict_keyed. Qed.
Print Assumptions C111_dict_keyed.

Example C111_dict_keyed_case :
  let T := keyed (total2 Nat.eqb) (total2 Nat.ltb) (total2 Nat.eqb) (total1 last_digit) 2 in
  let s := snd (sd_run T Nat.eqb Nat.eqb [DUpdate (APairs [(17, 0); (23, 1); (41, 2)])] (mksd [] (skl_init 2))) in
  TotalOrder Nat.ltb Nat.eqb /\ Equiv Nat.eqb /\ EqCompat (by_key last_digit Nat.ltb) Nat.eqb /\ 1 <= 2 /\
  sd_reach T Nat.eqb Nat.eqb s /\ sd_shows T Nat.eqb s [(41, 2); (23, 1); (17, 0)] /\
  calls (sd_setitem_log Nat.eqb (skl_add_log (total2 Nat.ltb) (total1 last_digit)) 4 0) s = 3 /\
  calls (sd_setdefault_log Nat.eqb (skl_add_log (total2 Nat.ltb) (total1 last_digit)) 17 0) s = 0.
Proof.
  split; [apply nat_total|]. split; [(split; [apply Nat.eqb_refl|intros x y E; apply Nat.eqb_eq in E; subst; apply Nat.eqb_refl|intros x y z E1 E2; apply Nat.eqb_eq in E1, E2; subst; apply Nat.eqb_refl])|]. split; [apply last_digit_compat|]. split; [lia|].
  split; [exists (APairs []), (mksd [] (skl_init 2)), [DUpdate (APairs [(17, 0); (23, 1); (41, 2)])]; split; [reflexivity|]; split; [repeat constructor|reflexivity]|].
  split; [reflexivity|]. vm_compute. repeat match goal with |- _ /\ _ => split end; reflexivity.
Qed.

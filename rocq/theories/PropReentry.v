(** * C120, C121: comparisons that use the list they compare for (proofs in ReentryProps.v) *)
From Coq Require Import Permutation Sorted.
From Verif Require Import PyBase Model ModelReentry ReentrySpec ReentryFacts ReentryProps.

(** C120: while a SortedList compares for [add], [<] may call [add] of the same list, again and again and to any depth, and read the list.
    Whatever order this leaves, the list holds exactly the values whose [add] returned ([done]), [len] counts them, there are as many maxima as
    sublists and no sublist is empty; each call puts its value in once or raises; the exception comes from the code of [<], is the recursion
    limit, or is the IndexError of a [bisect] whose sublist was split meanwhile. *)
Theorem C120_list : forall W V load (s : W * robj V), 1 <= load -> added load s ->
  holds_added (snd s) /\
  forall (lt : V -> V -> code W V bool) depth v r s', (forall x y, adds_only (lt x y)) -> r_add lt depth v s = (r, s') ->
    holds_added (snd s') /\
    (exists l, done (snd s') = (match r with Ok _ => [v] | Err _ => [] end) ++ l ++ done (snd s) /\
       forall x, In x l -> exists a b, may_add (lt a b) x) /\
    forall e, r = Err e -> e = IndexError \/ e = OutOfFuel \/ exists a b, may_throw (lt a b) e.
Proof. exact c120_list. Qed.
Print Assumptions C120_list.

Example C120_list_case :
  let lt := third (fun k => CAdd 0 (fun _ => CItem 3%Z (fun _ => k))) in let s := filled 0 2 [1; 2; 3; 4; 5; 0; 0] in
  added 2 s /\ (forall x y, adds_only (lt x y)) /\ fst (r_add lt 2 4 s) = Ok tt /\
  lists (body (snd (snd (r_add lt 2 4 s)))) = [[0; 0]; [0; 1; 2]; [3; 4; 4; 5]] /\
  done (snd (snd (r_add lt 2 4 s))) = [4; 0] ++ done (snd s).
Proof.
  split; [apply added_filled|]. split; [intros x y; apply third_adds; intros k Hk; cbn; auto|]. vm_compute. repeat match goal with |- _ /\ _ => split end; reflexivity.
Qed.

(** C120: with comparisons that only answer or raise, [add] is that of Model.v. *)
Theorem C120_same : forall W V (lt : V -> V -> res bool) d v (w : W) (o : robj V), numbered o ->
  exists o', r_add (fun x y => told (lt x y)) (S d) v (w, o) = (fst (sl_add lt v (body o)), (w, o')) /\
    body o' = snd (sl_add lt v (body o)) /\ numbered o'.
Proof. exact c120_same. Qed.
Print Assumptions C120_same.

Example C120_same_case :
  let s := filled 0 2 [1; 2; 3; 4; 5] in
  numbered (snd s) /\ sl_add (fun x y => Ok (x <? y)) 4 (body (snd s)) = (Ok tt, mkcore [[1; 2]; [3; 4; 4; 5]] [2; 5] [] 0 6 2).
Proof.
  split; [|vm_compute; reflexivity]. vm_compute. split; [reflexivity|]. split.
  - repeat constructor; cbn; intuition discriminate.
  - repeat constructor.
Qed.

(** C121, refuted: if [<] is true to the order and only adds values and reads the list, the list stays sorted. *)
Theorem C121_sorted_refuted : ~ (forall load (s : nat * robj nat) lt depth v s', 1 <= load -> added load s -> StronglySorted le (concat (lists (body (snd s)))) ->
  (forall x y, adds_only (lt x y) /\ always_says (lt x y) (x <? y)) -> r_add lt depth v s = (Ok tt, s') ->
  StronglySorted le (concat (lists (body (snd s'))))).
Proof. exact c121_sorted. Qed.
Print Assumptions C121_sorted_refuted.

Example C121_sorted_case :
  let lt := third (fun k => CAdd 3 (fun _ => k)) in
  (forall x y, adds_only (lt x y) /\ always_says (lt x y) (x <? y)) /\ lists (body (snd (filled 1 2 [10]))) = [[10]] /\
  lists (body (snd (snd (r_add lt 2 5 (filled 1 2 [10]))))) = [[5; 3; 10]].
Proof.
  split; [intros x y; split; [apply third_adds; intros k Hk; cbn; auto|apply third_says; intros k Hk; cbn; auto]|]. vm_compute. repeat match goal with |- _ /\ _ => split end; reflexivity.
Qed.

(** C121, refuted: after such an [add] every index below [len] can be read. *)
Theorem C121_index_refuted : ~ (forall load (s : nat * robj nat) lt depth v s', 1 <= load -> added load s -> StronglySorted le (concat (lists (body (snd s)))) ->
  (forall x y, adds_only (lt x y) /\ always_says (lt x y) (x <? y)) -> r_add lt depth v s = (Ok tt, s') ->
  forall i, i < len (body (snd s')) -> exists x, fst (on_body (getitem_int (Z.of_nat i)) s') = Ok x).
Proof. exact c121_index. Qed.
Print Assumptions C121_index_refuted.

Example C121_index_case :
  let lt := third (fun k => CAdd 0 (fun _ => CItem 3%Z (fun _ => k))) in let s := snd (r_add lt 2 4 (filled 0 2 [1; 2; 3; 4; 5; 0; 0])) in
  len (body (snd s)) = 9 /\ fst (on_body (getitem_int 5%Z) s) = Err IndexError.
Proof. vm_compute. repeat match goal with |- _ /\ _ => split end; reflexivity. Qed.

(** C121, refuted: if [<] is true to the order and deletes by index, a value whose [add] returned is in the list, or at least not counted by [len]. *)
Theorem C121_lost_refuted : ~ (forall load (s : nat * robj nat) lt depth v s', 1 <= load -> added load s -> StronglySorted le (concat (lists (body (snd s)))) ->
  (forall x y, always_says (lt x y) (x <? y)) -> r_add lt depth v s = (Ok tt, s') ->
  In v (concat (lists (body (snd s')))) \/ len (body (snd s')) = length (concat (lists (body (snd s'))))).
Proof. exact c121_lost. Qed.
Print Assumptions C121_lost_refuted.

Example C121_lost_case :
  let lt := third (fun k => CDel 0%Z (fun _ => k)) in let s := filled 0 2 [1; 2; 5; 6; 9; 8] in
  lists (body (snd s)) = [[1; 2]; [5; 6; 8; 9]] /\ fst (r_add lt 2 7 s) = Ok tt /\
  lists (body (snd (snd (r_add lt 2 7 s)))) = [[2; 5]; [6; 8; 9]] /\ len (body (snd (snd (r_add lt 2 7 s)))) = 6.
Proof. vm_compute. repeat match goal with |- _ /\ _ => split end; reflexivity. Qed.

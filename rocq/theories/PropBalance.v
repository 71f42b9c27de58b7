(** * Property theorems: size of the internal structure and depth of the positional index (C72, C73) *)
From Coq Require Import List Arith Lia ZArith.
From Verif Require Import PyBase Model Spec History Reach FaultSpec BalanceSpec BalanceProps.
Import ListNotations.

(** C72: whatever the comparisons answer or raise, in every state a history of operations reaches the
    internal lists of a SortedList are non-empty, at most twice the load factor long, all but the last at least half of it, and
    the positional index has at most three entries per internal list. *)
Theorem C72_list_balanced : forall V dflt (c : core V V) l, 1 <= dflt -> wild_reach dflt c -> shows c l -> balanced c (length l).
Proof. exact c72_list. Qed.
Print Assumptions C72_list_balanced.

Example C72_list_case :
  let lt (x y : nat) := Ok (negb (Nat.even (x + y))) in
  let w o := mkwild lt (total2 Nat.eqb) o in
  let c := snd (wild_run 4 [w (LUpdate (seq 0 40)); w (LDelSlice (mkslice (Some 7%Z) (Some 9%Z) None)); w (LAdd 5); w (LGet 11); w (LAdd 6)] (sl_init 4)) in
  wild_reach 4 c /\ (exists l, shows c l /\ length l = 40) /\ length (lists c) = 10 /\ length (index c) = 25.
Proof.
  cbv zeta. split; [eexists; split; [|split; [|reflexivity]]; [repeat constructor|vm_compute; repeat constructor]|].
  split; [eexists; split; [reflexivity|vm_compute; reflexivity]|vm_compute; split; reflexivity].
Qed.

(** C72 for SortedKeyList, whose lists of keys have the same lengths as its lists of values. *)
Theorem C72_keylist_balanced : forall V K (kf : V -> res K) dflt s l, 1 <= dflt -> kwild_reach kf dflt s -> kshows s l ->
  balanced (kc s) (length l) /\ map (@length K) (keys s) = map (@length V) (lists (kc s)).
Proof. exact c72_keylist. Qed.
Print Assumptions C72_keylist_balanced.

Example C72_keylist_case :
  let lt (x y : nat) := Ok (negb (Nat.even (x + y))) in
  let w o := mkkwild lt (total2 Nat.eqb) lt (total2 Nat.eqb) o in
  let kf (x : nat) := if x =? 99 then Err TypeError else Ok (x / 2) in
  let s := snd (kwild_run kf 4 [w (KList (LUpdate (seq 0 40))); w (KList (LDelSlice (mkslice (Some 7%Z) (Some 9%Z) None))); w (KList (LAdd 99)); w (KList (LGet 11)); w (KList (LAdd 6))] (skl_init 4)) in
  kwild_reach kf 4 s /\ (exists l, kshows s l /\ length l = 39) /\ length (lists (kc s)) = 10 /\ length (index (kc s)) = 25.
Proof.
  cbv zeta. split; [eexists; split; [|split; [|reflexivity]]; [repeat constructor|vm_compute; repeat constructor]|].
  split; [eexists; split; [reflexivity|vm_compute; reflexivity]|vm_compute; split; reflexivity].
Qed.

(** C73: in every reachable state with at least two internal lists (with fewer the index is not used), the
    three loops over the positional index, for finding a position, computing a rank and adjusting the counts, stop after at most
    one more than the binary logarithm of the number of internal lists iterations. *)
Theorem C73_list_index_steps : forall V dflt (c : core V V) l, 1 <= dflt -> wild_reach dflt c -> shows c l -> 2 <= length (lists c) ->
  index_steps c (length l) (Nat.log2 (length (lists c)) + 1).
Proof. exact c73_list. Qed.
Print Assumptions C73_list_index_steps.

Example C73_list_case :
  let lt (x y : nat) := Ok (negb (Nat.even (x + y))) in
  let w o := mkwild lt (total2 Nat.eqb) o in
  let c := snd (wild_run 4 [w (LUpdate (seq 0 40)); w (LDelSlice (mkslice (Some 7%Z) (Some 9%Z) None)); w (LAdd 5); w (LGet 11); w (LAdd 6)] (sl_init 4)) in
  wild_reach 4 c /\ (exists l, shows c l /\ length l = 40) /\ 2 <= length (lists c) /\ Nat.log2 (length (lists c)) + 1 = 4 /\
  pos_loop 5 (index (snd (ensure_index c))) 0 1 39 = Ok (24, 4) /\ pos_loop 4 (index (snd (ensure_index c))) 0 1 39 = Err OutOfFuel.
Proof.
  cbv zeta. split; [eexists; split; [|split; [|reflexivity]]; [repeat constructor|vm_compute; repeat constructor]|].
  split; [eexists; split; [reflexivity|vm_compute; reflexivity]|]. split; [vm_compute; lia|]. vm_compute. repeat split; reflexivity.
Qed.

(** C73 for SortedKeyList. *)
Theorem C73_keylist_index_steps : forall V K (kf : V -> res K) dflt s l, 1 <= dflt -> kwild_reach kf dflt s -> kshows s l -> 2 <= length (lists (kc s)) ->
  index_steps (kc s) (length l) (Nat.log2 (length (lists (kc s))) + 1).
Proof. exact c73_keylist. Qed.
Print Assumptions C73_keylist_index_steps.

Example C73_keylist_case :
  let lt (x y : nat) := Ok (negb (Nat.even (x + y))) in
  let w o := mkkwild lt (total2 Nat.eqb) lt (total2 Nat.eqb) o in
  let kf (x : nat) := if x =? 99 then Err TypeError else Ok (x / 2) in
  let s := snd (kwild_run kf 4 [w (KList (LUpdate (seq 0 40))); w (KList (LDelSlice (mkslice (Some 7%Z) (Some 9%Z) None))); w (KList (LAdd 99)); w (KList (LGet 11)); w (KList (LAdd 6))] (skl_init 4)) in
  kwild_reach kf 4 s /\ (exists l, kshows s l /\ length l = 39) /\ 2 <= length (lists (kc s)) /\
  loc_loop 5 (index (snd (ensure_index (kc s)))) (9 + offset (snd (ensure_index (kc s)))) 0 = Ok 35.
Proof.
  cbv zeta. split; [eexists; split; [|split; [|reflexivity]]; [repeat constructor|vm_compute; repeat constructor]|].
  split; [eexists; split; [reflexivity|vm_compute; reflexivity]|]. split; [vm_compute; lia|]. vm_compute. reflexivity.
Qed.

(** * C122, C123: key functions that read the SortedKeyList they are called for (proofs in KReadsProps.v and KReadsSame.v) *)
From Verif Require Import PyBase Model Spec History Reach KeyProps ModelKReads KReadsSpec KReadsProps KReadsSame.

(** C122: if the key function and the comparisons of keys and values call querying methods of the SortedKeyList they are called for, every
    operation does what it does with functions that answer the same and read nothing, unless it fills the list itself anew with at least one
    value ([refills]). *)
Theorem C122_keylist : forall (V K : Type) (a : answers V K) (u : calls V K) dflt s l o,
  TotalOrder (a_klt a) (a_keq a) -> EqCompat (by_key (a_key a) (a_klt a)) (a_eq a) -> 1 <= dflt ->
  skl_reach (a_key a) (a_klt a) (a_keq a) (a_vlt a) (a_eq a) dflt s -> kshows s l -> kop_ok o ->
  refills o l = false ->
  (forall m, kseen a o l m -> kreads a dflt u m) ->
  kas_without a dflt (kr_step (c_vlt u) (c_eq u) (c_klt u) (c_keq u) (c_key u) dflt) o s.
Proof. exact c122_keylist. Qed.
Print Assumptions C122_keylist.

Example C122_keylist_case :
  let s := snd (run khalf_do [KList (LUpdate [9; 1; 5; 3; 7; 4])] (skl_init 2)) in
  let u := with_calls (@knosy) in let step := kr_step (c_vlt u) (c_eq u) (c_klt u) (c_keq u) (c_key u) 2 in
  let o := KList (LUpdate [6]) in
  skl_reach (fun v => v / 2) Nat.ltb Nat.eqb Nat.ltb Nat.eqb 2 s /\ kshows s [1; 3; 5; 4; 7; 9] /\ refills o [1; 3; 5; 4; 7; 9] = false /\ (forall m, kreads halves 2 u m) /\
  fst (step o s) = RUnit /\ contents (kc (snd (step o s))) = [1; 3; 5; 4; 7; 6; 9] /\
  index (kc (snd (khalf_do o s))) = [] /\ index (kc (snd (step o s))) = [7; 4; 3; 2; 2; 3].
Proof.
  split; [exists [KList (LUpdate [9; 1; 5; 3; 7; 4])]; split; [repeat constructor|reflexivity]|].
  split; [apply kshows_iff; vm_compute; reflexivity|]. split; [reflexivity|]. split; [apply kreads_knosy|]. vm_compute. repeat match goal with |- _ /\ _ => split end; reflexivity.
Qed.

(** C122: with functions that only answer, the operations are those of Model.v. *)
Theorem C122_same : forall (V K : Type) (a : answers V K) dflt s o,
  TotalOrder (a_klt a) (a_keq a) -> EqCompat (by_key (a_key a) (a_klt a)) (a_eq a) -> 1 <= dflt ->
  skl_reach (a_key a) (a_klt a) (a_keq a) (a_vlt a) (a_eq a) dflt s -> kop_ok o ->
  (let u := only_answers a in kr_step (c_vlt u) (c_eq u) (c_klt u) (c_keq u) (c_key u) dflt o s) =
    skl_do (a_key a) (a_klt a) (a_keq a) (a_vlt a) (a_eq a) dflt o s.
Proof. exact c122_same. Qed.
Print Assumptions C122_same.

Example C122_same_case :
  let s := snd (run khalf_do [KList (LUpdate [9; 1; 5; 3; 7; 4])] (skl_init 2)) in
  skl_reach (fun v => v / 2) Nat.ltb Nat.eqb Nat.ltb Nat.eqb 2 s /\ let u := only_answers halves in
  contents (kc (snd (kr_step (c_vlt u) (c_eq u) (c_klt u) (c_keq u) (c_key u) 2 (KList (LUpdate [6; 0; 8])) s))) = [1; 0; 3; 5; 4; 7; 6; 9; 8].
Proof.
  split; [exists [KList (LUpdate [9; 1; 5; 3; 7; 4])]; split; [repeat constructor|reflexivity]|]. vm_compute. repeat match goal with |- _ /\ _ => split end; reflexivity.
Qed.

(** C123, refuted: C122 without the exception. *)
Theorem C123_refuted : ~ (forall (V K : Type) (a : answers V K) (u : calls V K) dflt s l o,
  TotalOrder (a_klt a) (a_keq a) -> EqCompat (by_key (a_key a) (a_klt a)) (a_eq a) -> 1 <= dflt ->
  skl_reach (a_key a) (a_klt a) (a_keq a) (a_vlt a) (a_eq a) dflt s -> kshows s l -> kop_ok o ->
  (forall m, kreads a dflt u m) ->
  kas_without a dflt (kr_step (c_vlt u) (c_eq u) (c_klt u) (c_keq u) (c_key u) dflt) o s).
Proof. exact c123_refuted. Qed.
Print Assumptions C123_refuted.

Example C123_case :
  let u := with_calls (@kwary) in (forall m, kreads halves 2 u m) /\
  let step := kr_step (c_vlt u) (c_eq u) (c_klt u) (c_keq u) (c_key u) 2 in
  fst (khalf_do (KList (LUpdate [1])) (skl_init 2)) = RUnit /\ fst (step (KList (LUpdate [1])) (skl_init 2)) = RExn AssertionError /\
  lists (kc (snd (step (KList (LUpdate [1])) (skl_init 2)))) = [[1]] /\ len (kc (snd (step (KList (LUpdate [1])) (skl_init 2)))) = 0.
Proof. split; [apply kreads_kwary|]. vm_compute. repeat match goal with |- _ /\ _ => split end; reflexivity. Qed.

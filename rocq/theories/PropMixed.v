(** * Property theorems: SortedLists and SortedKeyLists side by side (C87, C88) *)
From Verif Require Import PyBase Model Spec History Reach Concrete ModelHeap ModelKHeap ModelMixed HeapSpec MixedSpec MixedProps.

(** C87: a program that holds SortedLists, SortedKeyLists (with several key functions) and lists, hands them to each other as
    arguments, mutates its lists, and calls everything in any order, sees what it would see were every object an independent value; no
    list object is used in two places, neither in [_lists] nor in [_keys].  For every [<], [==] and key function, also those that raise
    or contradict themselves. *)
Theorem C87_values : forall (V : Type) (lt eq : V -> V -> res bool) (kfn : nat -> V -> res V) (dflt : nat) (ops : list (mop V)) outs (w : mworld V) outs' objs users,
  Forall msimple ops ->
  mw_run lt eq kfn dflt ops mw_init = (outs, w) -> mixed_values lt eq kfn dflt ops ([], []) = (outs', (objs, users)) ->
  outs = outs' /\ map (fun o => mview (m_heap w, o)) (m_objs w) = objs /\ map (cell (m_heap w)) (m_user w) = users /\
  NoDup (flat_map mrefs (m_objs w) ++ m_user w).
Proof. exact c87_values. Qed.
Print Assumptions C87_values.

(** Comparing with 99 and the key of 77 raise. *)
Example C87_values_case :
  let lt a b := if Nat.eqb a 99 || Nat.eqb b 99 then Err TypeError else Ok (Nat.ltb a b) in
  let kf (_ v : nat) := if Nat.eqb v 77 then Err KeyError else Ok (Nat.modulo v 10) in
  let ops :=
    [MW (WList [31; 12; 2; 25]); MW (WNew (WUser 0)); MNewKey (Some 0) (WUser 0); MW (WMutate 0 []); MNewKey (Some 0) (WObj 0);
     MKey 1 (KBisectLeft 2); MKey 0 (KBisectLeft 2); MW (WPlus 0 (WObj 1)); MW (WOp 1 (LAdd 77)); MW (WOp 0 (LAdd 99)); MW (WOp 0 (LAdd 77));
     MW (WUpdate 1 (WObj 0)); MW (WIAdd 0 (WObj 1)); MW (WCompare 0 Clt (WObj 1)); MW (WCompare 1 Cgt (WObj 0));
     MW (WSlice 1 (mkslice None None (Some (-1)%Z))); MRMul 1 2%Z; MW (WMul 2 0%Z); MW (WReduce 1); MW (WCopy 3); MW (WOp 3 (LDel 0%Z));
     MW (WOp 4 LIter); MW (WOp 3 LIter); MW (WOp 1 LClear); MW (WOp 0 LIter)] in
  let p := mw_run lt (total2 Nat.eqb) kf 2 ops mw_init in
  Forall msimple ops /\
  fst p = [RUnit; RUnit; RUnit; RUnit; RUnit; RNat 1; RExn AttributeError; RUnit; RExn KeyError; RExn TypeError; RUnit; RExn KeyError;
    RUnit; RBool true; RBool true; RList [25; 2; 12; 31]; RUnit; RUnit; RUnit; RUnit; RUnit; RList [2; 2; 12; 12; 25; 25; 31; 31];
    RList [31; 12; 2; 2; 12; 25; 25]; RUnit; RList [2; 2; 12; 12; 25; 25; 31; 31; 77]] /\
  map mrefs (m_objs (snd p)) = [[26; 27; 28; 29; 30]; []; [10; 11; 12; 13]; [16; 18; 19; 20; 22; 23]; [35; 36; 37; 38; 39; 40; 41; 42]; [];
    [49; 50; 51; 52]; [54; 55; 56; 57; 58; 59; 60; 61]].
Proof. cbv zeta. split; [repeat constructor|]. vm_compute. repeat match goal with |- _ /\ _ => split end; reflexivity. Qed.

(** C87 for a total order: every object of such a program keeps its class and its key, and is at all times the list of the values
    put into it, in the order of its class. *)
Theorem C87_lists : forall (V : Type) (ltb eqb : V -> V -> bool) (key : nat -> V -> V) (dflt : nat) (ops : list (mop V)) outs w outs' objs users,
  TotalOrder ltb eqb -> (forall n, EqCompat (by_key (key n) ltb) eqb) -> 1 <= dflt -> Forall mop_ok ops ->
  mw_run (total2 ltb) (total2 eqb) (fun n => total1 (key n)) dflt ops mw_init = (outs, w) ->
  mixed_lists ltb eqb key ops ([], []) = (outs', (objs, users)) ->
  outs = outs' /\ map (fun o => (class_of o, elems (m_heap w) (HRows (m_rows o)))) (m_objs w) = objs /\
  map (cell (m_heap w)) (m_user w) = users.
Proof. exact c87_lists. Qed.
Print Assumptions C87_lists.

Example C87_lists_case :
  let key (_ : nat) v := Nat.modulo v 10 in
  let ops :=
    [MW (WList [31; 12; 2; 25]); MW (WNew (WUser 0)); MNewKey (Some 0) (WUser 0); MW (WMutate 0 []); MNewKey (Some 0) (WObj 0);
     MKey 1 (KBisectLeft 2); MKey 0 (KBisectLeft 2); MW (WPlus 0 (WObj 1)); MW (WOp 1 (LAdd 77)); MW (WOp 0 (LAdd 99)); MW (WOp 0 (LAdd 77));
     MW (WUpdate 1 (WObj 0)); MW (WIAdd 0 (WObj 1)); MW (WCompare 0 Clt (WObj 1)); MW (WCompare 1 Cgt (WObj 0));
     MW (WSlice 1 (mkslice None None (Some (-1)%Z))); MRMul 1 2%Z; MW (WMul 2 0%Z); MW (WReduce 1); MW (WCopy 3); MW (WOp 3 (LDel 0%Z));
     MW (WOp 4 LIter); MW (WOp 3 LIter); MW (WOp 1 LClear); MW (WOp 0 LIter)] in
  TotalOrder Nat.ltb Nat.eqb /\ (forall n, EqCompat (by_key (key n) Nat.ltb) Nat.eqb) /\ Forall mop_ok ops /\
  snd (mixed_lists Nat.ltb Nat.eqb key ops ([], [])) =
    ([(CList, [2; 2; 2; 12; 12; 12; 25; 25; 25; 31; 31; 31; 77; 77; 77; 99; 99]); (CKey (Some 0), []); (CKey (Some 0), [31; 2; 12; 25]);
      (CKey (Some 0), [31; 12; 2; 2; 12; 25; 25]);
      (CKey None, [2; 2; 2; 2; 12; 12; 12; 12; 25; 25; 25; 25; 31; 31; 31; 31; 77; 77; 77; 77; 99; 99]); (CKey (Some 0), []);
      (CKey (Some 0), [31; 31; 12; 2; 2; 12; 25; 25; 77; 77; 99]); (CKey (Some 0), [31; 31; 12; 2; 2; 12; 25; 25])],
     [[]; [99; 77; 77; 25; 25; 12; 2; 2; 12; 31; 31]]).
Proof.
  cbv zeta. split; [apply nat_total|]. split; [intros n x y E; apply Nat.eqb_eq in E; subst; unfold by_key; rewrite Nat.ltb_irrefl; auto|].
  split; [repeat constructor|]. vm_compute. repeat match goal with |- _ /\ _ => split end; reflexivity.
Qed.

(** C88: the sum of a SortedList and a SortedKeyList, in whichever order it is written, is a new SortedKeyList with the key of the
    operand: all values stably sorted by that key, those of the SortedKeyList first; no object changes. *)
Theorem C88_sum : forall (V : Type) (ltb eqb : V -> V -> bool) (key : nat -> V -> V) (dflt : nat) (w : mworld V) i j k lx ly,
  TotalOrder ltb eqb -> (forall n, EqCompat (by_key (key n) ltb) eqb) -> 1 <= dflt -> mixed_reach ltb eqb key dflt w ->
  m_has w i CList lx -> m_has w j (CKey k) ly ->
  let do o := mop_step (total2 ltb) (total2 eqb) (fun n => total1 (key n)) dflt (MW o) w in
  exists w1 w2 z, do (WPlus i (WObj j)) = (RUnit, w1) /\ do (WPlus j (WObj i)) = (RUnit, w2) /\
    stable_sort_of (by_key (keyfn key k) ltb) (ly ++ lx) z /\
    m_has w1 (length (m_objs w)) (CKey k) z /\ m_has w2 (length (m_objs w)) (CKey k) z /\
    forall n c l, m_has w n c l -> m_has w1 n c l /\ m_has w2 n c l.
Proof. exact c88_sum. Qed.
Print Assumptions C88_sum.

Example C88_sum_case :
  let key (_ : nat) v := Nat.modulo v 10 in
  let w := snd (mw_run (total2 Nat.ltb) (total2 Nat.eqb) (fun n => total1 (key n)) 2
    [MW (WList [31; 12; 2; 25]); MW (WNew (WUser 0)); MNewKey (Some 0) (WObj 0); MW (WOp 1 (LAdd 1))] mw_init) in
  TotalOrder Nat.ltb Nat.eqb /\ (forall n, EqCompat (by_key (key n) Nat.ltb) Nat.eqb) /\ mixed_reach Nat.ltb Nat.eqb key 2 w /\
  m_has w 0 CList [2; 12; 25; 31] /\ m_has w 1 (CKey (Some 0)) [31; 1; 2; 12; 25] /\
  m_has (snd (mop_step (total2 Nat.ltb) (total2 Nat.eqb) (fun n => total1 (key n)) 2 (MW (WPlus 0 (WObj 1))) w)) 2 (CKey (Some 0))
    [31; 1; 31; 2; 12; 2; 12; 25; 25].
Proof.
  cbv zeta. split; [apply nat_total|]. split; [intros n x y E; apply Nat.eqb_eq in E; subst; unfold by_key; rewrite Nat.ltb_irrefl; auto|].
  split; [exists [MW (WList [31; 12; 2; 25]); MW (WNew (WUser 0)); MNewKey (Some 0) (WObj 0); MW (WOp 1 (LAdd 1))]; split; [repeat constructor|reflexivity]|].
  split; [eexists; vm_compute; split; [reflexivity|]; split; reflexivity|]. split; [eexists; vm_compute; split; [reflexivity|]; split; reflexivity|]. eexists; vm_compute; split; [reflexivity|]; split; reflexivity.
Qed.

(** C88 for [x += y]: the class and the key of [x] stay, whatever [y] is; its values are stably sorted, old before new, and no other
    object changes.  [x] and [y] may be the same object. *)
Theorem C88_iadd : forall (V : Type) (ltb eqb : V -> V -> bool) (key : nat -> V -> V) (dflt : nat) (w : mworld V) i j ci cj lx ly,
  TotalOrder ltb eqb -> (forall n, EqCompat (by_key (key n) ltb) eqb) -> 1 <= dflt -> mixed_reach ltb eqb key dflt w ->
  m_has w i ci lx -> m_has w j cj ly ->
  let less := match ci with CList => ltb | CKey k => by_key (keyfn key k) ltb end in
  exists w' z, mop_step (total2 ltb) (total2 eqb) (fun n => total1 (key n)) dflt (MW (WIAdd i (WObj j))) w = (RUnit, w') /\
    stable_sort_of less (lx ++ ly) z /\ m_has w' i ci z /\ (forall n c l, n <> i -> m_has w n c l -> m_has w' n c l).
Proof. exact c88_iadd. Qed.
Print Assumptions C88_iadd.

Example C88_iadd_case :
  let key (_ : nat) v := Nat.modulo v 10 in
  let w := snd (mw_run (total2 Nat.ltb) (total2 Nat.eqb) (fun n => total1 (key n)) 2
    [MW (WList [31; 12; 2; 25]); MW (WNew (WUser 0)); MNewKey (Some 0) (WObj 0); MW (WOp 1 (LAdd 1))] mw_init) in
  TotalOrder Nat.ltb Nat.eqb /\ (forall n, EqCompat (by_key (key n) Nat.ltb) Nat.eqb) /\ mixed_reach Nat.ltb Nat.eqb key 2 w /\
  m_has w 0 CList [2; 12; 25; 31] /\ m_has w 1 (CKey (Some 0)) [31; 1; 2; 12; 25] /\
  m_has (snd (mop_step (total2 Nat.ltb) (total2 Nat.eqb) (fun n => total1 (key n)) 2 (MW (WIAdd 0 (WObj 1))) w)) 0 CList
    [1; 2; 2; 12; 12; 25; 25; 31; 31].
Proof.
  cbv zeta. split; [apply nat_total|]. split; [intros n x y E; apply Nat.eqb_eq in E; subst; unfold by_key; rewrite Nat.ltb_irrefl; auto|].
  split; [exists [MW (WList [31; 12; 2; 25]); MW (WNew (WUser 0)); MNewKey (Some 0) (WObj 0); MW (WOp 1 (LAdd 1))]; split; [repeat constructor|reflexivity]|].
  split; [eexists; vm_compute; split; [reflexivity|]; split; reflexivity|]. split; [eexists; vm_compute; split; [reflexivity|]; split; reflexivity|]. eexists; vm_compute; split; [reflexivity|]; split; reflexivity.
Qed.

(** C88 for comparisons of two objects, of whichever class: the elements decide, lexicographically, although Python asks the
    SortedKeyList first and the keys decide the order of the elements; no object changes. *)
Theorem C88_compare : forall (V : Type) (ltb eqb : V -> V -> bool) (key : nat -> V -> V) (dflt : nat) (w : mworld V) i j ci cj lx ly op,
  TotalOrder ltb eqb -> (forall n, EqCompat (by_key (key n) ltb) eqb) -> 1 <= dflt -> mixed_reach ltb eqb key dflt w ->
  m_has w i ci lx -> m_has w j cj ly ->
  exists w', mop_step (total2 ltb) (total2 eqb) (fun n => total1 (key n)) dflt (MW (WCompare i op (WObj j))) w =
      (RBool (sp_compare eqb ltb op lx ly), w') /\
    (forall n c l, m_has w n c l <-> m_has w' n c l).
Proof. exact c88_compare. Qed.
Print Assumptions C88_compare.

Example C88_compare_case :
  let key (_ : nat) v := Nat.modulo v 10 in
  let w := snd (mw_run (total2 Nat.ltb) (total2 Nat.eqb) (fun n => total1 (key n)) 2
    [MW (WList [31; 12; 2; 25]); MW (WNew (WUser 0)); MNewKey (Some 0) (WObj 0); MW (WOp 1 (LAdd 1))] mw_init) in
  TotalOrder Nat.ltb Nat.eqb /\ (forall n, EqCompat (by_key (key n) Nat.ltb) Nat.eqb) /\ mixed_reach Nat.ltb Nat.eqb key 2 w /\
  m_has w 0 CList [2; 12; 25; 31] /\ m_has w 1 (CKey (Some 0)) [31; 1; 2; 12; 25] /\
  fst (mop_step (total2 Nat.ltb) (total2 Nat.eqb) (fun n => total1 (key n)) 2 (MW (WCompare 0 Clt (WObj 1))) w) = RBool true /\
  fst (mop_step (total2 Nat.ltb) (total2 Nat.eqb) (fun n => total1 (key n)) 2 (MW (WCompare 1 Clt (WObj 0))) w) = RBool false.
Proof.
  cbv zeta. split; [apply nat_total|]. split; [intros n x y E; apply Nat.eqb_eq in E; subst; unfold by_key; rewrite Nat.ltb_irrefl; auto|].
  split; [exists [MW (WList [31; 12; 2; 25]); MW (WNew (WUser 0)); MNewKey (Some 0) (WObj 0); MW (WOp 1 (LAdd 1))]; split; [repeat constructor|reflexivity]|].
  split; [eexists; vm_compute; split; [reflexivity|]; split; reflexivity|]. split; [eexists; vm_compute; split; [reflexivity|]; split; reflexivity|]. vm_compute. auto.
Qed.

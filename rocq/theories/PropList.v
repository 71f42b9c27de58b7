(** * Properties of SortedList under a total order *)
From Verif Require Import PyBase Model Spec History Reach Concrete ListProps.
From Coq Require Import Sorting.Permutation.

(** C01: every reachable SortedList iterates in non-decreasing order. *)
Theorem C01_sorted : forall V (ltb eqb : V -> V -> bool) dflt c,
  TotalOrder ltb eqb -> 1 <= dflt -> sl_reach ltb eqb dflt c ->
  exists l, shows c l /\ sorted ltb l.
Proof. exact c01_sorted. Qed.
Print Assumptions C01_sorted.

Example C01_case : sl_reach pltb peqb 2 ex_c /\ shows ex_c ex_l /\ length ex_l = 9.
Proof. split; [exact ex_reach|]. split; vm_compute; reflexivity. Qed.

(** C02: whole histories agree with the reference list kept in stable sorted order. *)
Theorem C02_refines_reference : forall V (ltb eqb : V -> V -> bool) dflt ops,
  TotalOrder ltb eqb -> 1 <= dflt -> Forall lop_ok ops ->
  exists c, sl_run (total2 ltb) (total2 eqb) dflt ops (sl_init dflt)
              = (fst (sp_run ltb eqb ltb ops []), c) /\
            shows c (snd (sp_run ltb eqb ltb ops [])).
Proof. exact c02_refines. Qed.
Print Assumptions C02_refines_reference.

Example C02_case : Forall lop_ok ex_ops /\
  sl_run (total2 pltb) (total2 peqb) 2 ex_ops (sl_init 2)
    = ([RUnit; RUnit; RUnit; RVal (3, 2); RUnit; RUnit; RVal (3, 3); RUnit], ex_c).
Proof. split; [repeat constructor|vm_compute; reflexivity]. Qed.

(** C03: add puts the value after all values not greater than it. *)
Theorem C03_add : forall V (ltb eqb : V -> V -> bool) dflt c l v,
  TotalOrder ltb eqb -> 1 <= dflt -> sl_reach ltb eqb dflt c -> shows c l ->
  exists c' l1 l2, sl_do ltb eqb dflt (LAdd v) c = (RUnit, c') /\ sl_reach ltb eqb dflt c' /\
    l = l1 ++ l2 /\ (forall x, In x l1 -> ltb v x = false) /\ (forall x, In x l2 -> ltb v x = true) /\
    shows c' (l1 ++ v :: l2) /\ length_of c' = (Ok (S (length l)), c').
Proof. exact c03_add. Qed.
Print Assumptions C03_add.

Example C03_case :
  TotalOrder pltb peqb /\ 1 <= 2 /\ sl_reach pltb peqb 2 ex_c /\ shows ex_c ex_l /\
  shows (snd (sl_do pltb peqb 2 (LAdd (5, 9)) ex_c))
    [(1, 0); (1, 1); (3, 1); (3, 2); (3, 3); (5, 0); (5, 9); (8, 0); (8, 1); (9, 0)].
Proof.
  split; [exact pair_total|]. split; [lia|]. split; [exact ex_reach|]. split; [exact ex_shows|].
  repeat match goal with |- _ /\ _ => split end; vm_compute; reflexivity.
Qed.

(** C04: update is a stable merge. *)
Theorem C04_update : forall V (ltb eqb : V -> V -> bool) dflt c l it,
  TotalOrder ltb eqb -> 1 <= dflt -> sl_reach ltb eqb dflt c -> shows c l ->
  exists c' l', sl_do ltb eqb dflt (LUpdate it) c = (RUnit, c') /\ sl_reach ltb eqb dflt c' /\
    shows c' l' /\ stable_sort_of ltb (l ++ it) l' /\ Permutation l' (l ++ it).
Proof. exact c04_update. Qed.
Print Assumptions C04_update.

Example C04_case :
  TotalOrder pltb peqb /\ 1 <= 2 /\ sl_reach pltb peqb 2 ex_c /\ shows ex_c ex_l /\
  shows (snd (sl_do pltb peqb 2 (LUpdate [(3, 9); (0, 0); (3, 8)]) ex_c))
    [(0, 0); (1, 0); (1, 1); (3, 1); (3, 2); (3, 3); (3, 9); (3, 8); (5, 0); (8, 0); (8, 1); (9, 0)] /\
  shows (snd (sl_do pltb peqb 2 (LUpdate [(3, 9); (0, 0)]) ex_c))
    [(0, 0); (1, 0); (1, 1); (3, 1); (3, 2); (3, 3); (3, 9); (5, 0); (8, 0); (8, 1); (9, 0)].
Proof.
  split; [exact pair_total|]. split; [lia|]. split; [exact ex_reach|]. split; [exact ex_shows|].
  repeat match goal with |- _ /\ _ => split end; vm_compute; reflexivity.
Qed.

(** C05: membership is exact. *)
Theorem C05_contains : forall V (ltb eqb : V -> V -> bool) dflt c l v,
  TotalOrder ltb eqb -> 1 <= dflt -> sl_reach ltb eqb dflt c -> shows c l ->
  exists b c', sl_do ltb eqb dflt (LContains v) c = (RBool b, c') /\ shows c' l /\
    (b = true <-> exists x, In x l /\ eqb x v = true).
Proof. exact c05_contains. Qed.
Print Assumptions C05_contains.

Example C05_case :
  TotalOrder pltb peqb /\ 1 <= 2 /\ sl_reach pltb peqb 2 ex_c /\ shows ex_c ex_l /\
  fst (sl_do pltb peqb 2 (LContains (5, 77)) ex_c) = RBool true /\
  fst (sl_do pltb peqb 2 (LContains (6, 0)) ex_c) = RBool false.
Proof.
  split; [exact pair_total|]. split; [lia|]. split; [exact ex_reach|]. split; [exact ex_shows|].
  repeat match goal with |- _ /\ _ => split end; vm_compute; reflexivity.
Qed.

(** C06: discard and remove delete the first equal value only. *)
Theorem C06_discard_remove : forall V (ltb eqb : V -> V -> bool) dflt c l v,
  TotalOrder ltb eqb -> 1 <= dflt -> sl_reach ltb eqb dflt c -> shows c l ->
  exists cd cr rr, sl_do ltb eqb dflt (LDiscard v) c = (RUnit, cd) /\
    sl_do ltb eqb dflt (LRemove v) c = (rr, cr) /\
    ((exists a x b, l = a ++ x :: b /\ eqb x v = true /\ (forall y, In y a -> eqb y v = false) /\
        rr = RUnit /\ shows cd (a ++ b) /\ shows cr (a ++ b)) \/
     ((forall y, In y l -> eqb y v = false) /\
        rr = RExn ValueError /\ shows cd l /\ shows cr l)).
Proof. exact c06_discard_remove. Qed.
Print Assumptions C06_discard_remove.

Example C06_case :
  TotalOrder pltb peqb /\ 1 <= 2 /\ sl_reach pltb peqb 2 ex_c /\ shows ex_c ex_l /\
  shows (snd (sl_do pltb peqb 2 (LRemove (3, 77)) ex_c))
    [(1, 0); (1, 1); (3, 2); (3, 3); (5, 0); (8, 0); (8, 1); (9, 0)] /\
  fst (sl_do pltb peqb 2 (LRemove (4, 0)) ex_c) = RExn ValueError.
Proof.
  split; [exact pair_total|]. split; [lia|]. split; [exact ex_reach|]. split; [exact ex_shows|].
  repeat match goal with |- _ /\ _ => split end; vm_compute; reflexivity.
Qed.

(** C07: integer indexing. *)
Theorem C07_getitem : forall V (ltb eqb : V -> V -> bool) dflt c l i,
  TotalOrder ltb eqb -> 1 <= dflt -> sl_reach ltb eqb dflt c -> shows c l ->
  exists r c', sl_do ltb eqb dflt (LGet i) c = (r, c') /\ shows c' l /\
    ((0 <= i < Z.of_nat (length l))%Z -> exists v, nth_error l (Z.to_nat i) = Some v /\ r = RVal v) /\
    ((- Z.of_nat (length l) <= i < 0)%Z ->
       exists v, nth_error l (Z.to_nat (i + Z.of_nat (length l))) = Some v /\ r = RVal v) /\
    ((i < - Z.of_nat (length l) \/ Z.of_nat (length l) <= i)%Z -> r = RExn IndexError).
Proof. exact c07_getitem. Qed.
Print Assumptions C07_getitem.

Example C07_case :
  TotalOrder pltb peqb /\ 1 <= 2 /\ sl_reach pltb peqb 2 ex_c /\ shows ex_c ex_l /\
  fst (sl_do pltb peqb 2 (LGet 5) ex_c) = RVal (5, 0) /\
  fst (sl_do pltb peqb 2 (LGet (-2)) ex_c) = RVal (8, 1) /\
  fst (sl_do pltb peqb 2 (LGet 9) ex_c) = RExn IndexError.
Proof.
  split; [exact pair_total|]. split; [lia|]. split; [exact ex_reach|]. split; [exact ex_shows|].
  repeat match goal with |- _ /\ _ => split end; vm_compute; reflexivity.
Qed.

(** C08: slicing. *)
Theorem C08_slice : forall V (ltb eqb : V -> V -> bool) dflt c l sl,
  TotalOrder ltb eqb -> 1 <= dflt -> sl_reach ltb eqb dflt c -> shows c l ->
  exists r c', sl_do ltb eqb dflt (LSlice sl) c = (r, c') /\ shows c' l /\
    ((s_step sl = Some 0%Z /\ r = RExn ValueError) \/
     (s_step sl <> Some 0%Z /\ exists x, r = RList x /\ slice_is sl l x)).
Proof. exact c08_slice. Qed.
Print Assumptions C08_slice.

Example C08_case :
  TotalOrder pltb peqb /\ 1 <= 2 /\ sl_reach pltb peqb 2 ex_c /\ shows ex_c ex_l /\
  fst (sl_do pltb peqb 2 (LSlice (mkslice (Some (-1)%Z) None (Some (-3)%Z))) ex_c)
    = RList [(9, 0); (5, 0); (3, 1)].
Proof.
  split; [exact pair_total|]. split; [lia|]. split; [exact ex_reach|]. split; [exact ex_shows|].
  repeat match goal with |- _ /\ _ => split end; vm_compute; reflexivity.
Qed.

(** C09: deletion by index. *)
Theorem C09_delete : forall V (ltb eqb : V -> V -> bool) dflt c l i,
  TotalOrder ltb eqb -> 1 <= dflt -> sl_reach ltb eqb dflt c -> shows c l ->
  exists r c', sl_do ltb eqb dflt (LDel i) c = (r, c') /\ sl_reach ltb eqb dflt c' /\
    ((exists a x b, l = a ++ x :: b /\
        (Z.of_nat (length a) = i \/ Z.of_nat (length a) = i + Z.of_nat (length l))%Z /\
        r = RUnit /\ shows c' (a ++ b)) \/
     ((i < - Z.of_nat (length l) \/ Z.of_nat (length l) <= i)%Z /\ r = RExn IndexError /\ shows c' l)).
Proof. exact c09_delete. Qed.
Print Assumptions C09_delete.

Example C09_case :
  TotalOrder pltb peqb /\ 1 <= 2 /\ sl_reach pltb peqb 2 ex_c /\ shows ex_c ex_l /\
  shows (snd (sl_do pltb peqb 2 (LDel (-4)) ex_c))
    [(1, 0); (1, 1); (3, 1); (3, 2); (3, 3); (8, 0); (8, 1); (9, 0)].
Proof.
  split; [exact pair_total|]. split; [lia|]. split; [exact ex_reach|]. split; [exact ex_shows|].
  repeat match goal with |- _ /\ _ => split end; vm_compute; reflexivity.
Qed.

(** C09: deletion by slice. *)
Theorem C09_delete_slice : forall V (ltb eqb : V -> V -> bool) dflt c l sl,
  TotalOrder ltb eqb -> 1 <= dflt -> sl_reach ltb eqb dflt c -> shows c l ->
  exists r c', sl_do ltb eqb dflt (LDelSlice sl) c = (r, c') /\ sl_reach ltb eqb dflt c' /\
    ((s_step sl = Some 0%Z /\ r = RExn ValueError /\ shows c' l) \/
     (s_step sl <> Some 0%Z /\ exists l', r = RUnit /\ shows c' l' /\ slice_deleted sl l l')).
Proof. exact c09_delete_slice. Qed.
Print Assumptions C09_delete_slice.

Example C09_slice_case :
  TotalOrder pltb peqb /\ 1 <= 2 /\ sl_reach pltb peqb 2 ex_c /\ shows ex_c ex_l /\
  shows (snd (sl_do pltb peqb 2 (LDelSlice (mkslice (Some 7%Z) (Some 0%Z) (Some (-2)%Z))) ex_c))
    [(1, 0); (3, 1); (3, 3); (8, 0); (9, 0)].
Proof.
  split; [exact pair_total|]. split; [lia|]. split; [exact ex_reach|]. split; [exact ex_shows|].
  repeat match goal with |- _ /\ _ => split end; vm_compute; reflexivity.
Qed.

(** C10: pop. *)
Theorem C10_pop : forall V (ltb eqb : V -> V -> bool) dflt c l i,
  TotalOrder ltb eqb -> 1 <= dflt -> sl_reach ltb eqb dflt c -> shows c l ->
  exists r c', sl_do ltb eqb dflt (LPop i) c = (r, c') /\ sl_reach ltb eqb dflt c' /\
    ((exists a x b, l = a ++ x :: b /\
        (Z.of_nat (length a) = i \/ Z.of_nat (length a) = i + Z.of_nat (length l))%Z /\
        r = RVal x /\ shows c' (a ++ b)) \/
     ((i < - Z.of_nat (length l) \/ Z.of_nat (length l) <= i)%Z /\ r = RExn IndexError /\ shows c' l)).
Proof. exact c10_pop. Qed.
Print Assumptions C10_pop.

Example C10_case :
  TotalOrder pltb peqb /\ 1 <= 2 /\ sl_reach pltb peqb 2 ex_c /\ shows ex_c ex_l /\
  fst (sl_do pltb peqb 2 (LPop 4) ex_c) = RVal (3, 3) /\
  fst (sl_do pltb peqb 2 (LPop (-10)) ex_c) = RExn IndexError.
Proof.
  split; [exact pair_total|]. split; [lia|]. split; [exact ex_reach|]. split; [exact ex_shows|].
  repeat match goal with |- _ /\ _ => split end; vm_compute; reflexivity.
Qed.

(** C11: bisect returns ranks. *)
Theorem C11_bisect : forall V (ltb eqb : V -> V -> bool) dflt c l v,
  TotalOrder ltb eqb -> 1 <= dflt -> sl_reach ltb eqb dflt c -> shows c l ->
  exists c1 c2,
    sl_do ltb eqb dflt (LBisectLeft v) c = (RNat (length (filter (fun x => ltb x v) l)), c1) /\ shows c1 l /\
    sl_do ltb eqb dflt (LBisectRight v) c = (RNat (length (filter (fun x => negb (ltb v x)) l)), c2) /\ shows c2 l.
Proof. exact c11_bisect. Qed.
Print Assumptions C11_bisect.

Example C11_case :
  TotalOrder pltb peqb /\ 1 <= 2 /\ sl_reach pltb peqb 2 ex_c /\ shows ex_c ex_l /\
  fst (sl_do pltb peqb 2 (LBisectLeft (3, 0)) ex_c) = RNat 2 /\
  fst (sl_do pltb peqb 2 (LBisectRight (3, 0)) ex_c) = RNat 5.
Proof.
  split; [exact pair_total|]. split; [lia|]. split; [exact ex_reach|]. split; [exact ex_shows|].
  repeat match goal with |- _ /\ _ => split end; vm_compute; reflexivity.
Qed.

(** C12: count. *)
Theorem C12_count : forall V (ltb eqb : V -> V -> bool) dflt c l v,
  TotalOrder ltb eqb -> 1 <= dflt -> sl_reach ltb eqb dflt c -> shows c l ->
  exists c', sl_do ltb eqb dflt (LCount v) c = (RNat (length (filter (fun x => eqb x v) l)), c') /\ shows c' l.
Proof. exact c12_count. Qed.
Print Assumptions C12_count.

Example C12_case :
  TotalOrder pltb peqb /\ 1 <= 2 /\ sl_reach pltb peqb 2 ex_c /\ shows ex_c ex_l /\
  fst (sl_do pltb peqb 2 (LCount (3, 0)) ex_c) = RNat 3.
Proof.
  split; [exact pair_total|]. split; [lia|]. split; [exact ex_reach|]. split; [exact ex_shows|].
  repeat match goal with |- _ /\ _ => split end; vm_compute; reflexivity.
Qed.

(** C13: index within a window. *)
Theorem C13_index : forall V (ltb eqb : V -> V -> bool) dflt c l v start stop,
  TotalOrder ltb eqb -> 1 <= dflt -> sl_reach ltb eqb dflt c -> shows c l ->
  let n := Z.of_nat (length l) in
  let hit i := (win_start start n <= Z.of_nat i < win_stop stop n)%Z /\
               exists x, nth_error l i = Some x /\ eqb x v = true in
  exists r c', sl_do ltb eqb dflt (LIndex v start stop) c = (r, c') /\ shows c' l /\
    ((exists i, r = RNat i /\ hit i /\ forall j, j < i -> ~ hit j) \/
     (r = RExn ValueError /\ forall j, ~ hit j)).
Proof. exact c13_index. Qed.
Print Assumptions C13_index.

Example C13_case :
  TotalOrder pltb peqb /\ 1 <= 2 /\ sl_reach pltb peqb 2 ex_c /\ shows ex_c ex_l /\
  fst (sl_do pltb peqb 2 (LIndex (3, 0) (Some 3%Z) (Some (-1)%Z)) ex_c) = RNat 3 /\
  fst (sl_do pltb peqb 2 (LIndex (3, 0) (Some 5%Z) None) ex_c) = RExn ValueError.
Proof.
  split; [exact pair_total|]. split; [lia|]. split; [exact ex_reach|]. split; [exact ex_shows|].
  repeat match goal with |- _ /\ _ => split end; vm_compute; reflexivity.
Qed.

(** C14: irange. *)
Theorem C14_irange : forall V (ltb eqb : V -> V -> bool) dflt c l (mn mx : option V) (imin imax reverse : bool),
  TotalOrder ltb eqb -> 1 <= dflt -> sl_reach ltb eqb dflt c -> shows c l ->
  let above (x : V) := match mn with None => true | Some m => if imin then negb (ltb x m) else ltb m x end in
  let below (x : V) := match mx with None => true | Some m => if imax then negb (ltb m x) else ltb x m end in
  let r := filter (fun x => above x && below x) l in
  exists c', sl_do ltb eqb dflt (LIRange mn mx imin imax reverse) c
               = (RList (if reverse then rev r else r), c') /\ shows c' l.
Proof. exact c14_irange. Qed.
Print Assumptions C14_irange.

Example C14_case :
  TotalOrder pltb peqb /\ 1 <= 2 /\ sl_reach pltb peqb 2 ex_c /\ shows ex_c ex_l /\
  fst (sl_do pltb peqb 2 (LIRange (Some (3, 0)) (Some (9, 0)) true false true) ex_c)
    = RList [(8, 1); (8, 0); (5, 0); (3, 3); (3, 2); (3, 1)].
Proof.
  split; [exact pair_total|]. split; [lia|]. split; [exact ex_reach|]. split; [exact ex_shows|].
  repeat match goal with |- _ /\ _ => split end; vm_compute; reflexivity.
Qed.

(** C15: islice. *)
Theorem C15_islice : forall V (ltb eqb : V -> V -> bool) dflt c l a b reverse,
  TotalOrder ltb eqb -> 1 <= dflt -> sl_reach ltb eqb dflt c -> shows c l ->
  exists x c', sl_do ltb eqb dflt (LISlice a b reverse) c = (RList (if reverse then rev x else x), c') /\
    shows c' l /\ slice_is (mkslice a b None) l x.
Proof. exact c15_islice. Qed.
Print Assumptions C15_islice.

Example C15_case :
  TotalOrder pltb peqb /\ 1 <= 2 /\ sl_reach pltb peqb 2 ex_c /\ shows ex_c ex_l /\
  fst (sl_do pltb peqb 2 (LISlice (Some 1%Z) (Some (-2)%Z) true) ex_c)
    = RList [(8, 0); (5, 0); (3, 3); (3, 2); (3, 1); (1, 1)].
Proof.
  split; [exact pair_total|]. split; [lia|]. split; [exact ex_reach|]. split; [exact ex_shows|].
  repeat match goal with |- _ /\ _ => split end; vm_compute; reflexivity.
Qed.

(** C16: len, iteration and reversed iteration agree. *)
Theorem C16_len_iter_reversed : forall V (ltb eqb : V -> V -> bool) dflt c,
  TotalOrder ltb eqb -> 1 <= dflt -> sl_reach ltb eqb dflt c ->
  exists l, iter c = (Ok l, c) /\ length_of c = (Ok (length l), c) /\ reversed c = (Ok (rev l), c).
Proof. exact c16_len_iter. Qed.
Print Assumptions C16_len_iter_reversed.

Example C16_case : sl_reach pltb peqb 2 ex_c /\ iter ex_c = (Ok ex_l, ex_c) /\ length_of ex_c = (Ok 9, ex_c).
Proof. split; [exact ex_reach|]. split; vm_compute; reflexivity. Qed.

(** C17: the self check passes after every history with load factors of at least 4. *)
Theorem C17_check : forall V (ltb eqb : V -> V -> bool) dflt ops,
  TotalOrder ltb eqb -> 4 <= dflt -> Forall (loads_from 4) ops ->
  sl_check (total2 ltb) (total2 eqb) (snd (sl_run (total2 ltb) (total2 eqb) dflt ops (sl_init dflt))) = Ok tt.
Proof. exact c17_check. Qed.
Print Assumptions C17_check.

Example C17_case : Forall (loads_from 4) (ex_ops ++ [LReset 4]) /\
  length (lists (snd (sl_run (total2 pltb) (total2 peqb) 4 (ex_ops ++ [LReset 4]) (sl_init 4)))) = 3.
Proof. split; [repeat constructor|vm_compute; reflexivity]. Qed.

(** C18: neither the load factor nor its changes can be observed. *)
Theorem C18_load_unobservable : forall V (ltb eqb : V -> V -> bool) d1 d2 ops1 ops2,
  TotalOrder ltb eqb -> 1 <= d1 -> 1 <= d2 -> Forall lop_ok ops1 -> Forall lop_ok ops2 ->
  no_resets ops1 = no_resets ops2 ->
  exists l rs1 c1 rs2 c2,
    sl_run (total2 ltb) (total2 eqb) d1 ops1 (sl_init d1) = (rs1, c1) /\
    sl_run (total2 ltb) (total2 eqb) d2 ops2 (sl_init d2) = (rs2, c2) /\
    outs_no_resets ops1 rs1 = outs_no_resets ops2 rs2 /\ shows c1 l /\ shows c2 l.
Proof. exact c18_load_unobservable. Qed.
Print Assumptions C18_load_unobservable.

Example C18_case :
  no_resets (LReset 1 :: ex_ops ++ [LReset 3]) = no_resets ex_ops /\
  lists (snd (sl_run (total2 pltb) (total2 peqb) 1 (LReset 1 :: ex_ops) (sl_init 1))) <> lists ex_c.
Proof. split; [vm_compute; reflexivity|vm_compute; discriminate]. Qed.

(** C19: queries do not change the contents. *)
Theorem C19_queries : forall V (ltb eqb : V -> V -> bool) dflt c l o,
  TotalOrder ltb eqb -> 1 <= dflt -> sl_reach ltb eqb dflt c -> shows c l -> query o ->
  exists r c', sl_do ltb eqb dflt o c = (r, c') /\ sl_reach ltb eqb dflt c' /\ shows c' l.
Proof. exact c19_queries. Qed.
Print Assumptions C19_queries.

Example C19_case : query (LGet (V:=pv) 3) /\ query (LCount (3, 1)) /\ sl_reach pltb peqb 2 ex_c.
Proof. repeat split. apply ex_reach. Qed.

(** C20: building a list from an iterable sorts it stably. *)
Theorem C20_construct : forall V (ltb eqb : V -> V -> bool) dflt it,
  TotalOrder ltb eqb -> 1 <= dflt ->
  exists c l, sl_new (total2 ltb) dflt it = Ok c /\ sl_reach ltb eqb dflt c /\ shows c l /\ stable_sort_of ltb it l.
Proof. exact c20_construct. Qed.
Print Assumptions C20_construct.

Example C20_construct_case : exists c, sl_new (total2 pltb) 2 [(3, 1); (1, 0); (3, 0); (2, 0); (0, 0)] = Ok c /\
  shows c [(0, 0); (1, 0); (2, 0); (3, 1); (3, 0)].
Proof. eexists. split; vm_compute; reflexivity. Qed.

(** C20: copies, concatenation and repetition. *)
Theorem C20_copy_plus_mul : forall V (ltb eqb : V -> V -> bool) dflt c l it n,
  TotalOrder ltb eqb -> 1 <= dflt -> sl_reach ltb eqb dflt c -> shows c l ->
  let lt := total2 ltb in
  (exists c', sl_copy lt dflt c = (Ok c', c) /\ sl_reach ltb eqb dflt c' /\ shows c' l) /\
  (exists c' l', sl_plus lt dflt it c = (Ok c', c) /\ sl_reach ltb eqb dflt c' /\ shows c' l' /\
     stable_sort_of ltb (l ++ it) l') /\
  (exists c' l', sl_mul lt dflt n c = (Ok c', c) /\ sl_reach ltb eqb dflt c' /\ shows c' l' /\
     stable_sort_of ltb (concat (repeat l (Z.to_nat n))) l') /\
  (exists c' l', sl_do ltb eqb dflt (LIAdd it) c = (RUnit, c') /\ sl_reach ltb eqb dflt c' /\ shows c' l' /\
     stable_sort_of ltb (l ++ it) l') /\
  (exists c' l', sl_do ltb eqb dflt (LIMul n) c = (RUnit, c') /\ sl_reach ltb eqb dflt c' /\ shows c' l' /\
     stable_sort_of ltb (concat (repeat l (Z.to_nat n))) l').
Proof. exact c20_copy_plus_mul. Qed.
Print Assumptions C20_copy_plus_mul.

Example C20_case :
  TotalOrder pltb peqb /\ 1 <= 2 /\ sl_reach pltb peqb 2 ex_c /\ shows ex_c ex_l /\
  shows (snd (sl_do pltb peqb 2 (LIMul 2) ex_c))
    [(1, 0); (1, 1); (1, 0); (1, 1); (3, 1); (3, 2); (3, 3); (3, 1); (3, 2); (3, 3); (5, 0); (5, 0);
     (8, 0); (8, 1); (8, 0); (8, 1); (9, 0); (9, 0)].
Proof.
  split; [exact pair_total|]. split; [lia|]. split; [exact ex_reach|]. split; [exact ex_shows|].
  repeat match goal with |- _ /\ _ => split end; vm_compute; reflexivity.
Qed.

(** C21: comparisons are lexicographic. *)
Theorem C21_compare : forall V (ltb eqb : V -> V -> bool) dflt c l op o,
  TotalOrder ltb eqb -> 1 <= dflt -> sl_reach ltb eqb dflt c -> shows c l ->
  exists b c', sl_do ltb eqb dflt (LCompare op o) c = (RBool b, c') /\ shows c' l /\
    (b = true <-> cmp_means ltb eqb op l o).
Proof. exact c21_compare. Qed.
Print Assumptions C21_compare.

Example C21_case :
  TotalOrder pltb peqb /\ 1 <= 2 /\ sl_reach pltb peqb 2 ex_c /\ shows ex_c ex_l /\
  fst (sl_do pltb peqb 2 (LCompare Clt [(1, 7); (1, 7); (4, 0)]) ex_c) = RBool true /\
  fst (sl_do pltb peqb 2 (LCompare Cge [(1, 7); (1, 7)]) ex_c) = RBool true.
Proof.
  split; [exact pair_total|]. split; [lia|]. split; [exact ex_reach|]. split; [exact ex_shows|].
  repeat match goal with |- _ /\ _ => split end; vm_compute; reflexivity.
Qed.

(** C22: the unsupported list mutators change nothing. *)
Theorem C22_unsupported : forall V (ltb eqb : V -> V -> bool) dflt c,
  sl_do ltb eqb dflt LUnsupported c = (RExn NotImplementedError, c).
Proof. exact c22_unsupported. Qed.
Print Assumptions C22_unsupported.

Example C22_case : sl_do pltb peqb 2 LUnsupported ex_c = (RExn NotImplementedError, ex_c).
Proof. reflexivity. Qed.

(** C25: a pickled and rebuilt list has the same contents. *)
Theorem C25_reduce : forall V (ltb eqb : V -> V -> bool) dflt c l,
  TotalOrder ltb eqb -> 1 <= dflt -> sl_reach ltb eqb dflt c -> shows c l ->
  exists c', sl_reduce (total2 ltb) dflt c = (Ok c', c) /\ sl_reach ltb eqb dflt c' /\ shows c' l.
Proof. exact c25_reduce. Qed.
Print Assumptions C25_reduce.

Example C25_case :
  TotalOrder pltb peqb /\ 1 <= 2 /\ sl_reach pltb peqb 2 ex_c /\ shows ex_c ex_l /\
  match fst (sl_reduce (total2 pltb) 2 ex_c) with Ok c => shows c ex_l | Err _ => False end.
Proof.
  split; [exact pair_total|]. split; [lia|]. split; [exact ex_reach|]. split; [exact ex_shows|].
  repeat match goal with |- _ /\ _ => split end; vm_compute; reflexivity.
Qed.

(** C54, SortedList: only documented exceptions escape. *)
Theorem C54_list_documented_exceptions : forall V (ltb eqb : V -> V -> bool) dflt c o,
  TotalOrder ltb eqb -> 1 <= dflt -> sl_reach ltb eqb dflt c -> lop_ok o ->
  forall e c', sl_do ltb eqb dflt o c = (RExn e, c') -> documented o e.
Proof. exact c54_list. Qed.
Print Assumptions C54_list_documented_exceptions.

Example C54_list_case : sl_reach pltb peqb 2 ex_c /\ fst (sl_do pltb peqb 2 (LRemove (4, 0)) ex_c) = RExn ValueError.
Proof. split; [apply ex_reach|vm_compute; reflexivity]. Qed.

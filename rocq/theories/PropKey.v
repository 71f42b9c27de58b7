(** * Properties of SortedKeyList *)
From Verif Require Import PyBase Model Spec History Reach FaultSpec Concrete ListProps FaultProps KeyProps KeyFaultProps.
From Coq Require Import Sorting.Permutation.

(** C26: every reachable SortedKeyList iterates in key order. *)
Theorem C26_sorted_by_key : forall V K (key : V -> K) (kltb keqb : K -> K -> bool) (vltb eqb : V -> V -> bool) dflt s,
  TotalOrder kltb keqb -> 1 <= dflt -> skl_reach key kltb keqb vltb eqb dflt s ->
  exists l, kshows s l /\ sorted kltb (map key l).
Proof. exact c26_sorted. Qed.
Print Assumptions C26_sorted_by_key.

Example C26_case : skl_reach (@fst nat nat) Nat.ltb Nat.eqb pltb pairb 2 kex_s /\ kshows kex_s kex_l.
Proof. exact (conj kex_reach kex_shows). Qed.

(** C26: among values with the same key, an operation keeps the order of those that were there
    and puts new ones after them. *)
Theorem C26_ties_in_insertion_order : forall V K (key : V -> K) (kltb keqb : K -> K -> bool) (vltb eqb : V -> V -> bool) dflt s l o,
  TotalOrder kltb keqb -> 1 <= dflt -> skl_reach key kltb keqb vltb eqb dflt s -> kshows s l -> kop_ok o ->
  exists r s' l', skl_do key kltb keqb vltb eqb dflt o s = (r, s') /\ skl_reach key kltb keqb vltb eqb dflt s' /\
    kshows s' l' /\
    forall k, subseq (filter (fun x => keqb (key x) k) l') (filter (fun x => keqb (key x) k) (after_adding o l)).
Proof. exact c26_ties. Qed.
Print Assumptions C26_ties_in_insertion_order.

Example C26_ties_case :
  TotalOrder Nat.ltb Nat.eqb /\ EqCompat (by_key (@fst nat nat) Nat.ltb) pairb /\ 1 <= 2 /\
  skl_reach (@fst nat nat) Nat.ltb Nat.eqb pltb pairb 2 kex_s /\ kshows kex_s kex_l /\
  kshows (snd (skl_do (@fst nat nat) Nat.ltb Nat.eqb pltb pairb 2 (KList (LUpdate [(3, 8); (0, 0); (3, 7)])) kex_s))
    [(0, 0); (1, 1); (1, 0); (3, 1); (3, 2); (3, 0); (3, 5); (3, 4); (3, 3); (3, 8); (3, 7); (9, 0)].
Proof.
  split; [exact nat_total|]. split; [exact pairb_compat|]. split; [lia|]. split; [exact kex_reach|].
  split; [exact kex_shows|].
  repeat match goal with |- _ /\ _ => split end; vm_compute; reflexivity.
Qed.

(** C27: whole histories agree with the reference list kept stably sorted by key. *)
Theorem C27_refines_reference : forall V K (key : V -> K) (kltb keqb : K -> K -> bool) (vltb eqb : V -> V -> bool) dflt ops,
  TotalOrder kltb keqb -> EqCompat (by_key key kltb) eqb -> 1 <= dflt ->
  Forall kop_ok ops -> Forall (comparable vltb eqb) ops ->
  exists s, skl_run (total2 vltb) (total2 eqb) (total2 kltb) (total2 keqb) (total1 key) dflt ops (skl_init dflt)
              = (fst (sp_krun eqb vltb key kltb ops []), s) /\
            kshows s (snd (sp_krun eqb vltb key kltb ops [])).
Proof. exact c27_refines. Qed.
Print Assumptions C27_refines_reference.

Example C27_case : Forall kop_ok kex_ops /\ Forall (comparable pltb pairb) kex_ops.
Proof. split; repeat constructor. Qed.

(** C27: integer indexing. *)
Theorem C27_getitem : forall V K (key : V -> K) (kltb keqb : K -> K -> bool) (vltb eqb : V -> V -> bool) dflt s l i,
  TotalOrder kltb keqb -> EqCompat (by_key key kltb) eqb -> 1 <= dflt ->
  skl_reach key kltb keqb vltb eqb dflt s -> kshows s l ->
  exists r s', skl_do key kltb keqb vltb eqb dflt (KList (LGet i)) s = (r, s') /\ kshows s' l /\
    ((0 <= i < Z.of_nat (length l))%Z -> exists v, nth_error l (Z.to_nat i) = Some v /\ r = RVal v) /\
    ((- Z.of_nat (length l) <= i < 0)%Z ->
       exists v, nth_error l (Z.to_nat (i + Z.of_nat (length l))) = Some v /\ r = RVal v) /\
    ((i < - Z.of_nat (length l) \/ Z.of_nat (length l) <= i)%Z -> r = RExn IndexError).
Proof. exact c27_getitem. Qed.
Print Assumptions C27_getitem.

Example C27_getitem_case :
  TotalOrder Nat.ltb Nat.eqb /\ EqCompat (by_key (@fst nat nat) Nat.ltb) pairb /\ 1 <= 2 /\
  skl_reach (@fst nat nat) Nat.ltb Nat.eqb pltb pairb 2 kex_s /\ kshows kex_s kex_l /\
  fst (skl_do (@fst nat nat) Nat.ltb Nat.eqb pltb pairb 2 (KList (LGet 7)) kex_s) = RVal (3, 3).
Proof.
  split; [exact nat_total|]. split; [exact pairb_compat|]. split; [lia|]. split; [exact kex_reach|].
  split; [exact kex_shows|].
  repeat match goal with |- _ /\ _ => split end; vm_compute; reflexivity.
Qed.

(** C27: slicing. *)
Theorem C27_slice : forall V K (key : V -> K) (kltb keqb : K -> K -> bool) (vltb eqb : V -> V -> bool) dflt s l sl,
  TotalOrder kltb keqb -> EqCompat (by_key key kltb) eqb -> 1 <= dflt ->
  skl_reach key kltb keqb vltb eqb dflt s -> kshows s l ->
  exists r s', skl_do key kltb keqb vltb eqb dflt (KList (LSlice sl)) s = (r, s') /\ kshows s' l /\
    ((s_step sl = Some 0%Z /\ r = RExn ValueError) \/
     (s_step sl <> Some 0%Z /\ exists x, r = RList x /\ slice_is sl l x)).
Proof. exact c27_slice. Qed.
Print Assumptions C27_slice.

Example C27_slice_case :
  TotalOrder Nat.ltb Nat.eqb /\ EqCompat (by_key (@fst nat nat) Nat.ltb) pairb /\ 1 <= 2 /\
  skl_reach (@fst nat nat) Nat.ltb Nat.eqb pltb pairb 2 kex_s /\ kshows kex_s kex_l /\
  fst (skl_do (@fst nat nat) Nat.ltb Nat.eqb pltb pairb 2 (KList (LSlice (mkslice None None (Some (-4)%Z)))) kex_s) = RList [(9, 0); (3, 0); (1, 1)].
Proof.
  split; [exact nat_total|]. split; [exact pairb_compat|]. split; [lia|]. split; [exact kex_reach|].
  split; [exact kex_shows|].
  repeat match goal with |- _ /\ _ => split end; vm_compute; reflexivity.
Qed.

(** C27: deletion by index. *)
Theorem C27_delete : forall V K (key : V -> K) (kltb keqb : K -> K -> bool) (vltb eqb : V -> V -> bool) dflt s l i,
  TotalOrder kltb keqb -> EqCompat (by_key key kltb) eqb -> 1 <= dflt ->
  skl_reach key kltb keqb vltb eqb dflt s -> kshows s l ->
  exists r s', skl_do key kltb keqb vltb eqb dflt (KList (LDel i)) s = (r, s') /\ skl_reach key kltb keqb vltb eqb dflt s' /\
    ((exists a x b, l = a ++ x :: b /\
        (Z.of_nat (length a) = i \/ Z.of_nat (length a) = i + Z.of_nat (length l))%Z /\
        r = RUnit /\ kshows s' (a ++ b)) \/
     ((i < - Z.of_nat (length l) \/ Z.of_nat (length l) <= i)%Z /\ r = RExn IndexError /\ kshows s' l)).
Proof. exact c27_delete. Qed.
Print Assumptions C27_delete.

Example C27_delete_case :
  TotalOrder Nat.ltb Nat.eqb /\ EqCompat (by_key (@fst nat nat) Nat.ltb) pairb /\ 1 <= 2 /\
  skl_reach (@fst nat nat) Nat.ltb Nat.eqb pltb pairb 2 kex_s /\ kshows kex_s kex_l /\
  kshows (snd (skl_do (@fst nat nat) Nat.ltb Nat.eqb pltb pairb 2 (KList (LDel 4)) kex_s))
    [(1, 1); (1, 0); (3, 1); (3, 2); (3, 5); (3, 4); (3, 3); (9, 0)].
Proof.
  split; [exact nat_total|]. split; [exact pairb_compat|]. split; [lia|]. split; [exact kex_reach|].
  split; [exact kex_shows|].
  repeat match goal with |- _ /\ _ => split end; vm_compute; reflexivity.
Qed.

(** C27: deletion by slice. *)
Theorem C27_delete_slice : forall V K (key : V -> K) (kltb keqb : K -> K -> bool) (vltb eqb : V -> V -> bool) dflt s l sl,
  TotalOrder kltb keqb -> EqCompat (by_key key kltb) eqb -> 1 <= dflt ->
  skl_reach key kltb keqb vltb eqb dflt s -> kshows s l ->
  exists r s', skl_do key kltb keqb vltb eqb dflt (KList (LDelSlice sl)) s = (r, s') /\ skl_reach key kltb keqb vltb eqb dflt s' /\
    ((s_step sl = Some 0%Z /\ r = RExn ValueError /\ kshows s' l) \/
     (s_step sl <> Some 0%Z /\ exists l', r = RUnit /\ kshows s' l' /\ slice_deleted sl l l')).
Proof. exact c27_delete_slice. Qed.
Print Assumptions C27_delete_slice.

Example C27_delete_slice_case :
  TotalOrder Nat.ltb Nat.eqb /\ EqCompat (by_key (@fst nat nat) Nat.ltb) pairb /\ 1 <= 2 /\
  skl_reach (@fst nat nat) Nat.ltb Nat.eqb pltb pairb 2 kex_s /\ kshows kex_s kex_l /\
  kshows (snd (skl_do (@fst nat nat) Nat.ltb Nat.eqb pltb pairb 2 (KList (LDelSlice (mkslice (Some 1%Z) (Some 8%Z) None))) kex_s))
    [(1, 1); (9, 0)].
Proof.
  split; [exact nat_total|]. split; [exact pairb_compat|]. split; [lia|]. split; [exact kex_reach|].
  split; [exact kex_shows|].
  repeat match goal with |- _ /\ _ => split end; vm_compute; reflexivity.
Qed.

(** C27: pop. *)
Theorem C27_pop : forall V K (key : V -> K) (kltb keqb : K -> K -> bool) (vltb eqb : V -> V -> bool) dflt s l i,
  TotalOrder kltb keqb -> EqCompat (by_key key kltb) eqb -> 1 <= dflt ->
  skl_reach key kltb keqb vltb eqb dflt s -> kshows s l ->
  exists r s', skl_do key kltb keqb vltb eqb dflt (KList (LPop i)) s = (r, s') /\ skl_reach key kltb keqb vltb eqb dflt s' /\
    ((exists a x b, l = a ++ x :: b /\
        (Z.of_nat (length a) = i \/ Z.of_nat (length a) = i + Z.of_nat (length l))%Z /\
        r = RVal x /\ kshows s' (a ++ b)) \/
     ((i < - Z.of_nat (length l) \/ Z.of_nat (length l) <= i)%Z /\ r = RExn IndexError /\ kshows s' l)).
Proof. exact c27_pop. Qed.
Print Assumptions C27_pop.

Example C27_pop_case :
  TotalOrder Nat.ltb Nat.eqb /\ EqCompat (by_key (@fst nat nat) Nat.ltb) pairb /\ 1 <= 2 /\
  skl_reach (@fst nat nat) Nat.ltb Nat.eqb pltb pairb 2 kex_s /\ kshows kex_s kex_l /\
  fst (skl_do (@fst nat nat) Nat.ltb Nat.eqb pltb pairb 2 (KList (LPop (-2))) kex_s) = RVal (3, 3).
Proof.
  split; [exact nat_total|]. split; [exact pairb_compat|]. split; [lia|]. split; [exact kex_reach|].
  split; [exact kex_shows|].
  repeat match goal with |- _ /\ _ => split end; vm_compute; reflexivity.
Qed.

(** C27: islice. *)
Theorem C27_islice : forall V K (key : V -> K) (kltb keqb : K -> K -> bool) (vltb eqb : V -> V -> bool) dflt s l a b reverse,
  TotalOrder kltb keqb -> EqCompat (by_key key kltb) eqb -> 1 <= dflt ->
  skl_reach key kltb keqb vltb eqb dflt s -> kshows s l ->
  exists x s', skl_do key kltb keqb vltb eqb dflt (KList (LISlice a b reverse)) s = (RList (if reverse then rev x else x), s') /\
    kshows s' l /\ slice_is (mkslice a b None) l x.
Proof. exact c27_islice. Qed.
Print Assumptions C27_islice.

Example C27_islice_case :
  TotalOrder Nat.ltb Nat.eqb /\ EqCompat (by_key (@fst nat nat) Nat.ltb) pairb /\ 1 <= 2 /\
  skl_reach (@fst nat nat) Nat.ltb Nat.eqb pltb pairb 2 kex_s /\ kshows kex_s kex_l /\
  fst (skl_do (@fst nat nat) Nat.ltb Nat.eqb pltb pairb 2 (KList (LISlice (Some 6%Z) None true)) kex_s) = RList [(9, 0); (3, 3); (3, 4)].
Proof.
  split; [exact nat_total|]. split; [exact pairb_compat|]. split; [lia|]. split; [exact kex_reach|].
  split; [exact kex_shows|].
  repeat match goal with |- _ /\ _ => split end; vm_compute; reflexivity.
Qed.

(** C27: bisect by value. *)
Theorem C27_bisect : forall V K (key : V -> K) (kltb keqb : K -> K -> bool) (vltb eqb : V -> V -> bool) dflt s l v,
  TotalOrder kltb keqb -> EqCompat (by_key key kltb) eqb -> 1 <= dflt ->
  skl_reach key kltb keqb vltb eqb dflt s -> kshows s l ->
  exists s1 s2,
    skl_do key kltb keqb vltb eqb dflt (KList (LBisectLeft v)) s = (RNat (length (filter (fun x => kltb (key x) (key v)) l)), s1) /\ kshows s1 l /\
    skl_do key kltb keqb vltb eqb dflt (KList (LBisectRight v)) s = (RNat (length (filter (fun x => negb (kltb (key v) (key x))) l)), s2) /\ kshows s2 l.
Proof. exact c27_bisect. Qed.
Print Assumptions C27_bisect.

Example C27_bisect_case :
  TotalOrder Nat.ltb Nat.eqb /\ EqCompat (by_key (@fst nat nat) Nat.ltb) pairb /\ 1 <= 2 /\
  skl_reach (@fst nat nat) Nat.ltb Nat.eqb pltb pairb 2 kex_s /\ kshows kex_s kex_l /\
  fst (skl_do (@fst nat nat) Nat.ltb Nat.eqb pltb pairb 2 (KList (LBisectLeft (3, 77))) kex_s) = RNat 2 /\
  fst (skl_do (@fst nat nat) Nat.ltb Nat.eqb pltb pairb 2 (KList (LBisectRight (3, 77))) kex_s) = RNat 8.
Proof.
  split; [exact nat_total|]. split; [exact pairb_compat|]. split; [lia|]. split; [exact kex_reach|].
  split; [exact kex_shows|].
  repeat match goal with |- _ /\ _ => split end; vm_compute; reflexivity.
Qed.

(** C27: irange by value. *)
Theorem C27_irange : forall V K (key : V -> K) (kltb keqb : K -> K -> bool) (vltb eqb : V -> V -> bool) dflt s l (mn mx : option V) (imin imax reverse : bool),
  TotalOrder kltb keqb -> EqCompat (by_key key kltb) eqb -> 1 <= dflt ->
  skl_reach key kltb keqb vltb eqb dflt s -> kshows s l ->
  let above (x : V) := match mn with None => true | Some m => if imin then negb (kltb (key x) (key m)) else kltb (key m) (key x) end in
  let below (x : V) := match mx with None => true | Some m => if imax then negb (kltb (key m) (key x)) else kltb (key x) (key m) end in
  let r := filter (fun x => above x && below x) l in
  exists s', skl_do key kltb keqb vltb eqb dflt (KList (LIRange mn mx imin imax reverse)) s
               = (RList (if reverse then rev r else r), s') /\ kshows s' l.
Proof. exact c27_irange. Qed.
Print Assumptions C27_irange.

Example C27_irange_case :
  TotalOrder Nat.ltb Nat.eqb /\ EqCompat (by_key (@fst nat nat) Nat.ltb) pairb /\ 1 <= 2 /\
  skl_reach (@fst nat nat) Nat.ltb Nat.eqb pltb pairb 2 kex_s /\ kshows kex_s kex_l /\
  fst (skl_do (@fst nat nat) Nat.ltb Nat.eqb pltb pairb 2 (KList (LIRange (Some (1, 9)) (Some (3, 9)) false true false)) kex_s) = RList [(3, 1); (3, 2); (3, 0); (3, 5); (3, 4); (3, 3)].
Proof.
  split; [exact nat_total|]. split; [exact pairb_compat|]. split; [lia|]. split; [exact kex_reach|].
  split; [exact kex_shows|].
  repeat match goal with |- _ /\ _ => split end; vm_compute; reflexivity.
Qed.

(** C27: comparisons with sequences. *)
Theorem C27_compare : forall V K (key : V -> K) (kltb keqb : K -> K -> bool) (vltb eqb : V -> V -> bool) dflt s l op o,
  TotalOrder kltb keqb -> EqCompat (by_key key kltb) eqb -> 1 <= dflt ->
  skl_reach key kltb keqb vltb eqb dflt s -> kshows s l -> comparable vltb eqb (KList (K:=K) (LCompare op o)) ->
  exists b s', skl_do key kltb keqb vltb eqb dflt (KList (LCompare op o)) s = (RBool b, s') /\ kshows s' l /\
    (b = true <-> cmp_means vltb eqb op l o).
Proof. exact c27_compare. Qed.
Print Assumptions C27_compare.

Example C27_compare_case :
  TotalOrder Nat.ltb Nat.eqb /\ EqCompat (by_key (@fst nat nat) Nat.ltb) pairb /\ 1 <= 2 /\
  skl_reach (@fst nat nat) Nat.ltb Nat.eqb pltb pairb 2 kex_s /\ kshows kex_s kex_l /\
  comparable pltb pairb (KList (K:=nat) (LCompare Ceq kex_l)) /\
  fst (skl_do (@fst nat nat) Nat.ltb Nat.eqb pltb pairb 2 (KList (LCompare Ceq kex_l)) kex_s) = RBool true.
Proof.
  split; [exact nat_total|]. split; [exact pairb_compat|]. split; [lia|]. split; [exact kex_reach|].
  split; [exact kex_shows|].
  repeat match goal with |- _ /\ _ => split end; first [exact I|vm_compute; reflexivity].
Qed.

(** C27: queries do not change the contents. *)
Theorem C27_queries : forall V K (key : V -> K) (kltb keqb : K -> K -> bool) (vltb eqb : V -> V -> bool) dflt s l o,
  TotalOrder kltb keqb -> EqCompat (by_key key kltb) eqb -> 1 <= dflt ->
  skl_reach key kltb keqb vltb eqb dflt s -> kshows s l ->
  match o with KList o => query o | _ => True end ->
  exists r s', skl_do key kltb keqb vltb eqb dflt o s = (r, s') /\ skl_reach key kltb keqb vltb eqb dflt s' /\ kshows s' l.
Proof. exact c27_queries. Qed.
Print Assumptions C27_queries.

Example C27_queries_case : skl_reach (@fst nat nat) Nat.ltb Nat.eqb pltb pairb 2 kex_s /\ query (LCount (3, 3)).
Proof. exact (conj kex_reach I). Qed.

(** C27: len, iteration and reversed iteration agree. *)
Theorem C27_len_iter_reversed : forall V K (key : V -> K) (kltb keqb : K -> K -> bool) (vltb eqb : V -> V -> bool) dflt s,
  TotalOrder kltb keqb -> 1 <= dflt -> skl_reach key kltb keqb vltb eqb dflt s ->
  exists l, iter (kc s) = (Ok l, kc s) /\ length_of (kc s) = (Ok (length l), kc s) /\ reversed (kc s) = (Ok (rev l), kc s).
Proof. exact c27_len_iter. Qed.
Print Assumptions C27_len_iter_reversed.

Example C27_len_case : skl_reach (@fst nat nat) Nat.ltb Nat.eqb pltb pairb 2 kex_s /\ length_of (kc kex_s) = (Ok 9, kc kex_s).
Proof. split; [exact kex_reach|vm_compute; reflexivity]. Qed.

(** C28: membership looks through the whole run of equal keys. *)
Theorem C28_contains : forall V K (key : V -> K) (kltb keqb : K -> K -> bool) (vltb eqb : V -> V -> bool) dflt s l v,
  TotalOrder kltb keqb -> EqCompat (by_key key kltb) eqb -> 1 <= dflt ->
  skl_reach key kltb keqb vltb eqb dflt s -> kshows s l ->
  exists b s', skl_do key kltb keqb vltb eqb dflt (KList (LContains v)) s = (RBool b, s') /\ kshows s' l /\
    (b = true <-> exists x, In x l /\ eqb x v = true).
Proof. exact c28_contains. Qed.
Print Assumptions C28_contains.

Example C28_contains_case :
  TotalOrder Nat.ltb Nat.eqb /\ EqCompat (by_key (@fst nat nat) Nat.ltb) pairb /\ 1 <= 2 /\
  skl_reach (@fst nat nat) Nat.ltb Nat.eqb pltb pairb 2 kex_s /\ kshows kex_s kex_l /\
  fst (skl_do (@fst nat nat) Nat.ltb Nat.eqb pltb pairb 2 (KList (LContains (3, 3))) kex_s) = RBool true /\
  fst (skl_do (@fst nat nat) Nat.ltb Nat.eqb pltb pairb 2 (KList (LContains (3, 9))) kex_s) = RBool false.
Proof.
  split; [exact nat_total|]. split; [exact pairb_compat|]. split; [lia|]. split; [exact kex_reach|].
  split; [exact kex_shows|].
  repeat match goal with |- _ /\ _ => split end; vm_compute; reflexivity.
Qed.

(** C28: count. *)
Theorem C28_count : forall V K (key : V -> K) (kltb keqb : K -> K -> bool) (vltb eqb : V -> V -> bool) dflt s l v,
  TotalOrder kltb keqb -> EqCompat (by_key key kltb) eqb -> 1 <= dflt ->
  skl_reach key kltb keqb vltb eqb dflt s -> kshows s l ->
  exists s', skl_do key kltb keqb vltb eqb dflt (KList (LCount v)) s = (RNat (length (filter (fun x => eqb x v) l)), s') /\ kshows s' l.
Proof. exact c28_count. Qed.
Print Assumptions C28_count.

Example C28_count_case :
  TotalOrder Nat.ltb Nat.eqb /\ EqCompat (by_key (@fst nat nat) Nat.ltb) pairb /\ 1 <= 2 /\
  skl_reach (@fst nat nat) Nat.ltb Nat.eqb pltb pairb 2 kex_s /\ kshows kex_s kex_l /\
  fst (skl_do (@fst nat nat) Nat.ltb Nat.eqb pltb pairb 2 (KList (LCount (3, 3))) kex_s) = RNat 1.
Proof.
  split; [exact nat_total|]. split; [exact pairb_compat|]. split; [lia|]. split; [exact kex_reach|].
  split; [exact kex_shows|].
  repeat match goal with |- _ /\ _ => split end; vm_compute; reflexivity.
Qed.

(** C28: index. *)
Theorem C28_index : forall V K (key : V -> K) (kltb keqb : K -> K -> bool) (vltb eqb : V -> V -> bool) dflt s l v start stop,
  TotalOrder kltb keqb -> EqCompat (by_key key kltb) eqb -> 1 <= dflt ->
  skl_reach key kltb keqb vltb eqb dflt s -> kshows s l ->
  let n := Z.of_nat (length l) in
  let hit i := (win_start start n <= Z.of_nat i < win_stop stop n)%Z /\
               exists x, nth_error l i = Some x /\ eqb x v = true in
  exists r s', skl_do key kltb keqb vltb eqb dflt (KList (LIndex v start stop)) s = (r, s') /\ kshows s' l /\
    ((exists i, r = RNat i /\ hit i /\ forall j, j < i -> ~ hit j) \/
     (r = RExn ValueError /\ forall j, ~ hit j)).
Proof. exact c28_index. Qed.
Print Assumptions C28_index.

Example C28_index_case :
  TotalOrder Nat.ltb Nat.eqb /\ EqCompat (by_key (@fst nat nat) Nat.ltb) pairb /\ 1 <= 2 /\
  skl_reach (@fst nat nat) Nat.ltb Nat.eqb pltb pairb 2 kex_s /\ kshows kex_s kex_l /\
  fst (skl_do (@fst nat nat) Nat.ltb Nat.eqb pltb pairb 2 (KList (LIndex (3, 4) (Some 2%Z) None)) kex_s) = RNat 6.
Proof.
  split; [exact nat_total|]. split; [exact pairb_compat|]. split; [lia|]. split; [exact kex_reach|].
  split; [exact kex_shows|].
  repeat match goal with |- _ /\ _ => split end; vm_compute; reflexivity.
Qed.

(** C28: discard and remove delete the first equal value only. *)
Theorem C28_discard_remove : forall V K (key : V -> K) (kltb keqb : K -> K -> bool) (vltb eqb : V -> V -> bool) dflt s l v,
  TotalOrder kltb keqb -> EqCompat (by_key key kltb) eqb -> 1 <= dflt ->
  skl_reach key kltb keqb vltb eqb dflt s -> kshows s l ->
  exists sd sr rr, skl_do key kltb keqb vltb eqb dflt (KList (LDiscard v)) s = (RUnit, sd) /\
    skl_do key kltb keqb vltb eqb dflt (KList (LRemove v)) s = (rr, sr) /\
    ((exists a x b, l = a ++ x :: b /\ eqb x v = true /\ (forall y, In y a -> eqb y v = false) /\
        rr = RUnit /\ kshows sd (a ++ b) /\ kshows sr (a ++ b)) \/
     ((forall y, In y l -> eqb y v = false) /\
        rr = RExn ValueError /\ kshows sd l /\ kshows sr l)).
Proof. exact c28_discard_remove. Qed.
Print Assumptions C28_discard_remove.

Example C28_discard_case :
  TotalOrder Nat.ltb Nat.eqb /\ EqCompat (by_key (@fst nat nat) Nat.ltb) pairb /\ 1 <= 2 /\
  skl_reach (@fst nat nat) Nat.ltb Nat.eqb pltb pairb 2 kex_s /\ kshows kex_s kex_l /\
  kshows (snd (skl_do (@fst nat nat) Nat.ltb Nat.eqb pltb pairb 2 (KList (LRemove (3, 5))) kex_s))
    [(1, 1); (1, 0); (3, 1); (3, 2); (3, 0); (3, 4); (3, 3); (9, 0)].
Proof.
  split; [exact nat_total|]. split; [exact pairb_compat|]. split; [lia|]. split; [exact kex_reach|].
  split; [exact kex_shows|].
  repeat match goal with |- _ /\ _ => split end; vm_compute; reflexivity.
Qed.

(** C29: ranks by key. *)
Theorem C29_bisect_key : forall V K (key : V -> K) (kltb keqb : K -> K -> bool) (vltb eqb : V -> V -> bool) dflt s l k,
  TotalOrder kltb keqb -> EqCompat (by_key key kltb) eqb -> 1 <= dflt ->
  skl_reach key kltb keqb vltb eqb dflt s -> kshows s l ->
  exists s1 s2,
    skl_do key kltb keqb vltb eqb dflt (KBisectLeft k) s = (RNat (length (filter (fun x => kltb (key x) k) l)), s1) /\
    kshows s1 l /\
    skl_do key kltb keqb vltb eqb dflt (KBisectRight k) s = (RNat (length (filter (fun x => negb (kltb k (key x))) l)), s2) /\
    kshows s2 l.
Proof. exact c29_bisect_key. Qed.
Print Assumptions C29_bisect_key.

Example C29_bisect_case :
  TotalOrder Nat.ltb Nat.eqb /\ EqCompat (by_key (@fst nat nat) Nat.ltb) pairb /\ 1 <= 2 /\
  skl_reach (@fst nat nat) Nat.ltb Nat.eqb pltb pairb 2 kex_s /\ kshows kex_s kex_l /\
  fst (skl_do (@fst nat nat) Nat.ltb Nat.eqb pltb pairb 2 (KBisectLeft 3) kex_s) = RNat 2 /\
  fst (skl_do (@fst nat nat) Nat.ltb Nat.eqb pltb pairb 2 (KBisectRight 3) kex_s) = RNat 8.
Proof.
  split; [exact nat_total|]. split; [exact pairb_compat|]. split; [lia|]. split; [exact kex_reach|].
  split; [exact kex_shows|].
  repeat match goal with |- _ /\ _ => split end; vm_compute; reflexivity.
Qed.

(** C29: ranges by key. *)
Theorem C29_irange_key : forall V K (key : V -> K) (kltb keqb : K -> K -> bool) (vltb eqb : V -> V -> bool) dflt s l
    (mn mx : option K) (imin imax reverse : bool),
  TotalOrder kltb keqb -> EqCompat (by_key key kltb) eqb -> 1 <= dflt ->
  skl_reach key kltb keqb vltb eqb dflt s -> kshows s l ->
  let above (k : K) := match mn with None => true | Some m => if imin then negb (kltb k m) else kltb m k end in
  let below (k : K) := match mx with None => true | Some m => if imax then negb (kltb m k) else kltb k m end in
  let r := filter (fun x => above (key x) && below (key x)) l in
  exists s', skl_do key kltb keqb vltb eqb dflt (KIRange mn mx imin imax reverse) s
               = (RList (if reverse then rev r else r), s') /\ kshows s' l.
Proof. exact c29_irange_key. Qed.
Print Assumptions C29_irange_key.

Example C29_irange_case :
  TotalOrder Nat.ltb Nat.eqb /\ EqCompat (by_key (@fst nat nat) Nat.ltb) pairb /\ 1 <= 2 /\
  skl_reach (@fst nat nat) Nat.ltb Nat.eqb pltb pairb 2 kex_s /\ kshows kex_s kex_l /\
  fst (skl_do (@fst nat nat) Nat.ltb Nat.eqb pltb pairb 2 (KIRange (Some 2) (Some 9) true false true) kex_s) = RList [(3, 3); (3, 4); (3, 5); (3, 0); (3, 2); (3, 1)].
Proof.
  split; [exact nat_total|]. split; [exact pairb_compat|]. split; [lia|]. split; [exact kex_reach|].
  split; [exact kex_shows|].
  repeat match goal with |- _ /\ _ => split end; vm_compute; reflexivity.
Qed.

(** C30 for every form except [n * skl]: copy(), [skl + other], [other + skl] (the same method),
    [skl * n], [+=] and [*=] keep the key function.  Missing: [n * skl], for which the property
    is false, see [C30_rmul_refuted]. *)
Theorem C30_copy_plus_mul_partial : forall V K (key : V -> K) (kltb keqb : K -> K -> bool) (vltb eqb : V -> V -> bool) dflt s l it n,
  TotalOrder kltb keqb -> 1 <= dflt -> skl_reach key kltb keqb vltb eqb dflt s -> kshows s l ->
  let klt := total2 kltb in
  let kf := total1 key in
  let ltb := by_key key kltb in
  let reach := skl_reach key kltb keqb vltb eqb dflt in
  (exists s', skl_copy klt kf dflt s = (Ok s', s) /\ reach s' /\ kshows s' l) /\
  (exists s' l', skl_plus klt kf dflt it s = (Ok s', s) /\ reach s' /\ kshows s' l' /\ stable_sort_of ltb (l ++ it) l') /\
  (exists s' l', skl_mul klt kf dflt n s = (Ok s', s) /\ reach s' /\ kshows s' l' /\
     stable_sort_of ltb (concat (repeat l (Z.to_nat n))) l') /\
  (exists s' l', skl_do key kltb keqb vltb eqb dflt (KList (LIAdd it)) s = (RUnit, s') /\ reach s' /\ kshows s' l' /\
     stable_sort_of ltb (l ++ it) l') /\
  (exists s' l', skl_do key kltb keqb vltb eqb dflt (KList (LIMul n)) s = (RUnit, s') /\ reach s' /\ kshows s' l' /\
     stable_sort_of ltb (concat (repeat l (Z.to_nat n))) l').
Proof. exact c30_copy_plus_mul. Qed.
Print Assumptions C30_copy_plus_mul_partial.

Example C30_case :
  TotalOrder Nat.ltb Nat.eqb /\ EqCompat (by_key (@fst nat nat) Nat.ltb) pairb /\ 1 <= 2 /\
  skl_reach (@fst nat nat) Nat.ltb Nat.eqb pltb pairb 2 kex_s /\ kshows kex_s kex_l /\
  kshows (snd (skl_do (@fst nat nat) Nat.ltb Nat.eqb pltb pairb 2 (KList (LPlus [(2, 0); (3, 9)])) kex_s))
    [(1, 1); (1, 0); (2, 0); (3, 1); (3, 2); (3, 0); (3, 5); (3, 4); (3, 3); (3, 9); (9, 0)].
Proof.
  split; [exact nat_total|]. split; [exact pairb_compat|]. split; [lia|]. split; [exact kex_reach|].
  split; [exact kex_shows|].
  repeat match goal with |- _ /\ _ => split end; vm_compute; reflexivity.
Qed.

(** C30 is false of the code for [n * skl]: the result is not ordered by the key of [skl]. *)
Theorem C30_rmul_refuted : exists (key : Z -> Z) (s : skl Z Z) n s' l',
  skl_reach key Z.ltb Z.eqb Z.ltb Z.eqb 1000 s /\
  skl_rmul (total2 Z.ltb) 1000 n s = (Ok s', s) /\ kshows s' l' /\
  ~ sorted Z.ltb (map key l') /\
  skl_mul (total2 Z.ltb) (total1 key) 1000 n s <> (Ok s', s).
Proof. exact c30_refuted. Qed.
Print Assumptions C30_rmul_refuted.



(** C30: what [n * skl] does instead: it sorts by the values themselves. *)
Theorem C30_rmul_ignores_key : forall V K (key : V -> K) (kltb keqb : K -> K -> bool) (vltb eqb : V -> V -> bool) dflt s l n,
  TotalOrder kltb keqb -> TotalOrder vltb eqb -> 1 <= dflt -> skl_reach key kltb keqb vltb eqb dflt s -> kshows s l ->
  exists s' l', skl_rmul (total2 vltb) dflt n s = (Ok s', s) /\ kshows s' l' /\
    skl_reach (fun v => v) vltb eqb vltb eqb dflt s' /\ stable_sort_of vltb (concat (repeat l (Z.to_nat n))) l'.
Proof. exact c30_rmul. Qed.
Print Assumptions C30_rmul_ignores_key.

Example C30_rmul_case : TotalOrder pltb peqb /\ skl_reach (@snd nat nat) Nat.ltb Nat.eqb pltb peqb 2
  (snd (skl_run (total2 pltb) (total2 peqb) (total2 Nat.ltb) (total2 Nat.eqb) (total1 (@snd nat nat)) 2
     [KList (LUpdate [(3, 1); (1, 4); (2, 0)])] (skl_init 2))).
Proof. split; [exact pair_total|]. eexists. split; [|reflexivity]. repeat constructor. Qed.

(** C31: the self check passes after every history with load factors of at least 4. *)
Theorem C31_check : forall V K (key : V -> K) (kltb keqb : K -> K -> bool) (vltb eqb : V -> V -> bool) dflt ops,
  TotalOrder kltb keqb -> EqCompat (by_key key kltb) eqb -> 4 <= dflt -> Forall (kloads_from 4) ops ->
  skl_check (total2 kltb) (total2 keqb) (total1 key)
    (snd (skl_run (total2 vltb) (total2 eqb) (total2 kltb) (total2 keqb) (total1 key) dflt ops (skl_init dflt))) = Ok tt.
Proof. exact c31_check. Qed.
Print Assumptions C31_check.

Example C31_case : Forall (kloads_from 4) (kex_ops ++ [KList (LReset 4)]).
Proof. repeat constructor. Qed.

(** C25, SortedKeyList: a pickled and rebuilt list has the same contents. *)
Theorem C25_key_reduce : forall V K (key : V -> K) (kltb keqb : K -> K -> bool) (vltb eqb : V -> V -> bool) dflt s l,
  TotalOrder kltb keqb -> 1 <= dflt -> skl_reach key kltb keqb vltb eqb dflt s -> kshows s l ->
  exists s', skl_reduce (total2 kltb) (total1 key) dflt s = (Ok s', s) /\ skl_reach key kltb keqb vltb eqb dflt s' /\
    kshows s' l.
Proof. exact c25_key_reduce. Qed.
Print Assumptions C25_key_reduce.

Example C25_key_case :
  TotalOrder Nat.ltb Nat.eqb /\ EqCompat (by_key (@fst nat nat) Nat.ltb) pairb /\ 1 <= 2 /\
  skl_reach (@fst nat nat) Nat.ltb Nat.eqb pltb pairb 2 kex_s /\ kshows kex_s kex_l /\
  match fst (skl_reduce (total2 Nat.ltb) (total1 (@fst nat nat)) 2 kex_s) with Ok s => kshows s kex_l | Err _ => False end.
Proof.
  split; [exact nat_total|]. split; [exact pairb_compat|]. split; [lia|]. split; [exact kex_reach|].
  split; [exact kex_shows|].
  repeat match goal with |- _ /\ _ => split end; vm_compute; reflexivity.
Qed.

(** C54, SortedKeyList: only documented exceptions escape. *)
Theorem C54_keylist_documented_exceptions : forall V K (key : V -> K) (kltb keqb : K -> K -> bool) (vltb eqb : V -> V -> bool) dflt s o,
  TotalOrder kltb keqb -> EqCompat (by_key key kltb) eqb -> 1 <= dflt -> skl_reach key kltb keqb vltb eqb dflt s ->
  kop_ok o -> forall e s', skl_do key kltb keqb vltb eqb dflt o s = (RExn e, s') -> kdocumented o e.
Proof. exact c54_keylist. Qed.
Print Assumptions C54_keylist_documented_exceptions.

Example C54_keylist_case : skl_reach (@fst nat nat) Nat.ltb Nat.eqb pltb pairb 2 kex_s /\ fst (skl_do (@fst nat nat) Nat.ltb Nat.eqb pltb pairb 2 (KList (LRemove (3, 9))) kex_s) = RExn ValueError.
Proof. split; [exact kex_reach|vm_compute; reflexivity]. Qed.

(** C32: on a list built with [key] and a total order of keys, an operation that fails (its
    comparisons are arbitrary, its key function is [key] except that it may raise) leaves no
    trace. *)
Theorem C32_failed_operation_no_effect : forall V K (key : V -> K) (kltb keqb : K -> K -> bool) (vltb eqb : V -> V -> bool) dflt s l,
  TotalOrder kltb keqb -> EqCompat (by_key key kltb) eqb -> 1 <= dflt ->
  skl_reach key kltb keqb vltb eqb dflt s -> kshows s l ->
  forall vlt eq klt keq kf o e s', (forall v k, kf v = Ok k -> k = key v) ->
    katomic o -> skl_step vlt eq klt keq kf dflt o s = (RExn e, s') ->
    kshows s' l /\ length_of (kc s') = (Ok (length l), kc s') /\
    (key_raises vlt eq klt keq kf e \/ kdocumented o e \/ (exists v, o = KList (LCount v) /\ e = Underflow)) /\
    forall ops, Forall kop_ok ops -> Forall (comparable vltb eqb) ops -> exists s2,
      skl_run (total2 vltb) (total2 eqb) (total2 kltb) (total2 keqb) (total1 key) dflt ops s'
        = (fst (sp_krun eqb vltb key kltb ops l), s2) /\
      kshows s2 (snd (sp_krun eqb vltb key kltb ops l)).
Proof. exact c32_no_effect. Qed.
Print Assumptions C32_failed_operation_no_effect.

Example C32_case : skl_reach (@fst nat nat) Nat.ltb Nat.eqb pltb pairb 2 kex_s /\ katomic (KList (K:=nat) (LRemove (3, 4))) /\
  let kf (v : pv) := if snd v =? 4 then Err TypeError else Ok (fst v) in
  (forall v k, kf v = Ok k -> k = fst v) /\
  exists s', skl_step (total2 pltb) (total2 pairb) (total2 Nat.ltb) (total2 Nat.eqb) kf 2 (KList (LRemove (3, 4))) kex_s
    = (RExn TypeError, s').
Proof.
  split; [exact kex_reach|]. split; [exact I|]. cbv zeta. split.
  - intros v k. destruct (snd v =? 4); [discriminate|congruence].
  - eexists. vm_compute. reflexivity.
Qed.

(** C24 is false of SortedKeyList too. *)
Theorem C24_keylist_update_failure_refuted : exists (klt : bool * nat -> bool * nat -> res bool) dflt s s' it e l n,
  1 <= dflt /\ kwild_reach (total1 (fun v : bool * nat => v)) dflt s /\
  skl_step klt klt klt klt (total1 (fun v => v)) dflt (KList (LUpdate it)) s = (RExn e, s') /\
  kshows s' l /\ length_of (kc s') = (Ok n, kc s') /\ n <> length l.
Proof. exact c24_key_refuted. Qed.
Print Assumptions C24_keylist_update_failure_refuted.



(** C55, SortedKeyList: nothing is assumed of comparisons, equality or the key function. *)
Theorem C55_keylist_structure_needs_no_order : forall V K (kf : V -> res K) dflt (s : skl V K), 1 <= dflt -> kwild_reach kf dflt s ->
  exists l, kshows s l /\ length_of (kc s) = (Ok (length l), kc s) /\ reversed (kc s) = (Ok (rev l), kc s) /\
    forall vlt eq klt keq o, kop_ok o ->
      exists r s' l', skl_step vlt eq klt keq kf dflt o s = (r, s') /\ kshows s' l' /\
        kloose eq (key_raises vlt eq klt keq kf) o l r l'.
Proof. exact c55_key_consistent. Qed.
Print Assumptions C55_keylist_structure_needs_no_order.

Example C55_key_case :
  let lt (x y : nat) := Ok (negb (Nat.even (x + y))) in
  let w o := mkkwild lt (total2 Nat.eqb) lt (total2 Nat.eqb) o in
  let kf (x : nat) := if x =? 13 then Err TypeError else Ok (x / 2) in
  let r := kwild_run kf 2 [w (KList (LUpdate [4; 1; 7; 3; 2])); w (KList (LGet 1)); w (KList (LAdd 13)); w (KList (LAdd 6))] (skl_init 2) in
  kwild_reach kf 2 (snd r) /\ nth_error (fst r) 2 = Some (RExn TypeError) /\ kshows (snd r) [7; 3; 2; 6; 4; 1].
Proof.
  cbv zeta. split; [|split; vm_compute; reflexivity].
  eexists. split; [|split; [|reflexivity]]; [repeat constructor|vm_compute; repeat constructor].
Qed.

(** * Property theorems: SortedDict (C25, C43-C52, C54, C57) *)
From Coq Require Import Permutation.
From Verif Require Import PyBase Model Spec History Reach Concrete ListClass ClassSpec ModelSet SetSpec ConcreteSet
  SetProps ModelDict DictSpec DictProps ConcreteDict.

(** C43: after any history, the keys are iterated sorted and pairwise different, and [len],
    [reversed], [values], [in] and lookups agree with them. *)
Theorem C43_mapping_and_order_in_step : forall S A B K (T : listcls S A K) ltb eqb (veqb : B -> B -> bool) fref dflt s,
  list_class T ltb eqb fref dflt -> sd_reach T eqb veqb s ->
  exists l, sd_shows T eqb s l /\ sorted ltb (map fst l) /\ distinct eqb (map fst l) /\
    sd_len s = (Ok (length l), s) /\ sd_iter T s = (Ok (map fst l), s) /\
    sd_reversed T s = (Ok (rev (map fst l)), s) /\ sd_values T eqb s = (Ok (map snd l), s) /\
    forall k,
      (exists b, sd_contains eqb k s = (Ok b, s) /\ (b = true <-> member eqb k (map fst l))) /\
      (forall v, maps eqb l k v -> sd_getitem eqb k s = (Ok v, s)) /\
      (~ member eqb k (map fst l) -> sd_getitem eqb k s = (Err KeyError, s)).
Proof. exact c43_in_step. Qed.
Print Assumptions C43_mapping_and_order_in_step.

Example C43_case : list_class pT pltb peqb (fwd_plain pltb peqb) 2 /\ sd_reach pT peqb Nat.eqb dd_ex /\ sd_shows pT peqb dd_ex dd_l /\
  fst (sd_contains peqb (3, 99) dd_ex) = Ok true /\ fst (sd_contains peqb (7, 0) dd_ex) = Ok false /\ fst (sd_len dd_ex) = Ok 8 /\
  fst (sd_getitem peqb (9, 5) dd_ex) = Ok 97.
Proof. split; [apply pT_class|]. split; [apply dd_ex_reach|]. split; [apply dd_ex_shows|]. vm_compute. repeat match goal with |- _ /\ _ => split end; reflexivity. Qed.
Example C43_case_key : list_class kT (by_key (@fst nat nat) Nat.ltb) pairb (fwd_keyed (@fst nat nat) Nat.ltb pairb) 2 /\ sd_reach kT pairb Nat.eqb kdd_ex /\ sd_shows kT pairb kdd_ex kdd_l /\
  fst (sd_contains pairb (3, 0) kdd_ex) = Ok true /\ fst (sd_contains pairb (3, 9) kdd_ex) = Ok false.
Proof. split; [apply kT_class|]. split; [apply kdd_ex_reach|]. split; [apply kdd_ex_shows|]. vm_compute. repeat match goal with |- _ /\ _ => split end; reflexivity. Qed.

(** C44: from [SortedDict(key, pairs)] on, every history returns and raises what a plain mapping
    in insertion order does ([ref_step] in DictSpec.v), and the final items are those of that mapping in key order. *)
Theorem C44_dict_history : forall S A B K (T : listcls S A K) ltb eqb (veqb : B -> B -> bool) fref dflt a ops,
  list_class T ltb eqb fref dflt -> Forall (dop_ok eqb) ops ->
  exists s0 s, sd_new T eqb a = Ok s0 /\ sd_shows T eqb s0 (listing ltb (merge eqb [] (pairs_of a))) /\
    sd_run T eqb veqb ops s0 = (fst (ref_run ltb eqb veqb fref ops (merge eqb [] (pairs_of a))), s) /\
    sd_shows T eqb s (listing ltb (snd (ref_run ltb eqb veqb fref ops (merge eqb [] (pairs_of a))))).
Proof. exact c44_history. Qed.
Print Assumptions C44_dict_history.

Example C44_case : list_class pT pltb peqb (fwd_plain pltb peqb) 2 /\ Forall (dop_ok peqb) dd_ops /\
  exists s0, sd_new pT peqb (APairs [((2, 0), 1); ((1, 0), 2); ((2, 1), 3)]) = Ok s0 /\ fst (sd_items pT peqb s0) = Ok [((1, 0), 2); ((2, 0), 3)] /\
    fst (sd_run pT peqb Nat.eqb [DSet (1, 7) 17; DDel (3, 0); DPopItem (-1); DContains (2, 2); DGetItem (1, 1)] s0)
    = [ONone; OExn KeyError; OItem ((2, 0), 3); OBool false; OVal 17].
Proof.
  split; [apply pT_class|]. split; [repeat constructor|].
  eexists. split; [vm_compute; reflexivity|]. split; vm_compute; reflexivity.
Qed.

(** C45: [sd[k] = v] stores [v] under [k] and changes no other item; a new key goes where the order
    puts it, a present one stays as it is. *)
Theorem C45_setitem : forall S A B K (T : listcls S A K) ltb eqb (veqb : B -> B -> bool) fref dflt s l k v,
  list_class T ltb eqb fref dflt -> sd_reach T eqb veqb s -> sd_shows T eqb s l ->
  exists s' l', sd_step T eqb veqb (DSet k v) s = (ONone, s') /\ sd_reach T eqb veqb s' /\ sd_shows T eqb s' l' /\
    (forall k' w, maps eqb l' k' w <-> (eqb k k' = true /\ w = v) \/ (eqb k k' = false /\ maps eqb l k' w)) /\
    ((has_key eqb l k /\ map fst l' = map fst l) \/
     (~ has_key eqb l k /\ sorted ltb (map fst l') /\ exists a b, l = a ++ b /\ l' = a ++ (k, v) :: b)).
Proof. exact c45_set. Qed.
Print Assumptions C45_setitem.

Example C45_set_case : list_class pT pltb peqb (fwd_plain pltb peqb) 2 /\ sd_reach pT peqb Nat.eqb dd_ex /\ sd_shows pT peqb dd_ex dd_l /\
  (let (r, s) := sd_step pT peqb Nat.eqb (DSet (6, 0) 60) dd_ex in r = ONone /\ fst (sd_items pT peqb s) = Ok [((1, 1), 11); ((2, 0), 20); ((3, 1), 39); ((4, 0), 40); ((5, 0), 50); ((6, 0), 60); ((8, 0), 80); ((9, 0), 97); ((22, 0), 3)]) /\
  (let (r, s) := sd_step pT peqb Nat.eqb (DSet (5, 7) 57) dd_ex in r = ONone /\ fst (sd_items pT peqb s) = Ok [((1, 1), 11); ((2, 0), 20); ((3, 1), 39); ((4, 0), 40); ((5, 0), 57); ((8, 0), 80); ((9, 0), 97); ((22, 0), 3)]).
Proof. split; [apply pT_class|]. split; [apply dd_ex_reach|]. split; [apply dd_ex_shows|]. vm_compute. repeat match goal with |- _ /\ _ => split end; reflexivity. Qed.

(** C45: [del sd[k]] removes exactly the item of [k], or raises [KeyError] and changes nothing. *)
Theorem C45_delitem : forall S A B K (T : listcls S A K) ltb eqb (veqb : B -> B -> bool) fref dflt s l k,
  list_class T ltb eqb fref dflt -> sd_reach T eqb veqb s -> sd_shows T eqb s l ->
  exists r s', sd_step T eqb veqb (DDel k) s = (r, s') /\ sd_reach T eqb veqb s' /\
    ((~ has_key eqb l k /\ r = OExn KeyError /\ sd_shows T eqb s' l) \/
     (exists a k' w b, l = a ++ (k', w) :: b /\ eqb k' k = true /\ r = ONone /\ sd_shows T eqb s' (a ++ b) /\
        forall k2 w2, maps eqb (a ++ b) k2 w2 <-> eqb k k2 = false /\ maps eqb l k2 w2)).
Proof. exact c45_del. Qed.
Print Assumptions C45_delitem.

Example C45_del_case : list_class pT pltb peqb (fwd_plain pltb peqb) 2 /\ sd_reach pT peqb Nat.eqb dd_ex /\ sd_shows pT peqb dd_ex dd_l /\
  (let (r, s) := sd_step pT peqb Nat.eqb (DDel (5, 7)) dd_ex in r = ONone /\ fst (sd_items pT peqb s) = Ok [((1, 1), 11); ((2, 0), 20); ((3, 1), 39); ((4, 0), 40); ((8, 0), 80); ((9, 0), 97); ((22, 0), 3)]) /\
  (let (r, s) := sd_step pT peqb Nat.eqb (DDel (6, 0)) dd_ex in r = OExn KeyError /\ fst (sd_items pT peqb s) = Ok dd_l).
Proof. split; [apply pT_class|]. split; [apply dd_ex_reach|]. split; [apply dd_ex_shows|]. vm_compute. repeat match goal with |- _ /\ _ => split end; reflexivity. Qed.

(** C45: [pop] removes exactly the item of [k] and returns its value; otherwise it returns the
    default, or raises [KeyError] without one, and changes nothing. *)
Theorem C45_pop : forall S A B K (T : listcls S A K) ltb eqb (veqb : B -> B -> bool) fref dflt s l k dv,
  list_class T ltb eqb fref dflt -> sd_reach T eqb veqb s -> sd_shows T eqb s l ->
  exists r s', sd_step T eqb veqb (DPop k dv) s = (r, s') /\ sd_reach T eqb veqb s' /\
    ((~ has_key eqb l k /\ r = match dv with Some v => OVal v | None => OExn KeyError end /\ sd_shows T eqb s' l) \/
     (exists a k' w b, l = a ++ (k', w) :: b /\ eqb k' k = true /\ r = OVal w /\ sd_shows T eqb s' (a ++ b) /\
        forall k2 w2, maps eqb (a ++ b) k2 w2 <-> eqb k k2 = false /\ maps eqb l k2 w2)).
Proof. exact c45_pop. Qed.
Print Assumptions C45_pop.

Example C45_pop_case : list_class pT pltb peqb (fwd_plain pltb peqb) 2 /\ sd_reach pT peqb Nat.eqb dd_ex /\ sd_shows pT peqb dd_ex dd_l /\
  (let (r, s) := sd_step pT peqb Nat.eqb (DPop (5, 7) (Some 1)) dd_ex in r = OVal 50 /\ fst (sd_items pT peqb s) = Ok [((1, 1), 11); ((2, 0), 20); ((3, 1), 39); ((4, 0), 40); ((8, 0), 80); ((9, 0), 97); ((22, 0), 3)]) /\
  (let (r, s) := sd_step pT peqb Nat.eqb (DPop (6, 0) None) dd_ex in r = OExn KeyError /\ fst (sd_items pT peqb s) = Ok dd_l) /\
  (let (r, s) := sd_step pT peqb Nat.eqb (DPop (6, 0) (Some 1)) dd_ex in r = OVal 1 /\ fst (sd_items pT peqb s) = Ok dd_l).
Proof. split; [apply pT_class|]. split; [apply dd_ex_reach|]. split; [apply dd_ex_shows|]. vm_compute. repeat match goal with |- _ /\ _ => split end; reflexivity. Qed.

(** C45: [setdefault] returns the stored value and changes nothing, or stores the default. *)
Theorem C45_setdefault : forall S A B K (T : listcls S A K) ltb eqb (veqb : B -> B -> bool) fref dflt s l k v,
  list_class T ltb eqb fref dflt -> sd_reach T eqb veqb s -> sd_shows T eqb s l ->
  exists r s', sd_step T eqb veqb (DSetDefault k v) s = (r, s') /\ sd_reach T eqb veqb s' /\
    ((exists w, maps eqb l k w /\ r = OVal w /\ sd_shows T eqb s' l) \/
     (~ has_key eqb l k /\ r = OVal v /\ exists a b, l = a ++ b /\ sd_shows T eqb s' (a ++ (k, v) :: b) /\
        sorted ltb (map fst (a ++ (k, v) :: b)))).
Proof. exact c45_setdefault. Qed.
Print Assumptions C45_setdefault.

Example C45_setdefault_case : list_class pT pltb peqb (fwd_plain pltb peqb) 2 /\ sd_reach pT peqb Nat.eqb dd_ex /\ sd_shows pT peqb dd_ex dd_l /\
  (let (r, s) := sd_step pT peqb Nat.eqb (DSetDefault (5, 7) 1) dd_ex in r = OVal 50 /\ fst (sd_items pT peqb s) = Ok dd_l) /\
  (let (r, s) := sd_step pT peqb Nat.eqb (DSetDefault (6, 0) 1) dd_ex in r = OVal 1 /\ fst (sd_items pT peqb s) = Ok [((1, 1), 11); ((2, 0), 20); ((3, 1), 39); ((4, 0), 40); ((5, 0), 50); ((6, 0), 1); ((8, 0), 80); ((9, 0), 97); ((22, 0), 3)]).
Proof. split; [apply pT_class|]. split; [apply dd_ex_reach|]. split; [apply dd_ex_shows|]. vm_compute. repeat match goal with |- _ /\ _ => split end; reflexivity. Qed.

(** C45: [sd[k]], [get] and [in] answer according to the items. *)
Theorem C45_lookup : forall S A B K (T : listcls S A K) ltb eqb (veqb : B -> B -> bool) fref dflt s l k v,
  list_class T ltb eqb fref dflt -> sd_reach T eqb veqb s -> sd_shows T eqb s l ->
  (exists w, maps eqb l k w /\ sd_step T eqb veqb (DGetItem k) s = (OVal w, s) /\
     sd_step T eqb veqb (DGet k v) s = (OVal w, s) /\ sd_step T eqb veqb (DContains k) s = (OBool true, s)) \/
  (~ has_key eqb l k /\ sd_step T eqb veqb (DGetItem k) s = (OExn KeyError, s) /\
     sd_step T eqb veqb (DGet k v) s = (OVal v, s) /\ sd_step T eqb veqb (DContains k) s = (OBool false, s)).
Proof. exact c45_read. Qed.
Print Assumptions C45_lookup.

Example C45_lookup_case : list_class pT pltb peqb (fwd_plain pltb peqb) 2 /\ sd_reach pT peqb Nat.eqb dd_ex /\ sd_shows pT peqb dd_ex dd_l /\
  (let (r, s) := sd_step pT peqb Nat.eqb (DGetItem (5, 7)) dd_ex in r = OVal 50 /\ fst (sd_items pT peqb s) = Ok dd_l) /\
  (let (r, s) := sd_step pT peqb Nat.eqb (DGet (6, 0) 1) dd_ex in r = OVal 1 /\ fst (sd_items pT peqb s) = Ok dd_l).
Proof. split; [apply pT_class|]. split; [apply dd_ex_reach|]. split; [apply dd_ex_shows|]. vm_compute. repeat match goal with |- _ /\ _ => split end; reflexivity. Qed.

(** C46: [peekitem(i)] returns the item at position [i] in key order, [popitem(i)] removes it, too. *)
Theorem C46_peekitem_popitem : forall S A B K (T : listcls S A K) ltb eqb (veqb : B -> B -> bool) fref dflt s l i,
  list_class T ltb eqb fref dflt -> sd_reach T eqb veqb s -> sd_shows T eqb s l ->
  (exists r s', sd_step T eqb veqb (DPeekItem i) s = (r, s') /\ sd_reach T eqb veqb s' /\ sd_shows T eqb s' l /\
     ((out_of_range i l /\ r = OExn IndexError) \/ exists a p b, at_pos i l a p b /\ r = OItem p)) /\
  (exists r s', sd_step T eqb veqb (DPopItem i) s = (r, s') /\ sd_reach T eqb veqb s' /\
     ((l = [] /\ r = OExn KeyError /\ sd_shows T eqb s' l) \/
      (l <> [] /\ out_of_range i l /\ r = OExn IndexError /\ sd_shows T eqb s' l) \/
      exists a p b, at_pos i l a p b /\ r = OItem p /\ sd_shows T eqb s' (a ++ b))).
Proof. exact c46_positions. Qed.
Print Assumptions C46_peekitem_popitem.

Example C46_case : list_class pT pltb peqb (fwd_plain pltb peqb) 2 /\ sd_reach pT peqb Nat.eqb dd_ex /\ sd_shows pT peqb dd_ex dd_l /\
  (let (r, s) := sd_step pT peqb Nat.eqb (DPeekItem (-2)) dd_ex in r = OItem ((9, 0), 97) /\ fst (sd_items pT peqb s) = Ok dd_l) /\
  (let (r, s) := sd_step pT peqb Nat.eqb (DPopItem 0) dd_ex in r = OItem ((1, 1), 11) /\ fst (sd_items pT peqb s) = Ok [((2, 0), 20); ((3, 1), 39); ((4, 0), 40); ((5, 0), 50); ((8, 0), 80); ((9, 0), 97); ((22, 0), 3)]) /\
  (let (r, s) := sd_step pT peqb Nat.eqb (DPopItem 8) dd_ex in r = OExn IndexError /\ fst (sd_items pT peqb s) = Ok dd_l) /\
  fst (sd_step pT peqb Nat.eqb (DPopItem 0) dd_start) = OExn KeyError.
Proof. split; [apply pT_class|]. split; [apply dd_ex_reach|]. split; [apply dd_ex_shows|]. vm_compute. repeat match goal with |- _ /\ _ => split end; reflexivity. Qed.

(** C47: [update] leaves the mapping in which later pairs win and other items are kept. *)
Theorem C47_update : forall S A B K (T : listcls S A K) ltb eqb (veqb : B -> B -> bool) fref dflt s l a,
  list_class T ltb eqb fref dflt -> sd_reach T eqb veqb s -> sd_shows T eqb s l ->
  exists s' l', sd_step T eqb veqb (DUpdate a) s = (ONone, s') /\ sd_reach T eqb veqb s' /\ sd_shows T eqb s' l' /\
    sorted ltb (map fst l') /\ distinct eqb (map fst l') /\
    forall k w, maps eqb l' k w <->
      last_says eqb (pairs_of a) k w \/ ((forall p, In p (pairs_of a) -> eqb (fst p) k = false) /\ maps eqb l k w).
Proof. exact c47_update. Qed.
Print Assumptions C47_update.

Example C47_case : list_class pT pltb peqb (fwd_plain pltb peqb) 2 /\ sd_reach pT peqb Nat.eqb dd_ex /\ sd_shows pT peqb dd_ex dd_l /\
  (let (r, s) := sd_step pT peqb Nat.eqb (DUpdate (APairs [((6, 0), 1); ((5, 3), 2); ((6, 1), 3)])) dd_ex in r = ONone /\ fst (sd_items pT peqb s) = Ok [((1, 1), 11); ((2, 0), 20); ((3, 1), 39); ((4, 0), 40); ((5, 0), 2); ((6, 0), 3); ((8, 0), 80); ((9, 0), 97); ((22, 0), 3)]).
Proof. split; [apply pT_class|]. split; [apply dd_ex_reach|]. split; [apply dd_ex_shows|]. vm_compute. repeat match goal with |- _ /\ _ => split end; reflexivity. Qed.

(** C47: done at once, item by item, or as the code chooses, [update] ends with the same items. *)
Theorem C47_paths : forall S A B K (T : listcls S A K) ltb eqb (veqb : B -> B -> bool) fref dflt s ps,
  list_class T ltb eqb fref dflt -> sd_reach T eqb veqb s ->
  exists s0 s1 s2 l', sd_step T eqb veqb (DUpdate (APairs ps)) s = (ONone, s0) /\
    update_all T eqb ps s = (Ok tt, s1) /\ update_one_by_one T eqb ps s = (Ok tt, s2) /\
    sd_shows T eqb s0 l' /\ sd_shows T eqb s1 l' /\ sd_shows T eqb s2 l' /\
    d_items s1 = d_items s0 /\ d_items s2 = d_items s0.
Proof. exact c47_paths. Qed.
Print Assumptions C47_paths.

Example C47_paths_case : list_class pT pltb peqb (fwd_plain pltb peqb) 2 /\ sd_reach pT peqb Nat.eqb dd_ex /\ sd_shows pT peqb dd_ex dd_l /\
  exists s, update_one_by_one pT peqb [((6, 0), 1); ((5, 3), 2); ((6, 1), 3)] dd_ex = (Ok tt, s) /\ fst (sd_len s) = Ok 9.
Proof. split; [apply pT_class|]. split; [apply dd_ex_reach|]. split; [apply dd_ex_shows|]. eexists. split; vm_compute; reflexivity. Qed.

(** C48: indexing the three views gives the key, the item and the value at that position. *)
Theorem C48_index : forall S A B K (T : listcls S A K) ltb eqb (veqb : B -> B -> bool) fref dflt s l i,
  list_class T ltb eqb fref dflt -> sd_reach T eqb veqb s -> sd_shows T eqb s l ->
  exists rk ri rv s1 s2 s3,
    sd_step T eqb veqb (DKeyAt i) s = (rk, s1) /\ sd_step T eqb veqb (DItemAt i) s = (ri, s2) /\
    sd_step T eqb veqb (DValueAt i) s = (rv, s3) /\
    (forall s', In s' [s1; s2; s3] -> sd_reach T eqb veqb s' /\ sd_shows T eqb s' l) /\
    ((out_of_range i l /\ rk = OExn IndexError /\ ri = OExn IndexError /\ rv = OExn IndexError) \/
     exists a k w b, at_pos i l a (k, w) b /\ rk = OKey k /\ ri = OItem (k, w) /\ rv = OVal w).
Proof. exact c48_index. Qed.
Print Assumptions C48_index.

Example C48_case : list_class pT pltb peqb (fwd_plain pltb peqb) 2 /\ sd_reach pT peqb Nat.eqb dd_ex /\ sd_shows pT peqb dd_ex dd_l /\
  (let (r, s) := sd_step pT peqb Nat.eqb (DKeyAt (-1)) dd_ex in r = OKey (22, 0) /\ fst (sd_items pT peqb s) = Ok dd_l) /\
  (let (r, s) := sd_step pT peqb Nat.eqb (DItemAt 2) dd_ex in r = OItem ((3, 1), 39) /\ fst (sd_items pT peqb s) = Ok dd_l) /\
  (let (r, s) := sd_step pT peqb Nat.eqb (DValueAt (-9)) dd_ex in r = OExn IndexError /\ fst (sd_items pT peqb s) = Ok dd_l).
Proof. split; [apply pT_class|]. split; [apply dd_ex_reach|]. split; [apply dd_ex_shows|]. vm_compute. repeat match goal with |- _ /\ _ => split end; reflexivity. Qed.

(** C48: slicing the three views gives the keys, items and values of the sliced list of items. *)
Theorem C48_slice : forall S A B K (T : listcls S A K) ltb eqb (veqb : B -> B -> bool) fref dflt s l sl,
  list_class T ltb eqb fref dflt -> sd_reach T eqb veqb s -> sd_shows T eqb s l ->
  exists rk ri rv s1 s2 s3,
    sd_step T eqb veqb (DKeySlice sl) s = (rk, s1) /\ sd_step T eqb veqb (DItemSlice sl) s = (ri, s2) /\
    sd_step T eqb veqb (DValueSlice sl) s = (rv, s3) /\
    (forall s', In s' [s1; s2; s3] -> sd_reach T eqb veqb s' /\ sd_shows T eqb s' l) /\
    ((s_step sl = Some 0%Z /\ rk = OExn ValueError /\ ri = OExn ValueError /\ rv = OExn ValueError) \/
     (s_step sl <> Some 0%Z /\ exists x, slice_is sl l x /\ rk = OKeys (map fst x) /\ ri = OItems x /\ rv = OVals (map snd x))).
Proof. exact c48_slice. Qed.
Print Assumptions C48_slice.

Example C48_slice_case : list_class pT pltb peqb (fwd_plain pltb peqb) 2 /\ sd_reach pT peqb Nat.eqb dd_ex /\ sd_shows pT peqb dd_ex dd_l /\
  (let (r, s) := sd_step pT peqb Nat.eqb (DItemSlice (mkslice (Some 6%Z) (Some 1%Z) (Some (-2)%Z))) dd_ex in r = OItems [((9, 0), 97); ((5, 0), 50); ((3, 1), 39)] /\ fst (sd_items pT peqb s) = Ok dd_l) /\
  (let (r, s) := sd_step pT peqb Nat.eqb (DKeySlice (mkslice (Some 6%Z) (Some 1%Z) (Some (-2)%Z))) dd_ex in r = OKeys [(9, 0); (5, 0); (3, 1)] /\ fst (sd_items pT peqb s) = Ok dd_l) /\
  (let (r, s) := sd_step pT peqb Nat.eqb (DValueSlice (mkslice (Some 6%Z) None (Some 0%Z))) dd_ex in r = OExn ValueError /\ fst (sd_items pT peqb s) = Ok dd_l).
Proof. split; [apply pT_class|]. split; [apply dd_ex_reach|]. split; [apply dd_ex_shows|]. vm_compute. repeat match goal with |- _ /\ _ => split end; reflexivity. Qed.

(** C48: deleting positions through a view removes exactly those items from the mapping. *)
Theorem C48_deletion : forall S A B K (T : listcls S A K) ltb eqb (veqb : B -> B -> bool) fref dflt s l i sl,
  list_class T ltb eqb fref dflt -> sd_reach T eqb veqb s -> sd_shows T eqb s l ->
  (exists r s' l', sd_step T eqb veqb (DViewDel i) s = (r, s') /\ sd_reach T eqb veqb s' /\ sd_shows T eqb s' l' /\
     ((out_of_range i l /\ r = OExn IndexError /\ l' = l) \/
      exists a p b, at_pos i l a p b /\ r = ONone /\ l' = a ++ b)) /\
  (exists r s' l', sd_step T eqb veqb (DViewDelSlice sl) s = (r, s') /\ sd_reach T eqb veqb s' /\ sd_shows T eqb s' l' /\
     ((s_step sl = Some 0%Z /\ r = OExn ValueError /\ l' = l) \/
      (s_step sl <> Some 0%Z /\ r = ONone /\ slice_deleted sl l l'))).
Proof. exact c48_delete. Qed.
Print Assumptions C48_deletion.

Example C48_delete_case : list_class pT pltb peqb (fwd_plain pltb peqb) 2 /\ sd_reach pT peqb Nat.eqb dd_ex /\ sd_shows pT peqb dd_ex dd_l /\
  (let (r, s) := sd_step pT peqb Nat.eqb (DViewDel (-1)) dd_ex in r = ONone /\ fst (sd_items pT peqb s) = Ok [((1, 1), 11); ((2, 0), 20); ((3, 1), 39); ((4, 0), 40); ((5, 0), 50); ((8, 0), 80); ((9, 0), 97)]) /\
  (let (r, s) := sd_step pT peqb Nat.eqb (DViewDelSlice (mkslice (Some 6%Z) (Some 1%Z) (Some (-2)%Z))) dd_ex in r = ONone /\ fst (sd_items pT peqb s) = Ok [((1, 1), 11); ((2, 0), 20); ((4, 0), 40); ((8, 0), 80); ((22, 0), 3)]).
Proof. split; [apply pT_class|]. split; [apply dd_ex_reach|]. split; [apply dd_ex_shows|]. vm_compute. repeat match goal with |- _ /\ _ => split end; reflexivity. Qed.

(** C49: [sd | o] prefers [o], [o | sd] prefers [sd], [|=] updates in place; the operand of the first two is unchanged. *)
Theorem C49_merge_operators : forall S A B K (T : listcls S A K) ltb eqb (veqb : B -> B -> bool) fref dflt s l other,
  list_class T ltb eqb fref dflt -> sd_reach T eqb veqb s -> sd_shows T eqb s l -> distinct_keys eqb other ->
  (exists n l', sd_or T eqb other s = (Ok n, s) /\ sd_reach T eqb veqb n /\ sd_shows T eqb n l' /\
     sorted ltb (map fst l') /\ distinct eqb (map fst l') /\
     forall k w, maps eqb l' k w <-> maps eqb other k w \/ (~ has_key eqb other k /\ maps eqb l k w)) /\
  (exists n l', sd_ror T eqb other s = (Ok n, s) /\ sd_reach T eqb veqb n /\ sd_shows T eqb n l' /\
     sorted ltb (map fst l') /\ distinct eqb (map fst l') /\
     forall k w, maps eqb l' k w <-> maps eqb l k w \/ (~ has_key eqb l k /\ maps eqb other k w)) /\
  (exists s' l', sd_step T eqb veqb (DIOr (ADict other)) s = (ONone, s') /\ sd_reach T eqb veqb s' /\ sd_shows T eqb s' l' /\
     sorted ltb (map fst l') /\ distinct eqb (map fst l') /\
     forall k w, maps eqb l' k w <-> maps eqb other k w \/ (~ has_key eqb other k /\ maps eqb l k w)).
Proof. exact c49_or. Qed.
Print Assumptions C49_merge_operators.

Example C49_case : list_class pT pltb peqb (fwd_plain pltb peqb) 2 /\ sd_reach pT peqb Nat.eqb dd_ex /\ sd_shows pT peqb dd_ex dd_l /\
  distinct_keys peqb [((6, 0), 1); ((5, 3), 2)] /\
  (let (r, s) := sd_step pT peqb Nat.eqb (DOr [((6, 0), 1); ((5, 3), 2)]) dd_ex in r = ONone /\ fst (sd_items pT peqb s) = Ok [((1, 1), 11); ((2, 0), 20); ((3, 1), 39); ((4, 0), 40); ((5, 0), 2); ((6, 0), 1); ((8, 0), 80); ((9, 0), 97); ((22, 0), 3)]) /\
  (let (r, s) := sd_step pT peqb Nat.eqb (DROr [((6, 0), 1); ((5, 3), 2)]) dd_ex in r = ONone /\ fst (sd_items pT peqb s) = Ok [((1, 1), 11); ((2, 0), 20); ((3, 1), 39); ((4, 0), 40); ((5, 3), 50); ((6, 0), 1); ((8, 0), 80); ((9, 0), 97); ((22, 0), 3)]).
Proof. split; [apply pT_class|]. split; [apply dd_ex_reach|]. split; [apply dd_ex_shows|]. split; [cbn; intuition (subst; reflexivity)|]. vm_compute. repeat match goal with |- _ /\ _ => split end; reflexivity. Qed.

(** C49: [copy] has the same items in the same order. *)
Theorem C49_copy : forall S A B K (T : listcls S A K) ltb eqb (veqb : B -> B -> bool) fref dflt s l,
  list_class T ltb eqb fref dflt -> sd_reach T eqb veqb s -> sd_shows T eqb s l ->
  exists n, sd_copy T eqb s = (Ok n, s) /\ sd_reach T eqb veqb n /\ sd_shows T eqb n l.
Proof. exact c49_copy. Qed.
Print Assumptions C49_copy.

Example C49_copy_case : list_class kT (by_key (@fst nat nat) Nat.ltb) pairb (fwd_keyed (@fst nat nat) Nat.ltb pairb) 2 /\ sd_reach kT pairb Nat.eqb kdd_ex /\ sd_shows kT pairb kdd_ex kdd_l /\
  (let (r, s) := sd_step kT pairb Nat.eqb (DCopy) kdd_ex in r = ONone /\ fst (sd_items kT pairb s) = Ok kdd_l).
Proof. split; [apply kT_class|]. split; [apply kdd_ex_reach|]. split; [apply kdd_ex_shows|]. vm_compute. repeat match goal with |- _ /\ _ => split end; reflexivity. Qed.

(** C49: [fromkeys] maps every key to the value; it never has a key function. *)
Theorem C49_fromkeys : forall A B K (ltb eqb : A -> A -> bool) (veqb : B -> B -> bool) dflt ks v,
  let T := plain (K:=K) (total2 ltb) (total2 eqb) dflt in
  TotalOrder ltb eqb -> 1 <= dflt ->
  exists n l, sd_fromkeys T eqb ks v = Ok n /\ sd_reach T eqb veqb n /\ sd_shows T eqb n l /\
    sorted ltb (map fst l) /\ distinct eqb (map fst l) /\
    forall k w, maps eqb l k w <-> w = v /\ member eqb k ks.
Proof. exact c49_fromkeys. Qed.
Print Assumptions C49_fromkeys.

Example C49_fromkeys_case : TotalOrder pltb peqb /\
  exists n, sd_fromkeys pT peqb [(3, 0); (1, 0); (3, 1)] 7 = Ok n /\ fst (sd_items pT peqb n) = Ok [((1, 0), 7); ((3, 0), 7)].
Proof. split; [apply pair_total|]. eexists. split; vm_compute; reflexivity. Qed.

(** C50: after any history, the keys are iterated in the order of a stable sort of a plain mapping
    in insertion order: keys that tie come in insertion order. *)
Theorem C50_ties : forall S A B K (T : listcls S A K) ltb eqb (veqb : B -> B -> bool) fref dflt a ops,
  list_class T ltb eqb fref dflt -> Forall (dop_ok eqb) ops ->
  exists s0 s ks, sd_new T eqb a = Ok s0 /\ s = snd (sd_run T eqb veqb ops s0) /\ sd_iter T s = (Ok ks, s) /\
    stable_sort_of ltb (map fst (snd (ref_run ltb eqb veqb fref ops (merge eqb [] (pairs_of a))))) ks.
Proof. exact c50_ties. Qed.
Print Assumptions C50_ties.

Example C50_case : list_class kT (by_key (@fst nat nat) Nat.ltb) pairb (fwd_keyed (@fst nat nat) Nat.ltb pairb) 2 /\ Forall (dop_ok pairb) kdd_ops /\
  map fst (snd (ref_run (by_key (@fst nat nat) Nat.ltb) pairb Nat.eqb (fwd_keyed (@fst nat nat) Nat.ltb pairb) kdd_ops []))
  = [(3, 1); (1, 1); (3, 0); (3, 5); (3, 2); (3, 3); (1, 0)].
Proof. split; [apply kT_class|]. split; [repeat constructor|]. vm_compute. reflexivity. Qed.

(** C50: pickled and rebuilt, a SortedDict iterates identically, whichever order [dict.copy] uses. *)
Theorem C50_pickle : forall S A B K (T : listcls S A K) ltb eqb (veqb : B -> B -> bool) fref dflt s l insertion,
  list_class T ltb eqb fref dflt -> sd_reach T eqb veqb s -> sd_shows T eqb s l ->
  exists n, sd_reduce T eqb insertion s = (Ok n, s) /\ sd_reach T eqb veqb n /\ sd_shows T eqb n l.
Proof. exact c50_reduce. Qed.
Print Assumptions C50_pickle.

Example C50_pickle_case : list_class kT (by_key (@fst nat nat) Nat.ltb) pairb (fwd_keyed (@fst nat nat) Nat.ltb pairb) 2 /\ sd_reach kT pairb Nat.eqb kdd_ex /\ sd_shows kT pairb kdd_ex kdd_l /\
  (let (r, s) := sd_step kT pairb Nat.eqb (DReduce true) kdd_ex in r = ONone /\ fst (sd_items kT pairb s) = Ok kdd_l) /\
  (let (r, s) := sd_step kT pairb Nat.eqb (DReduce false) kdd_ex in r = ONone /\ fst (sd_items kT pairb s) = Ok kdd_l).
Proof. split; [apply kT_class|]. split; [apply kdd_ex_reach|]. split; [apply kdd_ex_shows|]. vm_compute. repeat match goal with |- _ /\ _ => split end; reflexivity. Qed.

(** C25, SortedDict: rebuilding from [__reduce__] gives the same items in the same order. *)
Theorem C25_dict_reduce : forall S A B K (T : listcls S A K) ltb eqb (veqb : B -> B -> bool) fref dflt s l insertion,
  list_class T ltb eqb fref dflt -> sd_reach T eqb veqb s -> sd_shows T eqb s l ->
  exists n, sd_reduce T eqb insertion s = (Ok n, s) /\ sd_reach T eqb veqb n /\ sd_shows T eqb n l.
Proof. exact c50_reduce. Qed.
Print Assumptions C25_dict_reduce.

Example C25_dict_case : list_class pT pltb peqb (fwd_plain pltb peqb) 2 /\ sd_reach pT peqb Nat.eqb dd_ex /\ sd_shows pT peqb dd_ex dd_l /\
  (let (r, s) := sd_step pT peqb Nat.eqb (DReduce true) dd_ex in r = ONone /\ fst (sd_items pT peqb s) = Ok dd_l).
Proof. split; [apply pT_class|]. split; [apply dd_ex_reach|]. split; [apply dd_ex_shows|]. vm_compute. repeat match goal with |- _ /\ _ => split end; reflexivity. Qed.

(** C51: whatever a comparison of keys does, if [sd[k] = v] raises, the exception is the
    comparison's own, the key was new and nothing at all has changed. *)
Theorem C51_setitem_failure : forall A B K (ltb eqb : A -> A -> bool) (veqb : B -> B -> bool) dflt s l,
  let T := plain (K:=K) (total2 ltb) (total2 eqb) dflt in
  TotalOrder ltb eqb -> 1 <= dflt -> sd_reach T eqb veqb s -> sd_shows T eqb s l ->
  forall lt eq k v e s', sd_setitem (plain (K:=K) lt eq dflt) eqb k v s = (Err e, s') ->
    (exists x, lt k x = Err e) /\ ~ has_key eqb l k /\ s' = s.
Proof. exact c51_plain. Qed.
Print Assumptions C51_setitem_failure.

Example C51_case : sd_reach pT peqb Nat.eqb dd_ex /\ sd_shows pT peqb dd_ex dd_l /\
  let lt (x y : pv) := if fst y =? 9 then Err TypeError else Ok (pltb x y) in
  sd_setitem (plain (K:=nat) lt (total2 peqb) 2) peqb (7, 9) 79 dd_ex = (Err TypeError, dd_ex).
Proof. split; [apply dd_ex_reach|]. split; [apply dd_ex_shows|]. vm_compute. reflexivity. Qed.

(** C51 with a key function. *)
Theorem C51_keyed_setitem_failure : forall A B K (key : A -> K) (kltb keqb : K -> K -> bool) (eqb : A -> A -> bool) (veqb : B -> B -> bool) dflt s l,
  let T := keyed (total2 eqb) (total2 kltb) (total2 keqb) (total1 key) dflt in
  TotalOrder kltb keqb -> Equiv eqb -> EqCompat (by_key key kltb) eqb -> 1 <= dflt ->
  sd_reach T eqb veqb s -> sd_shows T eqb s l ->
  forall klt keq eq k v e s', sd_setitem (keyed eq klt keq (total1 key) dflt) eqb k v s = (Err e, s') ->
    (exists x, klt (key k) x = Err e) /\ ~ has_key eqb l k /\ s' = s.
Proof. exact c51_keyed. Qed.
Print Assumptions C51_keyed_setitem_failure.

Example C51_key_case : sd_reach kT pairb Nat.eqb kdd_ex /\ sd_shows kT pairb kdd_ex kdd_l /\
  let klt x y := if y =? 3 then Err TypeError else Ok (x <? y) in
  sd_setitem (keyed (total2 pairb) klt (total2 Nat.eqb) (total1 (@fst nat nat)) 2) pairb (2, 9) 29 kdd_ex = (Err TypeError, kdd_ex).
Proof. split; [apply kdd_ex_reach|]. split; [apply kdd_ex_shows|]. vm_compute. reflexivity. Qed.

(** C52 is false: when the comparison raises during [setdefault], the key is in the dict but not in
    the list, and [len] exceeds the number of keys iterated. *)
Theorem C52_setdefault_failure_refuted : exists (lt eq : nat -> nat -> res bool) dflt s0 s k (v : nat) e ks,
  let T := plain (K:=nat) lt eq dflt in
  1 <= dflt /\ sd_new T Nat.eqb (APairs [(1, 10); (2, 20)]) = Ok s0 /\
  sd_setdefault T Nat.eqb k v s0 = (Err e, s) /\ sd_contains Nat.eqb k s = (Ok true, s) /\
  sd_iter T s = (Ok ks, s) /\ ~ In k ks /\ sd_len s = (Ok (Datatypes.S (length ks)), s).
Proof. exact c52_setdefault_refuted. Qed.
Print Assumptions C52_setdefault_failure_refuted.

Example C52_refuted_case : cranky 5 1 = Err TypeError /\ cranky 1 2 = Ok true.
Proof. split; reflexivity. Qed.

(** C52 is false: when a comparison raises during [update], on a non-empty and on an empty dict
    alike, the dict has gained the pairs while no key at all is iterated. *)
Theorem C52_update_failure_refuted : exists (lt eq : nat -> nat -> res bool) dflt s0 s1 s2 (a : darg nat nat) e,
  let T := plain (K:=nat) lt eq dflt in
  1 <= dflt /\ sd_new T Nat.eqb (APairs [(1, 10); (2, 20)]) = Ok s0 /\
  sd_update T Nat.eqb a s0 = (Err e, s1) /\
  sd_iter T s1 = (Ok [], s1) /\ sd_len s1 = (Ok 4, s1) /\
  (exists s00, sd_new T Nat.eqb (APairs []) = Ok s00 /\ sd_update T Nat.eqb a s00 = (Err e, s2)) /\
  sd_iter T s2 = (Ok [], s2) /\ sd_len s2 = (Ok 2, s2).
Proof. exact c52_update_refuted. Qed.
Print Assumptions C52_update_failure_refuted.

Example C52_update_refuted_case : cranky 6 5 = Err TypeError.
Proof. reflexivity. Qed.

(** C52, what does hold of [setdefault]: the exception is the comparison's own, the key was new, the
    list is unchanged and the dict has gained just that key.  Missing: that the dict is unchanged, which is false
    ([C52_setdefault_failure_refuted]). *)
Theorem C52_setdefault_failure_partial : forall A B K (ltb eqb : A -> A -> bool) (veqb : B -> B -> bool) dflt s l,
  let T := plain (K:=K) (total2 ltb) (total2 eqb) dflt in
  TotalOrder ltb eqb -> 1 <= dflt -> sd_reach T eqb veqb s -> sd_shows T eqb s l ->
  forall lt eq k v e s', sd_setdefault (plain (K:=K) lt eq dflt) eqb k v s = (Err e, s') ->
    (exists x, lt k x = Err e) /\ ~ has_key eqb l k /\ d_list s' = d_list s /\ d_items s' = d_items s ++ [(k, v)].
Proof. exact c52_setdefault. Qed.
Print Assumptions C52_setdefault_failure_partial.

Example C52_case : sd_reach pT peqb Nat.eqb dd_ex /\ sd_shows pT peqb dd_ex dd_l /\
  let lt (x y : pv) := if fst y =? 9 then Err TypeError else Ok (pltb x y) in
  exists s', sd_setdefault (plain (K:=nat) lt (total2 peqb) 2) peqb (7, 9) 79 dd_ex = (Err TypeError, s').
Proof. split; [apply dd_ex_reach|]. split; [apply dd_ex_shows|]. eexists. vm_compute. reflexivity. Qed.

(** C52, what does hold of [update] when it goes item by item: an initial part of the pairs has
    been stored, and the keys iterated are those of the mapping.  Missing: the two other paths, for which it is false
    ([C52_update_failure_refuted]). *)
Theorem C52_itemwise_update_failure_partial : forall A B K (ltb eqb : A -> A -> bool) (veqb : B -> B -> bool) dflt s l,
  let T := plain (K:=K) (total2 ltb) (total2 eqb) dflt in
  TotalOrder ltb eqb -> 1 <= dflt -> sd_reach T eqb veqb s -> sd_shows T eqb s l ->
  forall lt eq ps e s', let T' := plain (K:=K) lt eq dflt in
    l <> [] -> 10 * length ps <= length l ->
    sd_update T' eqb (ADict ps) s = (Err e, s') ->
    (exists k x, lt k x = Err e) /\
    (exists a b, ps = a ++ b /\ d_items s' = merge eqb (d_items s) a) /\
    exists ks, sd_iter T' s' = (Ok ks, s') /\ Permutation ks (map fst (d_items s')) /\ sd_len s' = (Ok (length ks), s').
Proof. exact c52_each. Qed.
Print Assumptions C52_itemwise_update_failure_partial.

Definition dd_big : sdict (core pv pv) pv nat :=
  snd (sd_run pT peqb Nat.eqb (map (fun i => DSet (i, 0) i) (seq 0 20)) dd_start).
Example C52_each_case : sd_reach pT peqb Nat.eqb dd_big /\ (exists l, sd_shows pT peqb dd_big l /\ l <> [] /\ 10 * 2 <= length l) /\
  let lt (x y : pv) := if fst x =? 23 then Err TypeError else Ok (pltb x y) in
  exists s', sd_update (plain (K:=nat) lt (total2 peqb) 2) peqb (ADict [((21, 0), 1); ((23, 0), 1)]) dd_big = (Err TypeError, s') /\
    fst (sd_len s') = Ok 21.
Proof.
  split.
  { exists (APairs []), dd_start, (map (fun i => DSet (i, 0) i) (seq 0 20)). split; [vm_compute; reflexivity|].
    split; [repeat constructor|reflexivity]. }
  split; [eexists; split; [vm_compute; reflexivity|]; split; [discriminate|cbn; lia]|].
  eexists. split; vm_compute; reflexivity.
Qed.

(** C54, SortedDict without a key function: only documented exceptions escape. *)
Theorem C54_dict_documented_exceptions : forall A B K (ltb eqb : A -> A -> bool) (veqb : B -> B -> bool) dflt s o r s',
  let T := plain (K:=K) (total2 ltb) (total2 eqb) dflt in
  TotalOrder ltb eqb -> 1 <= dflt -> sd_reach T eqb veqb s -> dop_ok eqb o ->
  sd_step T eqb veqb o s = (r, s') -> ddocumented True o r.
Proof. exact c54_dict_plain. Qed.
Print Assumptions C54_dict_documented_exceptions.

Example C54_dict_case : sd_reach pT peqb Nat.eqb dd_ex /\ dop_ok peqb (DDel (A:=pv) (B:=nat) (K:=nat) (7, 0)) /\
  fst (sd_step pT peqb Nat.eqb (DDel (7, 0)) dd_ex) = OExn KeyError /\
  fst (sd_step pT peqb Nat.eqb (DFwd (FBisectKeyLeft 3)) dd_ex) = OFwd (RExn AttributeError).
Proof. split; [apply dd_ex_reach|]. split; [exact I|]. split; vm_compute; reflexivity. Qed.

(** C54, SortedDict with a key function. *)
Theorem C54_keyed_dict_documented_exceptions : forall A B K (key : A -> K) (kltb keqb : K -> K -> bool) (eqb : A -> A -> bool) (veqb : B -> B -> bool) dflt s o r s',
  let T := keyed (total2 eqb) (total2 kltb) (total2 keqb) (total1 key) dflt in
  TotalOrder kltb keqb -> Equiv eqb -> EqCompat (by_key key kltb) eqb -> 1 <= dflt ->
  sd_reach T eqb veqb s -> dop_ok eqb o ->
  sd_step T eqb veqb o s = (r, s') -> ddocumented False o r.
Proof. exact c54_dict_keyed. Qed.
Print Assumptions C54_keyed_dict_documented_exceptions.

Example C54_keyed_dict_case : sd_reach kT pairb Nat.eqb kdd_ex /\
  fst (sd_step kT pairb Nat.eqb (DFwd (FIndex (3, 9) None None)) kdd_ex) = OFwd (RExn ValueError) /\
  fst (sd_step kT pairb Nat.eqb (DFwd (FBisectKeyLeft 3)) kdd_ex) = OFwd (RNat 2).
Proof. split; [apply kdd_ex_reach|]. split; vm_compute; reflexivity. Qed.

(** C57: with load factors of at least 4, [SortedDict._check] succeeds after any history. *)
Theorem C57_dict_check : forall S A B K (T : listcls S A K) ltb eqb (veqb : B -> B -> bool) fref dflt a s0 ops,
  list_class T ltb eqb fref dflt -> 4 <= dflt -> Forall (dop_ok eqb) ops -> Forall (dresets_from 4) ops ->
  sd_new T eqb a = Ok s0 ->
  let s := snd (sd_run T eqb veqb ops s0) in sd_check T eqb s = (Ok tt, s).
Proof. exact c57_dict_check. Qed.
Print Assumptions C57_dict_check.

Example C57_case : list_class (plain (K:=nat) (total2 pltb) (total2 peqb) 4) pltb peqb (fwd_plain pltb peqb) 4 /\
  Forall (dop_ok peqb) (DFwd (FReset 5) :: dd_ops) /\ Forall (dresets_from 4) (DFwd (FReset 5) :: dd_ops) /\
  exists s0, sd_new (plain (K:=nat) (total2 pltb) (total2 peqb) 4) peqb (APairs [((2, 0), 1)]) = Ok s0.
Proof.
  split; [apply class_plain; [apply pair_total|lia]|]. split; [repeat constructor; cbn; lia|]. split; [repeat constructor; cbn; lia|].
  eexists. vm_compute. reflexivity.
Qed.

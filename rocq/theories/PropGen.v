(** * Property theorems: arguments that run code while they are iterated (C74, C75) *)
From Verif Require Import PyBase Model Spec History Reach Concrete FaultSpec ListClass ClassSpec ModelSet SetSpec ConcreteSet ModelDict DictSpec ConcreteDict
  ModelGen GenSpec ConcreteGen GenProps.

(** C74: [update] and [+=] of a SortedList with a generator that uses the list while it is exhausted: its calls
    are answered as in a history of their own, then either the values are merged in as by an ordinary update, or, if the generator
    raises, the exception passes through and nothing else happens. *)
Theorem C74_list_update : forall V (ltb eqb : V -> V -> bool) dflt c l g,
  TotalOrder ltb eqb -> 1 <= dflt -> sl_reach ltb eqb dflt c -> shows c l -> calls lop_in_place g ->
  exists out l1, feeds (list_eff ltb eqb) g l out l1 /\
    forall m, In m [sl_update_gen (total2 ltb) (total2 eqb) dflt g; sl_iadd_gen (total2 ltb) (total2 eqb) dflt g] ->
    match out with
    | Ok vs => exists c' l', m c = (Ok tt, c') /\ sl_reach ltb eqb dflt c' /\ shows c' l' /\ stable_sort_of ltb (l1 ++ vs) l'
    | Err e => exists c', m c = (Err e, c') /\ sl_reach ltb eqb dflt c' /\ shows c' l1
    end.
Proof. exact c74_list. Qed.
Print Assumptions C74_list_update.

Example C74_list_case : sl_reach pltb peqb 2 ex_c /\ shows ex_c ex_l /\ calls lop_in_place lgen /\ calls lop_in_place lgen_raise /\
  (let (r, c) := sl_update_gen (total2 pltb) (total2 peqb) 2 lgen ex_c in r = Ok tt /\ fst (length_of c) = Ok 19) /\
  (let (r, c) := sl_update_gen (total2 pltb) (total2 peqb) 2 lgen_raise ex_c in r = Err ValueError /\ fst (length_of c) = Ok 8).
Proof. split; [apply ex_reach|]. split; [apply ex_shows|]. split; [apply lgen_calls|]. split; [apply lgen_raise_calls|]. vm_compute. repeat match goal with |- _ /\ _ => split end; reflexivity. Qed.

(** C74 for [sl + g]: the new list holds the values from before the generator ran and those it yielded; [sl]
    itself is left as the calls of the generator leave it. *)
Theorem C74_list_plus : forall V (ltb eqb : V -> V -> bool) dflt c l g,
  TotalOrder ltb eqb -> 1 <= dflt -> sl_reach ltb eqb dflt c -> shows c l -> calls lop_in_place g ->
  exists out l1 c1, feeds (list_eff ltb eqb) g l out l1 /\ sl_reach ltb eqb dflt c1 /\ shows c1 l1 /\
    match out with
    | Ok vs => exists n l', sl_plus_gen (total2 ltb) (total2 eqb) dflt g c = (Ok n, c1) /\ sl_reach ltb eqb dflt n /\ shows n l' /\
                 stable_sort_of ltb (l ++ vs) l'
    | Err e => sl_plus_gen (total2 ltb) (total2 eqb) dflt g c = (Err e, c1)
    end.
Proof. exact c74_list_plus. Qed.
Print Assumptions C74_list_plus.

Example C74_list_plus_case : sl_reach pltb peqb 2 ex_c /\ shows ex_c ex_l /\ calls lop_in_place lgen /\
  (let (r, c) := sl_plus_gen (total2 pltb) (total2 peqb) 2 lgen ex_c in
   match r with Ok n => fst (length_of n) = Ok 19 | Err _ => False end /\ fst (length_of c) = Ok 9).
Proof. split; [apply ex_reach|]. split; [apply ex_shows|]. split; [apply lgen_calls|]. vm_compute. repeat match goal with |- _ /\ _ => split end; reflexivity. Qed.

(** C74 for SortedKeyList. *)
Theorem C74_keylist_update : forall V K (key : V -> K) (kltb keqb : K -> K -> bool) (vltb eqb : V -> V -> bool) dflt s l g,
  TotalOrder kltb keqb -> EqCompat (by_key key kltb) eqb -> 1 <= dflt ->
  skl_reach key kltb keqb vltb eqb dflt s -> kshows s l ->
  calls (fun o => kop_in_place o /\ comparable vltb eqb o) g ->
  exists out l1, feeds (key_eff key kltb vltb eqb) g l out l1 /\
    forall m, In m [skl_update_gen (total2 vltb) (total2 eqb) (total2 kltb) (total2 keqb) (total1 key) dflt g;
                    skl_iadd_gen (total2 vltb) (total2 eqb) (total2 kltb) (total2 keqb) (total1 key) dflt g] ->
    match out with
    | Ok vs => exists s' l', m s = (Ok tt, s') /\ skl_reach key kltb keqb vltb eqb dflt s' /\ kshows s' l' /\
                 stable_sort_of (by_key key kltb) (l1 ++ vs) l'
    | Err e => exists s', m s = (Err e, s') /\ skl_reach key kltb keqb vltb eqb dflt s' /\ kshows s' l1
    end.
Proof. exact c74_keylist. Qed.
Print Assumptions C74_keylist_update.

Example C74_keylist_case : skl_reach (@fst nat nat) Nat.ltb Nat.eqb pltb pairb 2 kex_s /\ kshows kex_s kex_l /\ calls (fun o => kop_in_place o /\ comparable pltb pairb o) kgen /\
  (let (r, s) := skl_iadd_gen (total2 pltb) (total2 pairb) (total2 Nat.ltb) (total2 Nat.eqb) (total1 (@fst nat nat)) 2 kgen kex_s in r = Ok tt /\ fst (length_of (kc s)) = Ok 16).
Proof. split; [apply kex_reach|]. split; [apply kex_shows|]. split; [apply kgen_calls|]. vm_compute. repeat match goal with |- _ /\ _ => split end; reflexivity. Qed.

(** C74 for [skl + g]. *)
Theorem C74_keylist_plus : forall V K (key : V -> K) (kltb keqb : K -> K -> bool) (vltb eqb : V -> V -> bool) dflt s l g,
  TotalOrder kltb keqb -> EqCompat (by_key key kltb) eqb -> 1 <= dflt ->
  skl_reach key kltb keqb vltb eqb dflt s -> kshows s l ->
  calls (fun o => kop_in_place o /\ comparable vltb eqb o) g ->
  exists out l1 s1, feeds (key_eff key kltb vltb eqb) g l out l1 /\ skl_reach key kltb keqb vltb eqb dflt s1 /\ kshows s1 l1 /\
    match out with
    | Ok vs => exists n l', skl_plus_gen (total2 vltb) (total2 eqb) (total2 kltb) (total2 keqb) (total1 key) dflt g s = (Ok n, s1) /\
                 skl_reach key kltb keqb vltb eqb dflt n /\ kshows n l' /\ stable_sort_of (by_key key kltb) (l ++ vs) l'
    | Err e => skl_plus_gen (total2 vltb) (total2 eqb) (total2 kltb) (total2 keqb) (total1 key) dflt g s = (Err e, s1)
    end.
Proof. exact c74_keylist_plus. Qed.
Print Assumptions C74_keylist_plus.

Example C74_keylist_plus_case : skl_reach (@fst nat nat) Nat.ltb Nat.eqb pltb pairb 2 kex_s /\ kshows kex_s kex_l /\ calls (fun o => kop_in_place o /\ comparable pltb pairb o) kgen /\
  (let (r, s) := skl_plus_gen (total2 pltb) (total2 pairb) (total2 Nat.ltb) (total2 Nat.eqb) (total1 (@fst nat nat)) 2 kgen kex_s in
   match r with Ok n => fst (length_of (kc n)) = Ok 17 | Err _ => False end /\ fst (length_of (kc s)) = Ok 8).
Proof. split; [apply kex_reach|]. split; [apply kex_shows|]. split; [apply kgen_calls|]. vm_compute. repeat match goal with |- _ /\ _ => split end; reflexivity. Qed.

(** C74 for SortedSet: [update], [difference_update] and [symmetric_difference_update] first exhaust the generator,
    then act like the ordinary operation on the set as the generator left it; afterwards the set goes on as any other. *)
Theorem C74_set_update : forall S V K (T : listcls S V K) ltb eqb fref dflt ord s l g,
  list_class T ltb eqb fref dflt -> any_order ord -> ss_reach T eqb ord s -> ss_shows T s l -> calls sop_in_place g ->
  exists out l1, feeds (sets_eff ltb eqb fref) g l out l1 /\
    forall m o, In (m, o) [(ss_update_gen T eqb ord g, fun vs => SUpdate [AIter vs]);
                           (ss_difference_update_gen T eqb ord g, fun vs => SDifferenceUpdate [AIter vs]);
                           (ss_symmetric_difference_update_gen T eqb ord g, fun vs => SSymmetricDifferenceUpdate (AIter vs))] ->
    match out with
    | Ok vs => exists s' l', m s = (Ok tt, s') /\ set_effect eqb fref (o vs) l1 RUnit l' /\ sorted ltb l' /\ distinct eqb l' /\
                 set_behaves T ltb eqb fref ord s' l'
    | Err e => exists s', m s = (Err e, s') /\ set_behaves T ltb eqb fref ord s' l1
    end.
Proof. exact c74_set. Qed.
Print Assumptions C74_set_update.

Example C74_set_case : list_class pT pltb peqb (fwd_plain pltb peqb) 2 /\ any_order flip /\ ss_reach pT peqb flip ss_ex /\ ss_shows pT ss_ex ss_l /\ calls sop_in_place sgen /\
  fst (ss_update_gen pT peqb flip sgen ss_ex) = Ok tt /\ fst (ss_len (snd (ss_update_gen pT peqb flip sgen ss_ex))) = Ok 13 /\
  fst (ss_iter pT (snd (ss_symmetric_difference_update_gen pT peqb flip sgen ss_ex))) =
    Ok [(3, 7); (4, 5); (5, 5); (8, 5); (9, 5); (10, 9); (11, 0); (12, 0); (14, 0); (16, 0); (20, 0)].
Proof. split; [apply pT_class|]. split; [apply flip_order|]. split; [apply ss_ex_reach|]. split; [apply ss_ex_shows|]. split; [apply sgen_calls|]. vm_compute. repeat match goal with |- _ /\ _ => split end; reflexivity. Qed.

(** C74 for [intersection_update]: the members afterwards are the yielded values that were in the set at the moment
    they were yielded. *)
Theorem C74_set_intersection_update : forall S V K (T : listcls S V K) ltb eqb fref dflt ord s l g,
  list_class T ltb eqb fref dflt -> any_order ord -> ss_reach T eqb ord s -> ss_shows T s l -> calls sop_in_place g ->
  exists out l1, feeds_found (sets_eff ltb eqb fref) (fun l a => member eqb a l) g l out l1 /\
    match out with
    | Ok vs => exists s' l', ss_intersection_update_gen T eqb ord g s = (Ok tt, s') /\ sorted ltb l' /\ distinct eqb l' /\
                 (forall x, member eqb x l' <-> member eqb x vs) /\ (forall x, In x l' -> In x vs) /\
                 set_behaves T ltb eqb fref ord s' l'
    | Err e => exists s', ss_intersection_update_gen T eqb ord g s = (Err e, s') /\ set_behaves T ltb eqb fref ord s' l1
    end.
Proof. exact c74_set_inter. Qed.
Print Assumptions C74_set_intersection_update.

Example C74_set_inter_case : list_class pT pltb peqb (fwd_plain pltb peqb) 2 /\ any_order flip /\ ss_reach pT peqb flip ss_ex /\ ss_shows pT ss_ex ss_l /\ calls sop_in_place sgen /\
  fst (ss_iter pT (snd (ss_intersection_update_gen pT peqb flip sgen ss_ex))) = Ok [(1, 5); (6, 7)].
Proof. split; [apply pT_class|]. split; [apply flip_order|]. split; [apply ss_ex_reach|]. split; [apply ss_ex_shows|]. split; [apply sgen_calls|]. vm_compute. repeat match goal with |- _ /\ _ => split end; reflexivity. Qed.

(** C74 for [update] and [|=] of a SortedDict that is not empty at the time of the call; C75 is about the empty one. *)
Theorem C74_dict_update_nonempty : forall S A B K (T : listcls S A K) ltb eqb (veqb : B -> B -> bool) fref dflt s l g,
  list_class T ltb eqb fref dflt -> sd_reach T eqb veqb s -> sd_shows T eqb s l -> l <> [] ->
  calls (fun o => dop_in_place o /\ dop_ok eqb o) g ->
  exists d out d1, l = listing ltb d /\ feeds (dict_eff ltb eqb veqb fref) g d out d1 /\
    match out with
    | Ok ps => exists s', sd_update_gen T eqb veqb g s = (Ok tt, s') /\ dict_behaves T ltb eqb veqb fref s' (merge eqb d1 ps)
    | Err e => exists s', sd_update_gen T eqb veqb g s = (Err e, s') /\ dict_behaves T ltb eqb veqb fref s' d1
    end.
Proof. exact c74_dict. Qed.
Print Assumptions C74_dict_update_nonempty.

Example C74_dict_case : list_class pT pltb peqb (fwd_plain pltb peqb) 2 /\ sd_reach pT peqb Nat.eqb dd_ex /\ sd_shows pT peqb dd_ex dd_l /\ dd_l <> [] /\ calls (fun o => dop_in_place o /\ dop_ok peqb o) dgen /\
  fst (sd_update_gen pT peqb Nat.eqb dgen dd_ex) = Ok tt /\
  fst (sd_items pT peqb (snd (sd_update_gen pT peqb Nat.eqb dgen dd_ex))) =
    Ok [((1, 1), 12); ((2, 0), 21); ((4, 0), 41); ((5, 0), 51); ((8, 0), 81); ((9, 0), 98); ((22, 0), 4)].
Proof. split; [apply pT_class|]. split; [apply dd_ex_reach|]. split; [apply dd_ex_shows|]. split; [discriminate|]. split; [apply dgen_calls|]. vm_compute. repeat match goal with |- _ /\ _ => split end; reflexivity. Qed.

(** C75 (an [update] of an empty SortedDict whose argument raises leaves a consistent dict) is false: the pairs
    delivered before the exception are in the dict, and none of them in the list of keys; deleting such a key raises [ValueError]. *)
Theorem C75_update_empty_raises_refuted : exists s s1 s2 : sdict (core nat nat) nat nat,
  let T := plain (K:=nat) (total2 Nat.ltb) (total2 Nat.eqb) 1000 in
  sd_new T Nat.eqb (APairs []) = Ok s /\
  sd_update_gen T Nat.eqb Nat.eqb (plain_gen [(1, 10); (2, 20)] (Some ValueError)) s = (Err ValueError, s1) /\
  sd_len s1 = (Ok 2, s1) /\ sd_getitem Nat.eqb 1 s1 = (Ok 10, s1) /\ sd_iter T s1 = (Ok [], s1) /\
  sd_delitem T Nat.eqb 1 s1 = (Err ValueError, s2) /\ sd_len s2 = (Ok 1, s2).
Proof. exact c75_raise_refuted. Qed.
Print Assumptions C75_update_empty_raises_refuted.

Example C75_raises_case : calls (Op:=dop nat nat nat) (Out:=dout nat nat) (fun _ => False) (plain_gen [(1, 10); (2, 20)] (Some ValueError)).
Proof. exact I. Qed.

(** C75 is false also of a generator that does not raise but stores items itself while an empty SortedDict is
    updated: the keys are put into the list twice. *)
Theorem C75_update_empty_reentrant_refuted : exists s s1 : sdict (core nat nat) nat nat,
  let T := plain (K:=nat) (total2 Nat.ltb) (total2 Nat.eqb) 1000 in
  let g := GCall (DSetDefault 1 0) (fun r1 => GYield (1, match r1 with OVal v => v + 1 | _ => 0 end)
          (GCall (DSetDefault 2 0) (fun r2 => GYield (2, match r2 with OVal v => v + 1 | _ => 0 end) GEnd))) in
  sd_new T Nat.eqb (APairs []) = Ok s /\
  sd_update_gen T Nat.eqb Nat.eqb g s = (Ok tt, s1) /\
  sd_len s1 = (Ok 2, s1) /\ sd_iter T s1 = (Ok [1; 1; 2; 2], s1) /\ sd_check T Nat.eqb s1 = (Err AssertionError, s1).
Proof. exact c75_reentrant_refuted. Qed.
Print Assumptions C75_update_empty_reentrant_refuted.

Example C75_reentrant_case : dop_in_place (A:=nat) (B:=nat) (K:=nat) (DSetDefault 1 0).
Proof. exact I. Qed.

(** C75, what does hold: if the argument neither raises nor uses the dict, updating an empty SortedDict gives a
    dict that behaves like the plain mapping of the pairs.  Missing: arguments that raise or use the dict, for which it is false
    ([C75_update_empty_raises_refuted], [C75_update_empty_reentrant_refuted]). *)
Theorem C75_update_empty_plain_partial : forall S A B K (T : listcls S A K) ltb eqb (veqb : B -> B -> bool) fref dflt s ps,
  list_class T ltb eqb fref dflt -> sd_reach T eqb veqb s -> sd_shows T eqb s [] ->
  exists s', sd_update_gen T eqb veqb (plain_gen ps None) s = (Ok tt, s') /\
    dict_behaves T ltb eqb veqb fref s' (merge eqb [] ps).
Proof. exact c75_plain. Qed.
Print Assumptions C75_update_empty_plain_partial.

Example C75_plain_case : list_class pT pltb peqb (fwd_plain pltb peqb) 2 /\ sd_reach pT peqb Nat.eqb (mksd [] (sl_init 2)) /\ sd_shows (B:=nat) pT peqb (mksd [] (sl_init 2)) [] /\
  fst (sd_items pT peqb (snd (sd_update_gen pT peqb Nat.eqb (plain_gen [((4, 0), 1); ((2, 0), 2); ((4, 1), 3)] None) (mksd [] (sl_init 2))))) = Ok [((2, 0), 2); ((4, 0), 3)].
Proof. split; [apply pT_class|]. split; [exists (APairs []), dd_start, []; split; [vm_compute; reflexivity|]; split; [constructor|reflexivity]|]. split; [reflexivity|]. vm_compute. repeat match goal with |- _ /\ _ => split end; reflexivity. Qed.

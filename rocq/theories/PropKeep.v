(** * Properties of iterators kept over SortedKeyLists, SortedSets and SortedDicts *)
From Verif Require Import PyBase Model Spec History Reach ListClass ClassSpec ModelSet SetSpec ModelDict DictSpec ModelHeap ModelKHeap ModelIter
  ModelViewIter ViewIterSpec Concrete ConcreteCompare ModelKeep KeepSpec KeepProps.

(** C93: a program keeps iterators over a SortedKeyList, made by [iter], [reversed], [islice], [irange], [irange_key], and advances
    them in any order between other calls.  Each yields what the method should give, in order, then ends and stays at its end; only
    a call that adds, deletes or reorganises disturbs it.  A disturbed one yields values or ends, and raises nothing, or, if made by
    one of the last three methods, [IndexError]. *)
Theorem C93_key_list_iterators : forall (V : Type) (ltb eqb : V -> V -> bool) (key : V -> V) dflt l ops s0,
  TotalOrder ltb eqb -> EqCompat (by_key key ltb) eqb -> 1 <= dflt -> Forall (xop_ok kl_ok) ops ->
  l_new (ikeyed (total2 ltb) (total2 eqb) (total1 key) dflt) l = Ok s0 ->
  exists r, xr_run (fwd_keyed key ltb eqb) (kl_eff ltb eqb key) (fun l => l) kl_moves ops (sp_sort (by_key key ltb) l, [])
    (fst (key_list_run (total2 ltb) (total2 eqb) (total1 key) dflt ops (s0, []))) r.
Proof. exact c93_key_list_iterators. Qed.
Print Assumptions C93_key_list_iterators.

Example C93_key_list_iterators_case :
  let T := ikeyed (total2 Nat.ltb) (total2 Nat.eqb) (total1 last_digit) 2 in
  let s0 := match l_new T [31; 2; 13; 4] with Ok s => s | Err _ => ([], mkkhsl (mkhsl [] [] [] 0 0 0) []) end in
  let ops := [XMake (MFwd (FIRangeKey (Some 2) None true true false)); XMake MReversed; XNext 0; XNext 1; XDo (KList (LContains 13)); XNext 0;
    XNext 0; XNext 0; XDo (KList (LAdd 9)); XNext 0; XNext 1] in
  TotalOrder Nat.ltb Nat.eqb /\ EqCompat (by_key last_digit Nat.ltb) Nat.eqb /\ Forall (xop_ok kl_ok) ops /\ l_new T [31; 2; 13; 4] = Ok s0 /\
  fst (key_list_run (total2 Nat.ltb) (total2 Nat.eqb) (total1 last_digit) 2 ops (s0, [])) =
    [XMade; XMade; XVal 2; XVal 4; XOut (RBool true); XVal 13; XVal 4; XStop; XOut RUnit; XStop; XVal 13].
Proof.
  cbv zeta. split; [apply nat_total|]. split; [apply last_digit_compat|]. split; [repeat constructor|]. vm_compute. repeat match goal with |- _ /\ _ => split end; reflexivity.
Qed.

(** C93: the same of a SortedSet, over a SortedList or a SortedKeyList: adding a member that is there, or discarding one that
    is not, does not disturb an iterator either. *)
Theorem C93_set_iterators : forall S V K (T : ilist S V K) ltb eqb fref dflt ord tick it ops s0,
  keep_class T ltb eqb fref dflt -> any_order ord -> Forall (xop_ok sop_ok) ops -> ss_new T eqb ord tick it = Ok s0 ->
  exists l0 r, sorted ltb l0 /\ distinct eqb l0 /\ (forall x, member eqb x l0 <-> exists a, it = Some a /\ member eqb x (items a)) /\
    xr_run fref (set_eff ltb eqb fref) (fun l => l) (set_moves eqb) ops (l0, []) (fst (set_run T eqb ord ops (s0, []))) r.
Proof. exact c93_set_iterators. Qed.
Print Assumptions C93_set_iterators.

Example C93_set_iterators_case :
  let ops := [XMake MIter; XMake (MFwd (FIRange (Some 2) (Some 3) true true true)); XNext 0; XDo (SAdd 2); XNext 1; XDo (SDiscard 7); XNext 0;
    XNext 1; XNext 1; XDo (SDiscard 3); XNext 1] : list (xop (sop nat nat) nat nat) in
  keep_class (nk 2) Nat.ltb Nat.eqb (fwd_plain Nat.ltb Nat.eqb) 2 /\ any_order as_is /\ Forall (xop_ok sop_ok) ops /\
  ss_new (nk 2) Nat.eqb as_is 0 (Some (AIter [3; 1; 2])) = Ok (nk_new 2 [3; 1; 2]) /\
  fst (set_run (nk 2) Nat.eqb as_is ops (nk_new 2 [3; 1; 2], [])) =
    [XMade; XMade; XVal 1; XOut RUnit; XVal 3; XOut RUnit; XVal 2; XVal 2; XStop; XOut RUnit; XStop].
Proof.
  cbv zeta. split; [apply nk_class; lia|]. split; [apply as_is_order|]. split; [repeat constructor|]. vm_compute. repeat match goal with |- _ /\ _ => split end; reflexivity.
Qed.

(** C93: the same of a SortedDict, whose iterators go through its keys: storing a value for a key that is there does not
    disturb them. *)
Theorem C93_dict_iterators : forall S A B K (T : ilist S A K) ltb eqb (veqb : B -> B -> bool) fref dflt a ops s0,
  keep_class T ltb eqb fref dflt -> Forall (xop_ok (dop_ok eqb)) ops -> sd_new T eqb a = Ok s0 ->
  exists r, xr_run fref (dict_eff ltb eqb veqb fref) (fun d => map fst (listing ltb d)) (moves eqb) ops (merge eqb [] (pairs_of a), [])
    (fst (dict_run T eqb veqb ops (s0, []))) r.
Proof. exact c93_dict_iterators. Qed.
Print Assumptions C93_dict_iterators.

Example C93_dict_iterators_case :
  let ops := [XMake (MFwd (FISlice (Some 1%Z) None false)); XMake (MFwd (FIRange None (Some 2) true false false)); XNext 0; XDo (DSet 3 33); XNext 0;
    XNext 0; XNext 1; XDo (DDel 1); XNext 0] : list (xop (dop nat nat nat) nat nat) in
  let s0 := match sd_new (nk 2) Nat.eqb (APairs [(3, 13); (1, 11); (2, 12)]) with Ok s => s | Err _ => mksd [] ([], mkhsl [] [] [] 0 0 0) end in
  keep_class (nk 2) Nat.ltb Nat.eqb (fwd_plain Nat.ltb Nat.eqb) 2 /\ Forall (xop_ok (dop_ok Nat.eqb)) ops /\
  sd_new (nk 2) Nat.eqb (APairs [(3, 13); (1, 11); (2, 12)]) = Ok s0 /\
  fst (dict_run (nk 2) Nat.eqb Nat.eqb ops (s0, [])) =
    [XMade; XMade; XVal 2; XOut ONone; XVal 3; XStop; XVal 1; XOut ONone; XStop].
Proof.
  cbv zeta. split; [apply nk_class; lia|]. split; [repeat constructor|]. vm_compute. repeat match goal with |- _ /\ _ => split end; reflexivity.
Qed.

(** C94 is false: an iteration over a SortedSet, to which meanwhile only members are "added" by [update], may yield a member
    twice.  Witness, with a load factor of 2: four members in one internal list; three are iterated over; [update] with two of the
    members rebuilds the list as two internal lists, and the third member comes again. *)
Theorem C94_repeats_refuted : ~ (forall S V K (T : ilist S V K) ltb eqb fref dflt ord tick it pre ops s0 l j,
  keep_class T ltb eqb fref dflt -> any_order ord -> Forall (xop_ok sop_ok) (pre ++ ops) -> ss_new T eqb ord tick it = Ok s0 -> no_iterators pre ->
  fst (l_iter T (s_list (fst (snd (set_run T eqb ord pre (s0, [])))))) = Ok l -> Forall (adds_nothing eqb l) ops ->
  distinct eqb (values_yielded j ops (skipn (length pre) (fst (set_run T eqb ord (pre ++ ops) (s0, [])))))).
Proof. exact c94_repeats. Qed.
Print Assumptions C94_repeats_refuted.

Example C94_repeats_case :
  fst (set_run (nk 2) Nat.eqb as_is (double_pre ++ double_ops) (nk_new 2 [0; 1], [])) =
  [XOut RUnit; XOut RUnit; XMade; XVal 0; XVal 1; XVal 2; XOut RUnit; XVal 3; XVal 2].
Proof. vm_compute. reflexivity. Qed.

(** C94 is false: it may also end without having yielded every member.  Witness, with a load factor of 3: 0, 1 in one
    internal list, 3, 4 in the next; [update([0, 1])] moves 3 into the first. *)
Theorem C94_skips_refuted : ~ (forall S V K (T : ilist S V K) ltb eqb fref dflt ord tick it pre ops s0 l j i x,
  keep_class T ltb eqb fref dflt -> any_order ord -> Forall (xop_ok sop_ok) (pre ++ ops) -> ss_new T eqb ord tick it = Ok s0 -> no_iterators pre ->
  fst (l_iter T (s_list (fst (snd (set_run T eqb ord pre (s0, [])))))) = Ok l -> Forall (adds_nothing eqb l) ops ->
  first_made MIter j ops -> member eqb x l -> nth_error (pre ++ ops) i = Some (XNext j) -> nth_error (fst (set_run T eqb ord (pre ++ ops) (s0, []))) i = Some XStop ->
  member eqb x (values_yielded j ops (skipn (length pre) (fst (set_run T eqb ord (pre ++ ops) (s0, [])))))).
Proof. exact c94_skips. Qed.
Print Assumptions C94_skips_refuted.

Example C94_skips_case :
  fst (set_run (nk 3) Nat.eqb as_is (miss_pre ++ miss_ops) (nk_new 3 [0; 1; 2; 3; 4], [])) =
  [XOut RUnit; XMade; XVal 0; XOut RUnit; XVal 1; XVal 4; XStop].
Proof. vm_compute. reflexivity. Qed.

(** C94 is false: an iterator made by [islice] may raise [IndexError] although the set has not changed.  Witness, with a load
    factor of 3: six internal lists of two members each, made into four by [update] with four of the members. *)
Theorem C94_index_error_refuted : ~ (forall S V K (T : ilist S V K) ltb eqb fref dflt ord tick it pre ops s0 l,
  keep_class T ltb eqb fref dflt -> any_order ord -> Forall (xop_ok sop_ok) (pre ++ ops) -> ss_new T eqb ord tick it = Ok s0 -> no_iterators pre ->
  fst (l_iter T (s_list (fst (snd (set_run T eqb ord pre (s0, [])))))) = Ok l -> Forall (adds_nothing eqb l) ops ->
  ~ In (XExn IndexError) (skipn (length pre) (fst (set_run T eqb ord (pre ++ ops) (s0, []))))).
Proof. exact c94_index_error. Qed.
Print Assumptions C94_index_error_refuted.

Example C94_index_error_case :
  skipn 6 (fst (set_run (nk 3) Nat.eqb as_is (fall_pre ++ fall_ops) (nk_new 3 (seq 0 18), []))) =
  [XMade; XOut RUnit; XVal 16; XVal 15; XExn IndexError].
Proof. vm_compute. reflexivity. Qed.

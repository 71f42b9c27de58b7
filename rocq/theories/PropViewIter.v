(** * Properties of iterators over a SortedDict and its views *)
From Verif Require Import PyBase Model Spec History Reach ListClass ClassSpec ModelSet SetSpec ModelDict DictSpec ModelHeap ModelKHeap ModelIter
  ModelViewIter ViewIterSpec ViewIterProps.

(** C91: a program makes any number of iterators over a SortedDict, its views, and backwards over them, and advances them in any
    order between any other calls.  While no key is added or deleted and neither [update] nor [_reset] is called, each goes through
    the keys in order, each key with the value stored for it at that moment, then ends, and stays at its end for good. *)
Theorem C91_view_iterators : forall S A B K (T : hlist S A K) ltb eqb (veqb : B -> B -> bool) fref dflt a ops s0,
  heap_class T ltb eqb fref dflt -> Forall (vop_ok eqb) ops -> sd_new T eqb a = Ok s0 ->
  agree (fst (vi_run T eqb veqb ops (s0, []))) (fst (vr_run ltb eqb veqb fref ops (merge eqb [] (pairs_of a), []))).
Proof. exact c91_view_iterators. Qed.
Print Assumptions C91_view_iterators.

Example C91_view_iterators_case :
  let ops := [VMake ItemsView; VMake KeysViewBack; VMake Keys; VNext 0; VDo (DSet 2 22); VNext 1; VNext 0; VNext 2; VNext 0; VDo (DSet 9 99);
    VNext 0; VNext 1] : list (vop nat nat nat) in
  heap_class (nh 2) Nat.ltb Nat.eqb (fwd_plain Nat.ltb Nat.eqb) 2 /\ Forall (vop_ok Nat.eqb) ops /\
  sd_new (nh 2) Nat.eqb (APairs [(2, 12); (1, 11)]) = Ok (nh_new 2 [(2, 12); (1, 11)]) /\
  fst (vi_run (nh 2) Nat.eqb Nat.eqb ops (nh_new 2 [(2, 12); (1, 11)], [])) =
    [VOut ONone; VOut ONone; VOut ONone; VOut (OItem (1, 11)); VOut ONone; VOut (OKey 2); VOut (OItem (2, 22)); VOut (OKey 1); VStop; VOut ONone;
     VStop; VOut (OKey 1)] /\
  fst (vr_run Nat.ltb Nat.eqb Nat.eqb (fwd_plain Nat.ltb Nat.eqb) ops ([(2, 12); (1, 11)], [])) =
    [Some (VOut ONone); Some (VOut ONone); Some (VOut ONone); Some (VOut (OItem (1, 11))); Some (VOut ONone); Some (VOut (OKey 2));
     Some (VOut (OItem (2, 22))); Some (VOut (OKey 1)); Some VStop; Some (VOut ONone); Some VStop; None].
Proof.
  cbv zeta. split; [apply nh_class; lia|]. split; [repeat constructor|]. vm_compute. repeat match goal with |- _ /\ _ => split end; reflexivity.
Qed.

(** C91: whatever has been done to the SortedDict since an iterator was made, advancing it leaves the dict as it is; a pair it
    yields is an item that the dict has now, a value one that it has now; the iterators over the dict itself and [iter] of the keys
    view raise nothing, [iter] of the items and values view at most [KeyError], the backward ones of the views at most [IndexError]. *)
Theorem C91_after_changes : forall S A B K (T : hlist S A K) ltb eqb (veqb : B -> B -> bool) fref dflt a ops s0 outs s its j w,
  heap_class T ltb eqb fref dflt -> Forall (vop_ok eqb) ops -> sd_new T eqb a = Ok s0 ->
  vi_run T eqb veqb ops (s0, []) = (outs, (s, its)) -> nth_error (makes ops) j = Some w ->
  may_yield eqb w (d_items s) (fst (vi_step T eqb veqb (VNext j) (s, its))) /\
  d_items (fst (snd (vi_step T eqb veqb (VNext j) (s, its)))) = d_items s.
Proof. exact c91_after_changes. Qed.
Print Assumptions C91_after_changes.

Example C91_after_changes_case :
  let s := nh_new 2 [(0, 10); (1, 11)] in
  heap_class (nh 2) Nat.ltb Nat.eqb (fwd_plain Nat.ltb Nat.eqb) 2 /\ Forall (vop_ok Nat.eqb) gone_ops /\ sd_new (nh 2) Nat.eqb (APairs [(0, 10); (1, 11)]) = Ok s /\
  makes gone_ops = [ItemsView; KeysViewBack] /\
  fst (vi_run (nh 2) Nat.eqb Nat.eqb gone_ops (s, [])) =
    [VOut ONone; VOut ONone; VOut (OItem (0, 10)); VOut (OKey 1); VOut ONone; VOut (OExn KeyError); VOut (OExn IndexError)].
Proof.
  cbv zeta. split; [apply nh_class; lia|]. split; [repeat constructor|]. vm_compute. repeat match goal with |- _ /\ _ => split end; reflexivity.
Qed.

(** C91: an iterator that has ended, or has raised an exception, reports the end whenever it is advanced later, whatever is done in
    between. *)
Theorem C91_ended : forall S A B K (T : hlist S A K) ltb eqb (veqb : B -> B -> bool) fref dflt a ops s0 outs st j w r st' later,
  heap_class T ltb eqb fref dflt -> Forall (vop_ok eqb) ops -> sd_new T eqb a = Ok s0 ->
  vi_run T eqb veqb ops (s0, []) = (outs, st) -> nth_error (makes ops) j = Some w ->
  vi_step T eqb veqb (VNext j) st = (r, st') -> match r with VStop | VOut (OExn _) => True | _ => False end ->
  fst (vi_step T eqb veqb (VNext j) (snd (vi_run T eqb veqb later st'))) = VStop.
Proof. exact c91_ended. Qed.
Print Assumptions C91_ended.

Example C91_ended_case :
  let s := nh_new 2 [(0, 10); (1, 11); (2, 12)] in
  let ops := [VMake ItemsView; VNext 0; VDo DClear] : list (vop nat nat nat) in
  heap_class (nh 2) Nat.ltb Nat.eqb (fwd_plain Nat.ltb Nat.eqb) 2 /\ Forall (vop_ok Nat.eqb) ops /\ sd_new (nh 2) Nat.eqb (APairs [(0, 10); (1, 11); (2, 12)]) = Ok s /\
  nth_error (makes ops) 0 = Some ItemsView /\
  fst (vi_run (nh 2) Nat.eqb Nat.eqb (ops ++ [VNext 0; VDo (DUpdate (APairs [(5, 15)])); VNext 0]) (s, [])) =
    [VOut ONone; VOut (OItem (0, 10)); VOut ONone; VOut (OExn KeyError); VOut ONone; VStop].
Proof.
  cbv zeta. split; [apply nh_class; lia|]. split; [repeat constructor|]. vm_compute. repeat match goal with |- _ /\ _ => split end; reflexivity.
Qed.

(** C92 is false: iterating over a SortedDict whose keys stay the same, while values are replaced, does not yield every key
    once.  [update] with pairs for keys that are all there rebuilds the list of keys whenever there are many of them.  Witness, with
    a load factor of 2: four keys in one internal list, three of them iterated over, the value of one replaced by [update], which
    makes two internal lists: the third key comes again. *)
Theorem C92_repeats_refuted : ~ (forall S A B K (T : hlist S A K) ltb eqb (veqb : B -> B -> bool) fref dflt a pre ops s0 j,
  heap_class T ltb eqb fref dflt -> Forall (vop_ok eqb) (pre ++ ops) -> sd_new T eqb a = Ok s0 -> makes pre = [] ->
  keys_stay (ref_step ltb eqb veqb fref) ops (fst (snd (vr_run ltb eqb veqb fref pre (merge eqb [] (pairs_of a), [])))) ->
  distinct eqb (keys_yielded j ops (skipn (length pre) (fst (vi_run T eqb veqb (pre ++ ops) (s0, [])))))).
Proof. exact c92_repeats. Qed.
Print Assumptions C92_repeats_refuted.

Example C92_repeats_case :
  keys_yielded 0 again_ops (skipn (length again_pre) (fst (vi_run (nh 2) Nat.eqb Nat.eqb (again_pre ++ again_ops) (nh_new 2 [(0, 10); (1, 11)], [])))) =
  [0; 1; 2; 3; 2].
Proof. vm_compute. reflexivity. Qed.

(** C92 is false: such an iteration may also end without having yielded all the keys.  Witness, with a load factor of 3: keys 0, 1
    in one internal list, 3, 4 in the next; [update] replaces the value of 0 and moves 3 into the first list, which the iterator
    has left behind. *)
Theorem C92_skips_refuted : ~ (forall S A B K (T : hlist S A K) ltb eqb (veqb : B -> B -> bool) fref dflt a pre ops s0 j i k,
  heap_class T ltb eqb fref dflt -> Forall (vop_ok eqb) (pre ++ ops) -> sd_new T eqb a = Ok s0 -> makes pre = [] ->
  keys_stay (ref_step ltb eqb veqb fref) ops (fst (snd (vr_run ltb eqb veqb fref pre (merge eqb [] (pairs_of a), [])))) ->
  has_key eqb (fst (snd (vr_run ltb eqb veqb fref pre (merge eqb [] (pairs_of a), [])))) k ->
  nth_error (pre ++ ops) i = Some (VNext j) -> nth_error (fst (vi_run T eqb veqb (pre ++ ops) (s0, []))) i = Some VStop ->
  member eqb k (keys_yielded j ops (skipn (length pre) (fst (vi_run T eqb veqb (pre ++ ops) (s0, [])))))).
Proof. exact c92_skips. Qed.
Print Assumptions C92_skips_refuted.

Example C92_skips_case :
  fst (vi_run (nh 3) Nat.eqb Nat.eqb (past_pre ++ past_ops) (nh_new 3 [(0, 10); (1, 11); (2, 12); (3, 13); (4, 14)], [])) =
  [VOut ONone; VOut ONone; VOut (OItem (0, 10)); VOut ONone; VOut (OItem (1, 11)); VOut (OItem (4, 14)); VStop].
Proof. vm_compute. reflexivity. Qed.

(** C92 is false: the exception raised by an iterator after items were deleted is not only [RuntimeError].  Witness: an
    iterator of the items view, after [clear], raises [KeyError]. *)
Theorem C92_key_error_refuted : ~ (forall S A B K (T : hlist S A K) ltb eqb (veqb : B -> B -> bool) fref dflt a ops s0,
  heap_class T ltb eqb fref dflt -> Forall (vop_ok eqb) ops -> sd_new T eqb a = Ok s0 ->
  ~ In KeyError (next_raised ops (fst (vi_run T eqb veqb ops (s0, []))))).
Proof. exact c92_key_error. Qed.
Print Assumptions C92_key_error_refuted.

Example C92_key_error_case :
  next_raised gone_ops (fst (vi_run (nh 2) Nat.eqb Nat.eqb gone_ops (nh_new 2 [(0, 10); (1, 11)], []))) = [KeyError; IndexError].
Proof. vm_compute. reflexivity. Qed.

(** C92 is false: nor is it [KeyError] at most.  Witness: [reversed] of the keys view, after [clear], raises [IndexError]. *)
Theorem C92_index_error_refuted : ~ (forall S A B K (T : hlist S A K) ltb eqb (veqb : B -> B -> bool) fref dflt a ops s0,
  heap_class T ltb eqb fref dflt -> Forall (vop_ok eqb) ops -> sd_new T eqb a = Ok s0 ->
  ~ In IndexError (next_raised ops (fst (vi_run T eqb veqb ops (s0, []))))).
Proof. exact c92_index_error. Qed.
Print Assumptions C92_index_error_refuted.

Example C92_index_error_case :
  nth_error (fst (vi_run (nh 2) Nat.eqb Nat.eqb gone_ops (nh_new 2 [(0, 10); (1, 11)], []))) 6 = Some (VOut (OExn IndexError)) /\
  nth_error gone_ops 6 = Some (VNext 1).
Proof. vm_compute. split; reflexivity. Qed.

(** * Property theorems: [SortedDict.__init__] called again (C86) *)
From Verif Require Import PyBase Model Spec History Reach Concrete ListClass ClassSpec ModelSet SetSpec ConcreteSet ModelDict DictSpec ConcreteDict ModelReinit
  ReinitProps.

(** C86, false of the code: calling [sd.__init__(a)] on a SortedDict is not [sd.update(a)].  [__init__] replaces [_list] by an empty
    list but leaves the items in place. *)
Theorem C86_reinit_refuted : ~ (forall S A B K (T : listcls S A K) ltb eqb (veqb : B -> B -> bool) fref dflt s l a,
  list_class T ltb eqb fref dflt -> sd_reach T eqb veqb s -> sd_shows T eqb s l ->
  exists s' l', sd_reinit T eqb a s = (Ok tt, s') /\ sd_shows T eqb s' l' /\
    forall k w, maps eqb l' k w <->
      last_says eqb (pairs_of a) k w \/ ((forall p, In p (pairs_of a) -> eqb (fst p) k = false) /\ maps eqb l k w)).
Proof. exact c86_refuted. Qed.
Print Assumptions C86_reinit_refuted.

(** [sd.__init__({})] on a dict of eight: all keys disappear from iteration and indexing; [len] and [sd[k]] still see them. *)
Example C86_reinit_refuted_case :
  list_class pT pltb peqb (fwd_plain pltb peqb) 2 /\ sd_reach pT peqb Nat.eqb dd_ex /\ sd_shows pT peqb dd_ex dd_l /\
  let s := snd (sd_reinit pT peqb (ADict []) dd_ex) in
  fst (sd_iter pT s) = Ok [] /\ fst (sd_len s) = Ok 8 /\ fst (sd_getitem peqb (1, 1) s) = Ok 11 /\
  fst (sd_delitem pT peqb (1, 1) s) = Err ValueError /\ fst (sd_peekitem pT peqb 0%Z s) = Err IndexError.
Proof.
  split; [apply pT_class|]. split; [apply dd_ex_reach|]. split; [apply dd_ex_shows|]. cbv zeta. vm_compute.
  repeat match goal with |- _ /\ _ => split end; reflexivity.
Qed.

(** C86 for an empty dict, or an argument with more than a tenth as many keys: then [update] builds the list from all items, and
    [__init__] acts like [update]. *)
Theorem C86_reinit_partial : forall S A B K (T : listcls S A K) ltb eqb (veqb : B -> B -> bool) fref dflt s l a,
  list_class T ltb eqb fref dflt -> sd_reach T eqb veqb s -> sd_shows T eqb s l ->
  length l = 0 \/ length l < 10 * length (merge eqb [] (pairs_of a)) ->
  exists s' l', sd_reinit T eqb a s = (Ok tt, s') /\ sd_shows T eqb s' l' /\
    sorted ltb (map fst l') /\ distinct eqb (map fst l') /\
    forall k w, maps eqb l' k w <->
      last_says eqb (pairs_of a) k w \/ ((forall p, In p (pairs_of a) -> eqb (fst p) k = false) /\ maps eqb l k w).
Proof. exact c86_enough. Qed.
Print Assumptions C86_reinit_partial.

Example C86_reinit_partial_case :
  list_class pT pltb peqb (fwd_plain pltb peqb) 2 /\ sd_reach pT peqb Nat.eqb dd_ex /\ sd_shows pT peqb dd_ex dd_l /\
  let a := APairs [((2, 5), 1); ((0, 0), 2); ((0, 1), 3)] in
  length dd_l < 10 * length (merge peqb [] (pairs_of a)) /\
  fst (sd_items pT peqb (snd (sd_reinit pT peqb a dd_ex))) =
    Ok [(0, 0, 3); (1, 1, 11); (2, 0, 1); (3, 1, 39); (4, 0, 40); (5, 0, 50); (8, 0, 80); (9, 0, 97); (22, 0, 3)].
Proof.
  split; [apply pT_class|]. split; [apply dd_ex_reach|]. split; [apply dd_ex_shows|]. cbv zeta. split; [vm_compute; lia|vm_compute; reflexivity].
Qed.

(** C86, what happens otherwise: afterwards only the keys that are new are iterated, while [len] counts all and lookups find all. *)
Theorem C86_lost : forall S A B K (T : listcls S A K) ltb eqb (veqb : B -> B -> bool) fref dflt s l ps,
  list_class T ltb eqb fref dflt -> sd_reach T eqb veqb s -> sd_shows T eqb s l -> distinct_keys eqb ps ->
  l <> [] -> 10 * length ps <= length l ->
  exists s' ks, sd_reinit T eqb (ADict ps) s = (Ok tt, s') /\
    sd_iter T s' = (Ok ks, s') /\ sd_len s' = (Ok (length l + length ks), s') /\
    (forall k, member eqb k ks <-> member eqb k (map fst ps) /\ ~ member eqb k (map fst l)) /\
    (forall k w, sd_getitem eqb k s' = (Ok w, s') <->
       maps eqb ps k w \/ (~ member eqb k (map fst ps) /\ maps eqb l k w)).
Proof. exact c86_lost. Qed.
Print Assumptions C86_lost.

Example C86_lost_case :
  list_class pT pltb peqb (fwd_plain pltb peqb) 2 /\
  let s := snd (sd_run pT peqb Nat.eqb [DUpdate (APairs (map (fun i => ((2 * i, 0), i)) (seq 0 20)))] dd_start) in
  let s' := snd (sd_reinit pT peqb (ADict [((7, 0), 70); ((4, 9), 40)]) s) in
  sd_reach pT peqb Nat.eqb s /\ sd_shows pT peqb s (map (fun i => ((2 * i, 0), i)) (seq 0 20)) /\
  distinct_keys (B := nat) peqb [((7, 0), 70); ((4, 9), 40)] /\
  fst (sd_iter pT s') = Ok [(7, 0)] /\ fst (sd_len s') = Ok 21 /\ fst (sd_getitem peqb (4, 0) s') = Ok 40 /\
  fst (sd_getitem peqb (6, 0) s') = Ok 3.
Proof.
  split; [apply pT_class|]. cbv zeta. split; [|split; [vm_compute; reflexivity|split]].
  - exists (APairs []), dd_start, [DUpdate (APairs (map (fun i => ((2 * i, 0), i)) (seq 0 20)))].
    split; [vm_compute; reflexivity|]. split; [repeat constructor|reflexivity].
  - split; [|split; [intros y []|exact I]]. intros y [<-|[]]. reflexivity.
  - vm_compute. repeat match goal with |- _ /\ _ => split end; reflexivity.
Qed.

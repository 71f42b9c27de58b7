(** * Property theorems: what the self checks establish (C64, C65) *)
From Verif Require Import PyBase Model Spec History Reach Concrete ListClass ClassSpec ModelSet SetSpec ConcreteSet ModelDict DictSpec
  CheckSpec ConcreteCheck CheckProps.

(** C64, what holds.  The full statement would drop [tree_row]: whatever [_check] accepts behaves as
    the sorted list it shows.  [_check] does not look at where the leaves of the positional index
    begin; given that they begin a row of the tree (or there is no index), and that equal values are
    identical, an accepted SortedList behaves as the sorted list it shows in every history. *)
Theorem C64_list_partial : forall V (ltb eqb : V -> V -> bool) dflt c,
  TotalOrder ltb eqb -> Identity eqb -> 1 <= dflt ->
  sl_check (total2 ltb) (total2 eqb) c = Ok tt -> tree_row c ->
  exists l, shows c l /\ sorted ltb l /\
    forall ops, Forall lop_ok ops -> exists c',
      sl_run (total2 ltb) (total2 eqb) dflt ops c = (fst (sp_run ltb eqb ltb ops l), c') /\
      shows c' (snd (sp_run ltb eqb ltb ops l)).
Proof. exact c64_list. Qed.
Print Assumptions C64_list_partial.

Example C64_list_case : TotalOrder Nat.ltb Nat.eqb /\ Identity Nat.eqb /\ 1 <= 4 /\
  sl_check (total2 Nat.ltb) (total2 Nat.eqb) ck_good = Ok tt /\ tree_row ck_good /\
  fst (sl_run (total2 Nat.ltb) (total2 Nat.eqb) 4 [LAdd 4; LGet 4; LDel (-1); LIndex 5 None None; LGet 2] ck_good)
    = [RUnit; RVal 4; RUnit; RNat 5; RVal 3].
Proof.
  split; [exact nat_total|]. split; [exact Nat.eqb_eq|]. split; [lia|]. split; [reflexivity|]. split; [exact ck_good_row|].
  reflexivity.
Qed.

(** C64 for SortedKeyList, with the same two provisos. *)
Theorem C64_keylist_partial : forall V K (key : V -> K) (kltb keqb : K -> K -> bool) (vltb eqb : V -> V -> bool) dflt s,
  TotalOrder kltb keqb -> Identity keqb -> EqCompat (by_key key kltb) eqb -> 1 <= dflt ->
  skl_check (total2 kltb) (total2 keqb) (total1 key) s = Ok tt -> tree_row (kc s) ->
  exists l, kshows s l /\ sorted (by_key key kltb) l /\
    forall ops, Forall kop_ok ops -> Forall (comparable vltb eqb) ops -> exists s',
      skl_run (total2 vltb) (total2 eqb) (total2 kltb) (total2 keqb) (total1 key) dflt ops s
        = (fst (sp_krun eqb vltb key kltb ops l), s') /\
      kshows s' (snd (sp_krun eqb vltb key kltb ops l)).
Proof. exact c64_keylist. Qed.
Print Assumptions C64_keylist_partial.

Example C64_keylist_case : TotalOrder Nat.ltb Nat.eqb /\ Identity Nat.eqb /\ EqCompat (by_key fst Nat.ltb) pairb /\ 1 <= 4 /\
  skl_check (total2 Nat.ltb) (total2 Nat.eqb) (total1 fst) ck_keyed = Ok tt /\ tree_row (kc ck_keyed) /\
  kshows ck_keyed [(1, 5); (1, 3); (1, 4); (2, 0); (5, 5); (5, 4); (7, 1)].
Proof.
  split; [exact nat_total|]. split; [exact Nat.eqb_eq|]. split; [exact pairb_compat|]. split; [lia|]. split; [reflexivity|].
  split; [|reflexivity]. right. split; [cbn; lia|]. exists 2. reflexivity.
Qed.

(** C64 is false as it stands: [_check] accepts a SortedList whose index puts the leaves at position
    2, and indexing it then answers with another element. *)
Theorem C64_list_refuted : exists (c : core nat nat) l i,
  sl_check (total2 Nat.ltb) (total2 Nat.eqb) c = Ok tt /\ shows c l /\ sorted Nat.ltb l /\
  fst (getitem_int i c) <> getz l i.
Proof. exact c64_refuted. Qed.
Print Assumptions C64_list_refuted.

Example C64_refuted_case : sl_check (total2 Nat.ltb) (total2 Nat.eqb) ck_bad = Ok tt /\
  map (fun i => fst (getitem_int i ck_bad)) [0; 1; 2; 3; 4; 5; 6]%Z = [Ok 1; Ok 2; Ok 5; Ok 6; Ok 7; Ok 1; Ok 2].
Proof. split; reflexivity. Qed.

(** C64 is false of SortedKeyList for the same reason. *)
Theorem C64_keylist_refuted : exists (s : skl nat nat) l i,
  skl_check (total2 Nat.ltb) (total2 Nat.eqb) (total1 (fun v => v)) s = Ok tt /\ kshows s l /\ sorted Nat.ltb l /\
  fst (getitem_int i (kc s)) <> getz l i.
Proof. exact c64_key_refuted. Qed.
Print Assumptions C64_keylist_refuted.

Example C64_keylist_refuted_case : ~ tree_row ck_bad.
Proof. intros [H|[_ [[|[|[|D]]] H]]]; [discriminate..|]. cbn in H. destruct (2 ^ D); cbn in H; lia. Qed.

(** C65, what holds for SortedSet.  The full statement would not ask for a list without repetitions:
    whatever [_check] accepts behaves as a sorted set.  With that, and the provisos of C64, an
    accepted set goes through every history as the reference says. *)
Theorem C65_set_partial : forall V K (ltb eqb : V -> V -> bool) dflt ord (s : sset (core V V) V) l,
  TotalOrder ltb eqb -> Identity eqb -> 1 <= dflt -> any_order ord ->
  let T := plain (K:=K) (total2 ltb) (total2 eqb) dflt in
  fst (ss_check T eqb s) = Ok tt -> tree_row (s_list s) -> distinct eqb (s_set s) ->
  ss_shows T s l -> distinct eqb l ->
  forall ops, Forall sop_ok ops -> exists rs s' l',
    ss_run T eqb ord ops s = (rs, s') /\ set_history ltb eqb (fwd_plain ltb eqb) ops l rs l' /\ ss_shows T s' l'.
Proof. exact c65_set. Qed.
Print Assumptions C65_set_partial.

Example C65_set_case : TotalOrder Nat.ltb Nat.eqb /\ Identity Nat.eqb /\ 1 <= 4 /\ any_order (fun _ (l : list nat) => l) /\
  fst (ss_check ckT Nat.eqb ck_okset) = Ok tt /\ tree_row (s_list ck_okset) /\ distinct Nat.eqb (s_set ck_okset) /\
  ss_shows ckT ck_okset [1; 2; 3; 4; 5; 6; 7] /\ distinct Nat.eqb [1; 2; 3; 4; 5; 6; 7].
Proof.
  split; [exact nat_total|]. split; [exact Nat.eqb_eq|]. split; [lia|]. split; [intros n l; reflexivity|]. split; [reflexivity|].
  split; [exact ck_good_row|]. split; [cbn; intuition (subst; reflexivity)|]. split; [reflexivity|]. cbn; intuition (subst; reflexivity).
Qed.

(** C65, what holds for SortedSet with a key function. *)
Theorem C65_keyset_partial : forall V K (key : V -> K) (kltb keqb : K -> K -> bool) (eqb : V -> V -> bool) dflt ord (s : sset (skl V K) V) l,
  TotalOrder kltb keqb -> Identity keqb -> Identity eqb -> 1 <= dflt -> any_order ord ->
  let T := keyed (total2 eqb) (total2 kltb) (total2 keqb) (total1 key) dflt in
  fst (ss_check T eqb s) = Ok tt -> tree_row (kc (s_list s)) -> distinct eqb (s_set s) ->
  ss_shows T s l -> distinct eqb l ->
  forall ops, Forall sop_ok ops -> exists rs s' l',
    ss_run T eqb ord ops s = (rs, s') /\
    set_history (by_key key kltb) eqb (fwd_keyed key kltb eqb) ops l rs l' /\ ss_shows T s' l'.
Proof. exact c65_keyset. Qed.
Print Assumptions C65_keyset_partial.

Example C65_keyset_case : fst (ss_check ckK Nat.eqb ck_kset) = Ok tt /\ tree_row (kc (s_list ck_kset)) /\
  distinct Nat.eqb (s_set ck_kset) /\ ss_shows ckK ck_kset [9; 8; 7; 6; 5; 4; 3] /\ distinct Nat.eqb [9; 8; 7; 6; 5; 4; 3].
Proof.
  split; [reflexivity|]. split; [right; split; [cbn; lia|exists 2; reflexivity]|].
  split; [cbn; intuition (subst; reflexivity)|]. split; [reflexivity|]. cbn; intuition (subst; reflexivity).
Qed.

(** C65 is false as it stands: [_check] accepts a SortedSet whose list has a member twice and
    lacks another, so a member is not listed. *)
Theorem C65_set_refuted : exists (s : sset (core nat nat) nat) l v,
  fst (ss_check ckT Nat.eqb s) = Ok tt /\ tree_row (s_list s) /\ distinct Nat.eqb (s_set s) /\
  ss_shows ckT s l /\ fst (ss_contains Nat.eqb v s) = Ok true /\ ~ In v l.
Proof. exact c65_set_refuted. Qed.
Print Assumptions C65_set_refuted.

Example C65_set_refuted_case : fst (ss_check ckT Nat.eqb ck_set) = Ok tt /\ s_set ck_set = [1; 2] /\
  fst (ss_iter ckT ck_set) = Ok [1; 1].
Proof. repeat split. Qed.

(** C65, what holds for SortedDict, with the same provisos: the keys are listed in order and every
    history goes as on a plain dict. *)
Theorem C65_dict_partial : forall A B K (ltb eqb : A -> A -> bool) (veqb : B -> B -> bool) dflt (s : sdict (core A A) A B) ks,
  TotalOrder ltb eqb -> Identity eqb -> 1 <= dflt ->
  let T := plain (K:=K) (total2 ltb) (total2 eqb) dflt in
  fst (sd_check T eqb s) = Ok tt -> tree_row (d_list s) -> distinct_keys eqb (d_items s) ->
  shows (d_list s) ks -> distinct eqb ks ->
  map fst (listing ltb (d_items s)) = ks /\
  forall ops, Forall (dop_ok eqb) ops -> exists s',
    sd_run T eqb veqb ops s = (fst (ref_run ltb eqb veqb (fwd_plain ltb eqb) ops (d_items s)), s') /\
    sd_shows T eqb s' (listing ltb (snd (ref_run ltb eqb veqb (fwd_plain ltb eqb) ops (d_items s)))).
Proof. exact c65_dict. Qed.
Print Assumptions C65_dict_partial.

Example C65_dict_case : TotalOrder Nat.ltb Nat.eqb /\ Identity Nat.eqb /\ 1 <= 4 /\
  fst (sd_check ckT Nat.eqb ck_okdict) = Ok tt /\ tree_row (d_list ck_okdict) /\ distinct_keys Nat.eqb (d_items ck_okdict) /\
  shows (d_list ck_okdict) [1; 2; 3; 4; 5; 6; 7] /\ distinct Nat.eqb [1; 2; 3; 4; 5; 6; 7].
Proof.
  split; [exact nat_total|]. split; [exact Nat.eqb_eq|]. split; [lia|]. split; [reflexivity|].
  split; [exact ck_good_row|]. split; [cbn; intuition (subst; reflexivity)|]. split; [reflexivity|]. cbn; intuition (subst; reflexivity).
Qed.

(** C65, what holds for SortedDict with a key function that tells keys apart (among keys with
    equal sort keys [_check] cannot see the order of insertion). *)
Theorem C65_keydict_partial : forall A B K (key : A -> K) (kltb keqb : K -> K -> bool) (eqb : A -> A -> bool) (veqb : B -> B -> bool) dflt
  (s : sdict (skl A K) A B) ks,
  TotalOrder kltb keqb -> Identity keqb -> Identity eqb -> (forall x y, key x = key y -> x = y) -> 1 <= dflt ->
  let T := keyed (total2 eqb) (total2 kltb) (total2 keqb) (total1 key) dflt in
  fst (sd_check T eqb s) = Ok tt -> tree_row (kc (d_list s)) -> distinct_keys eqb (d_items s) ->
  kshows (d_list s) ks -> distinct eqb ks ->
  map fst (listing (by_key key kltb) (d_items s)) = ks /\
  forall ops, Forall (dop_ok eqb) ops -> exists s',
    sd_run T eqb veqb ops s
      = (fst (ref_run (by_key key kltb) eqb veqb (fwd_keyed key kltb eqb) ops (d_items s)), s') /\
    sd_shows T eqb s'
      (listing (by_key key kltb) (snd (ref_run (by_key key kltb) eqb veqb (fwd_keyed key kltb eqb) ops (d_items s)))).
Proof. exact c65_keydict. Qed.
Print Assumptions C65_keydict_partial.

Example C65_keydict_case : fst (sd_check ckK Nat.eqb ck_kdict) = Ok tt /\ tree_row (kc (d_list ck_kdict)) /\
  distinct_keys Nat.eqb (d_items ck_kdict) /\ kshows (d_list ck_kdict) [9; 8; 7; 6; 5; 4; 3] /\
  distinct Nat.eqb [9; 8; 7; 6; 5; 4; 3].
Proof.
  split; [reflexivity|]. split; [right; split; [cbn; lia|exists 2; reflexivity]|].
  split; [cbn; intuition (subst; reflexivity)|]. split; [reflexivity|]. cbn; intuition (subst; reflexivity).
Qed.

(** C65 is false of SortedDict as it stands: an accepted dict may map a key it does not list. *)
Theorem C65_dict_refuted : exists (s : sdict (core nat nat) nat nat) l k v,
  fst (sd_check ckT Nat.eqb s) = Ok tt /\ tree_row (d_list s) /\ distinct_keys Nat.eqb (d_items s) /\
  sd_shows ckT Nat.eqb s l /\ fst (sd_getitem Nat.eqb k s) = Ok v /\ ~ In (k, v) l.
Proof. exact c65_dict_refuted. Qed.
Print Assumptions C65_dict_refuted.

Example C65_dict_refuted_case : fst (sd_check ckT Nat.eqb ck_dict) = Ok tt /\
  fst (sd_getitem Nat.eqb 2 ck_dict) = Ok 20 /\ fst (sd_items ckT Nat.eqb ck_dict) = Ok [(1, 10); (1, 10)].
Proof. repeat split. Qed.

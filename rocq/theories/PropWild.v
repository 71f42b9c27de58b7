(** * Property theorems: SortedSet and SortedDict under arbitrary comparisons (C58-C63) *)
From Coq Require Import Permutation.
From Verif Require Import PyBase Model Spec History Reach Concrete ListClass ClassSpec ModelSet SetSpec ConcreteSet
  ModelDict DictSpec ConcreteDict FaultSpec WildSpec WildProps ConcreteWild.

(** C58: whatever [<] does (it may raise, be no order, and change from one operation to the next),
    a SortedSet whose operations were not cut short while changing it lists its members, each once;
    iteration, len and membership agree; every further operation has its usual effect up to the
    positions in the list, or raises what a comparison raised and changes nothing. *)
Theorem C58_plain : forall V K (eqb : V -> V -> bool) dflt ord s, Equiv eqb -> any_order ord -> 1 <= dflt ->
  wset_reach (plain_class (K:=K) eqb dflt) eqb ord s ->
  exists l, distinct eqb l /\ ss_len s = (Ok (length l), s) /\
    (forall v, exists b, ss_contains eqb v s = (Ok b, s) /\ (b = true <-> member eqb v l)) /\
    forall lt, let T := plain (K:=K) lt (total2 eqb) dflt in
      ss_shows T s l /\ ss_reversed T s = (Ok (rev l), s) /\
      forall o r s', sop_ok o -> ss_step T eqb ord o s = (r, s') -> ~ scut eqb o s r ->
        (exists l', ss_shows T s' l' /\ weak_effect eqb o l r l') \/
        (exists e, r = RExn e /\ (exists x y, lt x y = Err e) /\ ss_shows T s' l /\ s_set s' = s_set s).
Proof. exact c58_plain. Qed.
Print Assumptions C58_plain.

Example C58_case : Equiv peqb /\ any_order flip /\ 1 <= 2 /\ wset_reach pfam peqb flip wss /\
  ss_shows (wp grumpy_lt) wss wss_l /\
  fst (ss_step (wp odd_lt) peqb flip (SAdd (2, 3)) wss) = RUnit /\
  fst (ss_iter (wp yes_lt) (snd (ss_step (wp odd_lt) peqb flip (SAdd (2, 3)) wss))) =
    Ok [(6, 6); (0, 0); (4, 4); (9, 0); (7, 0); (8, 0); (3, 1); (1, 1); (2, 3); (5, 5)] /\
  fst (ss_step (wp grumpy_lt) peqb flip (SFwd (FBisectLeft (2, 0))) wss) = RExn TypeError.
Proof. split; [exact peqb_equiv|]. split; [exact flip_order|]. split; [lia|]. split; [exact wss_reach|]. vm_compute. repeat match goal with |- _ /\ _ => split end; reflexivity. Qed.

(** C58, with a key function (which may raise, as may the comparisons of keys). *)
Theorem C58_keyed : forall V K (eqb : V -> V -> bool) (kf : V -> res K) dflt ord s, Equiv eqb -> any_order ord -> 1 <= dflt ->
  wset_reach (keyed_class eqb kf dflt) eqb ord s ->
  exists l, distinct eqb l /\ ss_len s = (Ok (length l), s) /\
    (forall v, exists b, ss_contains eqb v s = (Ok b, s) /\ (b = true <-> member eqb v l)) /\
    forall klt keq, let T := keyed (total2 eqb) klt keq kf dflt in
      ss_shows T s l /\ ss_reversed T s = (Ok (rev l), s) /\
      forall o r s', sop_ok o -> ss_step T eqb ord o s = (r, s') -> ~ scut eqb o s r ->
        (exists l', ss_shows T s' l' /\ weak_effect eqb o l r l') \/
        (exists e, r = RExn e /\ k_raises klt keq kf e /\ ss_shows T s' l /\ s_set s' = s_set s).
Proof. exact c58_keyed. Qed.
Print Assumptions C58_keyed.

Example C58_keyed_case : Equiv pairb /\ any_order flip /\ 1 <= 2 /\ wset_reach kfam pairb flip wkss /\
  ss_shows (wk klt_grumpy) wkss [(1, 1); (2, 2); (3, 2); (7, 0); (9, 0); (4, 4); (8, 0)] /\
  fst (ss_step (wk klt_grumpy) pairb flip (SAdd (10, 0)) wkss) = RExn TypeError /\
  fst (ss_step (wk klt_grumpy) pairb flip (SDel (-1)) wkss) = RUnit.
Proof. split; [exact pairb_equiv|]. split; [exact flip_order|]. split; [lia|]. split; [exact wkss_reach|]. vm_compute. repeat match goal with |- _ /\ _ => split end; reflexivity. Qed.

(** C59: what a SortedSet operation leaves behind when a comparison raises (or the search misses
    its value) after the operation has begun to change the set ([set_failed], by operation). *)
Theorem C59_plain : forall V K (eqb : V -> V -> bool) dflt ord s, Equiv eqb -> any_order ord -> 1 <= dflt ->
  wset_reach (plain_class (K:=K) eqb dflt) eqb ord s ->
  forall lt l o r s', let T := plain (K:=K) lt (total2 eqb) dflt in
    ss_shows T s l -> sop_ok o -> ss_step T eqb ord o s = (r, s') -> scut eqb o s r ->
    exists e l', r = RExn e /\ ((exists x y, lt x y = Err e) \/ (e = ValueError /\ may_miss o)) /\
      ss_shows T s' l' /\ set_failed eqb o l (s_set s) l' (s_set s').
Proof. exact c59_plain. Qed.
Print Assumptions C59_plain.

Example C59_case : Equiv peqb /\ any_order flip /\ 1 <= 2 /\ wset_reach pfam peqb flip wss /\
  ss_shows (wp grumpy_lt) wss wss_l /\
  fst (ss_step (wp grumpy_lt) peqb flip (SAdd (2, 0)) wss) = RExn TypeError /\
  fst (ss_step (wp odd_lt) peqb flip (SDiscard (6, 6)) wss) = RExn ValueError /\
  fst (ss_step (wp grumpy_lt) peqb flip (SUpdate [AIter [(10, 0); (11, 0); (12, 0)]]) wss) = RExn TypeError /\
  fst (ss_iter (wp odd_lt) (snd (ss_step (wp grumpy_lt) peqb flip (SUpdate [AIter [(10, 0); (11, 0); (12, 0)]]) wss))) = Ok [].
Proof. split; [exact peqb_equiv|]. split; [exact flip_order|]. split; [lia|]. split; [exact wss_reach|]. vm_compute. repeat match goal with |- _ /\ _ => split end; reflexivity. Qed.

(** C59, with a key function. *)
Theorem C59_keyed : forall V K (eqb : V -> V -> bool) (kf : V -> res K) dflt ord s, Equiv eqb -> any_order ord -> 1 <= dflt ->
  wset_reach (keyed_class eqb kf dflt) eqb ord s ->
  forall klt keq l o r s', let T := keyed (total2 eqb) klt keq kf dflt in
    ss_shows T s l -> sop_ok o -> ss_step T eqb ord o s = (r, s') -> scut eqb o s r ->
    exists e l', r = RExn e /\ (k_raises klt keq kf e \/ (e = ValueError /\ may_miss o)) /\
      ss_shows T s' l' /\ set_failed eqb o l (s_set s) l' (s_set s').
Proof. exact c59_keyed. Qed.
Print Assumptions C59_keyed.

Example C59_keyed_case : Equiv pairb /\ any_order flip /\ 1 <= 2 /\ wset_reach kfam pairb flip wkss /\
  ss_shows (wk klt_grumpy) wkss [(1, 1); (2, 2); (3, 2); (7, 0); (9, 0); (4, 4); (8, 0)] /\
  fst (ss_step (wk klt_grumpy) pairb flip (SAdd (10, 0)) wkss) = RExn TypeError.
Proof. split; [exact pairb_equiv|]. split; [exact flip_order|]. split; [lia|]. split; [exact wkss_reach|]. vm_compute. repeat match goal with |- _ /\ _ => split end; reflexivity. Qed.

(** C60 is false: after a [discard] or [remove] during which a comparison raised, the value is no
    longer a member, but iteration still lists it, and [len] is one less than the number of listed values. *)
Theorem C60_discard_consistent_refuted : exists (lt : nat -> nat -> res bool) dflt ord s0 s v e l,
  let T := plain (K:=nat) (total2 Nat.ltb) (total2 Nat.eqb) dflt in
  let T' := plain (K:=nat) lt (total2 Nat.eqb) dflt in
  1 <= dflt /\ any_order ord /\ ss_new T Nat.eqb ord 0 (Some (AIter [1; 2; 3])) = Ok s0 /\
  (ss_discard T' Nat.eqb v s0 = (Err e, s) /\ ss_remove T' Nat.eqb v s0 = (Err e, s)) /\
  ss_contains Nat.eqb v s = (Ok false, s) /\
  ss_shows T s l /\ In v l /\ ss_len s = (Ok (length l - 1), s).
Proof. exact c60_refuted. Qed.
Print Assumptions C60_discard_consistent_refuted.

Example C60_refuted_case : sulky 2 1 = Err TypeError /\ sulky 3 1 = Ok false.
Proof. split; reflexivity. Qed.

(** C60, what holds instead.  The full statement would be: after an exception out of [discard] or
    [remove], iteration, [len] and membership still agree.  Proved: such an exception came out of a
    comparison or is the [ValueError] of a search that missed the value, the list is untouched, and the
    value has left the hash set only. *)
Theorem C60_discard_partial : forall V K (eqb : V -> V -> bool) dflt ord s, Equiv eqb -> any_order ord -> 1 <= dflt ->
  wset_reach (plain_class (K:=K) eqb dflt) eqb ord s ->
  forall lt l v e s', let T := plain (K:=K) lt (total2 eqb) dflt in
    ss_shows T s l -> member eqb v l ->
    ss_discard T eqb v s = (Err e, s') \/ ss_remove T eqb v s = (Err e, s') ->
    ((exists x y, lt x y = Err e) \/ e = ValueError) /\ ss_shows T s' l /\
    ss_contains eqb v s' = (Ok false, s') /\ ss_len s' = (Ok (length l - 1), s').
Proof. exact c60_plain. Qed.
Print Assumptions C60_discard_partial.

Example C60_case : Equiv peqb /\ any_order flip /\ 1 <= 2 /\ wset_reach pfam peqb flip wss /\
  ss_shows (wp grumpy_lt) wss wss_l /\ peqb (9, 0) (9, 5) = true /\
  fst (ss_discard (wp grumpy_lt) peqb (9, 5) wss) = Err ValueError /\ fst (ss_discard (wp grumpy_lt) peqb (1, 1) wss) = Err TypeError.
Proof. split; [exact peqb_equiv|]. split; [exact flip_order|]. split; [lia|]. split; [exact wss_reach|]. vm_compute. repeat match goal with |- _ /\ _ => split end; reflexivity. Qed.

(** C61: whatever [<] does, a SortedDict whose operations were not cut short while changing it lists
    its items, each key once; iteration, len, membership and lookup agree; every further operation acts
    as on a plain dict whose items are listed in that order, or raises what a comparison raised (or the
    [ValueError] of a search that missed a key) and changes nothing. *)
Theorem C61_plain : forall A B K (eqb : A -> A -> bool) (veqb : B -> B -> bool) dflt s, Equiv eqb -> 1 <= dflt ->
  wdict_reach (plain_class (K:=K) eqb dflt) eqb veqb s ->
  exists l, distinct_keys eqb l /\ Permutation l (d_items s) /\ sd_len s = (Ok (length l), s) /\
    (forall k, sd_contains eqb k s = (Ok (match lookup eqb k l with Some _ => true | None => false end), s)) /\
    forall lt, let T := plain (K:=K) lt (total2 eqb) dflt in
      sd_shows T eqb s l /\ sd_iter T s = (Ok (map fst l), s) /\ sd_reversed T s = (Ok (rev (map fst l)), s) /\
      forall o r s', dop_ok eqb o -> sd_step T eqb veqb o s = (r, s') -> ~ dcut eqb o s r ->
        (exists l', sd_shows T eqb s' l' /\ weak_deffect eqb veqb o (d_items s) l r (d_items s') l') \/
        (exists e, r = cut_result o e /\ ((exists x y, lt x y = Err e) \/ (e = ValueError /\ dmay_miss o)) /\
           sd_shows T eqb s' l /\ d_items s' = d_items s).
Proof. exact c61_plain. Qed.
Print Assumptions C61_plain.

Example C61_case : Equiv peqb /\ 1 <= 2 /\ wdict_reach pfam peqb Nat.eqb wdd /\
  sd_shows (wp grumpy_lt) peqb wdd [((2, 0), 20); ((7, 0), 70); ((4, 0), 40); ((3, 1), 32); ((1, 1), 11); ((9, 3), 93); ((5, 5), 50)] /\
  fst (sd_step (wp grumpy_lt) peqb Nat.eqb (DSet (0, 0) 60) wdd) = OExn TypeError /\
  d_items (snd (sd_step (wp grumpy_lt) peqb Nat.eqb (DSet (0, 0) 60) wdd)) = d_items wdd /\
  fst (sd_step (wp grumpy_lt) peqb Nat.eqb (DSet (5, 1) 51) wdd) = ONone /\
  fst (sd_step (wp odd_lt) peqb Nat.eqb (DPopItem 2) wdd) = OItem ((4, 0), 40).
Proof. split; [exact peqb_equiv|]. split; [lia|]. split; [exact wdd_reach|]. vm_compute. repeat match goal with |- _ /\ _ => split end; reflexivity. Qed.

(** C61, with a key function. *)
Theorem C61_keyed : forall A B K (eqb : A -> A -> bool) (veqb : B -> B -> bool) (kf : A -> res K) dflt s, Equiv eqb -> 1 <= dflt ->
  wdict_reach (keyed_class eqb kf dflt) eqb veqb s ->
  exists l, distinct_keys eqb l /\ Permutation l (d_items s) /\ sd_len s = (Ok (length l), s) /\
    (forall k, sd_contains eqb k s = (Ok (match lookup eqb k l with Some _ => true | None => false end), s)) /\
    forall klt keq, let T := keyed (total2 eqb) klt keq kf dflt in
      sd_shows T eqb s l /\ sd_iter T s = (Ok (map fst l), s) /\ sd_reversed T s = (Ok (rev (map fst l)), s) /\
      forall o r s', dop_ok eqb o -> sd_step T eqb veqb o s = (r, s') -> ~ dcut eqb o s r ->
        (exists l', sd_shows T eqb s' l' /\ weak_deffect eqb veqb o (d_items s) l r (d_items s') l') \/
        (exists e, r = cut_result o e /\ (k_raises klt keq kf e \/ (e = ValueError /\ dmay_miss o)) /\
           sd_shows T eqb s' l /\ d_items s' = d_items s).
Proof. exact c61_keyed. Qed.
Print Assumptions C61_keyed.

Example C61_keyed_case : Equiv pairb /\ 1 <= 2 /\ wdict_reach kfam pairb Nat.eqb wkdd /\
  sd_shows (wk klt_grumpy) pairb wkdd [((1, 1), 11); ((3, 2), 32); ((7, 0), 70); ((9, 0), 90); ((2, 0), 20); ((4, 0), 40)] /\
  fst (sd_step (wk klt_grumpy) pairb Nat.eqb (DSet (5, 0) 60) wkdd) = OExn TypeError /\
  fst (sd_step (wk klt_odd) pairb Nat.eqb (DSet (6, 0) 60) wkdd) = ONone.
Proof. split; [exact pairb_equiv|]. split; [lia|]. split; [exact wkdd_reach|]. vm_compute. repeat match goal with |- _ /\ _ => split end; reflexivity. Qed.

(** C62: what a SortedDict operation leaves behind when a comparison raises after the operation has
    begun to change the dict ([dict_failed], by operation). *)
Theorem C62_plain : forall A B K (eqb : A -> A -> bool) (veqb : B -> B -> bool) dflt s, Equiv eqb -> 1 <= dflt ->
  wdict_reach (plain_class (K:=K) eqb dflt) eqb veqb s ->
  forall lt l o r s', let T := plain (K:=K) lt (total2 eqb) dflt in
    sd_shows T eqb s l -> dop_ok eqb o -> sd_step T eqb veqb o s = (r, s') -> dcut eqb o s r ->
    exists e ks', r = cut_result o e /\ ((exists x y, lt x y = Err e) \/ (e = ValueError /\ dmay_miss o)) /\
      sd_iter T s' = (Ok ks', s') /\ distinct_keys eqb (d_items s') /\
      dict_failed eqb o (d_items s) (map fst l) (d_items s') ks'.
Proof. exact c62_plain. Qed.
Print Assumptions C62_plain.

Example C62_case : Equiv peqb /\ 1 <= 2 /\ wdict_reach pfam peqb Nat.eqb wdd /\
  sd_shows (wp grumpy_lt) peqb wdd [((2, 0), 20); ((7, 0), 70); ((4, 0), 40); ((3, 1), 32); ((1, 1), 11); ((9, 3), 93); ((5, 5), 50)] /\
  fst (sd_step (wp grumpy_lt) peqb Nat.eqb (DDel (7, 7)) wdd) = OExn ValueError /\
  fst (sd_step (wp grumpy_lt) peqb Nat.eqb (DDel (5, 7)) wdd) = OExn TypeError /\
  fst (sd_step (wp grumpy_lt) peqb Nat.eqb (DSetDefault (0, 0) 60) wdd) = OExn TypeError /\
  fst (sd_step (wp grumpy_lt) peqb Nat.eqb (DUpdate (APairs [((6, 0), 60); ((8, 0), 80)])) wdd) = OExn TypeError.
Proof. split; [exact peqb_equiv|]. split; [lia|]. split; [exact wdd_reach|]. vm_compute. repeat match goal with |- _ /\ _ => split end; reflexivity. Qed.

(** C62, with a key function. *)
Theorem C62_keyed : forall A B K (eqb : A -> A -> bool) (veqb : B -> B -> bool) (kf : A -> res K) dflt s, Equiv eqb -> 1 <= dflt ->
  wdict_reach (keyed_class eqb kf dflt) eqb veqb s ->
  forall klt keq l o r s', let T := keyed (total2 eqb) klt keq kf dflt in
    sd_shows T eqb s l -> dop_ok eqb o -> sd_step T eqb veqb o s = (r, s') -> dcut eqb o s r ->
    exists e ks', r = cut_result o e /\ (k_raises klt keq kf e \/ (e = ValueError /\ dmay_miss o)) /\
      sd_iter T s' = (Ok ks', s') /\ distinct_keys eqb (d_items s') /\
      dict_failed eqb o (d_items s) (map fst l) (d_items s') ks'.
Proof. exact c62_keyed. Qed.
Print Assumptions C62_keyed.

Example C62_keyed_case : Equiv pairb /\ 1 <= 2 /\ wdict_reach kfam pairb Nat.eqb wkdd /\
  sd_shows (wk klt_grumpy) pairb wkdd [((1, 1), 11); ((3, 2), 32); ((7, 0), 70); ((9, 0), 90); ((2, 0), 20); ((4, 0), 40)] /\
  fst (sd_step (wk klt_grumpy) pairb Nat.eqb (DDel (3, 2)) wkdd) = OExn TypeError.
Proof. split; [exact pairb_equiv|]. split; [lia|]. split; [exact wkdd_reach|]. vm_compute. repeat match goal with |- _ /\ _ => split end; reflexivity. Qed.

(** C63 is false: after a [del sd[k]] during which a comparison raised, the key is gone from the dict
    but still listed by iteration, and [items()] raises [KeyError]. *)
Theorem C63_delitem_consistent_refuted : exists (lt : nat -> nat -> res bool) dflt s0 s k e l,
  let T := plain (K:=nat) (total2 Nat.ltb) (total2 Nat.eqb) dflt in
  let T' := plain (K:=nat) lt (total2 Nat.eqb) dflt in
  1 <= dflt /\ sd_new T Nat.eqb (APairs [(1, 10); (2, 20); (3, 30)]) = Ok s0 /\
  sd_delitem T' Nat.eqb k s0 = (Err e, s) /\ sd_contains Nat.eqb k s = (Ok false, s) /\
  sd_iter T s = (Ok l, s) /\ In k l /\ sd_len s = (Ok (length l - 1), s) /\
  fst (sd_items T Nat.eqb s) = Err KeyError.
Proof. exact c63_refuted. Qed.
Print Assumptions C63_delitem_consistent_refuted.

Example C63_refuted_case : sulky 1 2 = Err TypeError /\ sulky 1 3 = Ok true.
Proof. split; reflexivity. Qed.

(** C63, what holds instead.  The full statement would be: after an exception out of [del sd[k]] for a
    present key, iteration, [len], lookup and membership still agree.  Proved: such an exception came out
    of a comparison or is the [ValueError] of a search that missed the key, the list is untouched, and the
    item has left the dict only. *)
Theorem C63_delitem_partial : forall A B K (eqb : A -> A -> bool) (veqb : B -> B -> bool) dflt s, Equiv eqb -> 1 <= dflt ->
  wdict_reach (plain_class (K:=K) eqb dflt) eqb veqb s ->
  forall lt l k e s', let T := plain (K:=K) lt (total2 eqb) dflt in
    sd_shows T eqb s l -> lookup eqb k l <> None -> sd_delitem T eqb k s = (Err e, s') ->
    ((exists x y, lt x y = Err e) \/ e = ValueError) /\ sd_iter T s' = (Ok (map fst l), s') /\
    d_items s' = erase eqb k (d_items s) /\ sd_contains eqb k s' = (Ok false, s') /\ sd_len s' = (Ok (length l - 1), s').
Proof. exact c63_partial. Qed.
Print Assumptions C63_delitem_partial.

Example C63_case : Equiv peqb /\ 1 <= 2 /\ wdict_reach pfam peqb Nat.eqb wdd /\
  sd_shows (wp grumpy_lt) peqb wdd [((2, 0), 20); ((7, 0), 70); ((4, 0), 40); ((3, 1), 32); ((1, 1), 11); ((9, 3), 93); ((5, 5), 50)] /\
  fst (sd_delitem (wp grumpy_lt) peqb (7, 7) wdd) = Err ValueError /\ fst (sd_delitem (wp grumpy_lt) peqb (5, 7) wdd) = Err TypeError.
Proof. split; [exact peqb_equiv|]. split; [lia|]. split; [exact wdd_reach|]. vm_compute. repeat match goal with |- _ /\ _ => split end; reflexivity. Qed.

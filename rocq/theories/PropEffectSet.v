(** * C118, C119: SortedSet and SortedDict over comparisons with effects (proofs in EffectSetProps.v) *)
From Coq Require Import Permutation.
From Verif Require Import PyBase Model Spec History ListClass ClassSpec ModelSet SetSpec ModelDict DictSpec FaultSpec WildSpec ConcreteCompare
  ModelEffect EffectSpec EffectProps ModelEffectSet EffectSetSpec EffectSetProps.

(** C118, SortedSet: every call of [<] is a step of a world [W] (C115), and [<] and the way of sorting may be others at each operation.
    A SortedSet whose operations were not cut short while changing it lists its members, each once; len, membership and
    iteration agree; every further operation has its usual effect up to the positions in the list ([weak_effect]), or raises what [<]
    raised or the IndexError of a search led astray, and changes nothing. *)
Theorem C118_set : forall W V K (eqb : V -> V -> bool) dflt ord s, Equiv eqb -> any_order ord -> 1 <= dflt ->
  wset_reach (effect_class (W:=W) (K:=K) eqb dflt) eqb ord s ->
  exists l, distinct eqb l /\ ss_len s = (Ok (length l), s) /\
    (forall v, exists b, ss_contains eqb v s = (Ok b, s) /\ (b = true <-> member eqb v l)) /\
    forall (srt : sorting W) (lt : V -> V -> M W bool) w0, permutes srt -> let T := e_plain (K:=K) srt lt eqb dflt w0 in
      ss_shows T s l /\ ss_reversed T s = (Ok (rev l), s) /\
      forall o r s', sop_ok o -> ss_step T eqb ord o s = (r, s') -> ~ scut eqb o s r ->
        (exists l', ss_shows T s' l' /\ weak_effect eqb o l r l') \/
        (exists e, r = RExn e /\ astray lt e /\ ss_shows T s' l /\ s_set s' = s_set s).
Proof. exact c118_set. Qed.
Print Assumptions C118_set.

Example C118_set_case :
  let T := e_plain (K:=nat) by_insertion flip Nat.eqb 2 true in
  exists s, ss_new T Nat.eqb back 0 (Some (AIter [3; 1; 2; 4])) = Ok s /\ Equiv Nat.eqb /\ any_order back /\
  wset_reach (effect_class (W:=bool) (K:=nat) Nat.eqb 2) Nat.eqb back s /\ permutes (@by_insertion bool) /\
  ss_shows T s [2; 3; 1; 4] /\ fst (ss_step T Nat.eqb back (SAdd 0) s) = RUnit /\
  fst (ss_iter T (snd (ss_step T Nat.eqb back (SAdd 0) s))) = Ok [2; 3; 1; 4; 0].
Proof.
  eexists. split; [vm_compute; reflexivity|]. split; [apply nat_equiv|]. split; [apply back_order|]. split.
  { eapply (wset_new _ _ _ (e_plain by_insertion flip Nat.eqb 2 true) 0 (Some (AIter [3; 1; 2; 4])));
      [exists by_insertion, flip, true; split; [apply by_insertion_permutes|reflexivity]|vm_compute; reflexivity]. }
  split; [apply by_insertion_permutes|]. vm_compute. repeat match goal with |- _ /\ _ => split end; reflexivity.
Qed.

(** C118, SortedSet with a key function, which has no effects but may raise; comparisons of keys have effects. *)
Theorem C118_set_keyed : forall W V K (eqb : V -> V -> bool) (kf : V -> res K) dflt ord s, Equiv eqb -> any_order ord -> 1 <= dflt ->
  wset_reach (effect_kclass (W:=W) eqb kf dflt) eqb ord s ->
  exists l, distinct eqb l /\ ss_len s = (Ok (length l), s) /\
    (forall v, exists b, ss_contains eqb v s = (Ok b, s) /\ (b = true <-> member eqb v l)) /\
    forall (srt : sorting W) klt keq w0, permutes srt -> let T := e_keyed srt klt keq kf eqb dflt w0 in
      ss_shows T s l /\ ss_reversed T s = (Ok (rev l), s) /\
      forall o r s', sop_ok o -> ss_step T eqb ord o s = (r, s') -> ~ scut eqb o s r ->
        (exists l', ss_shows T s' l' /\ weak_effect eqb o l r l') \/
        (exists e, r = RExn e /\ k_astray klt keq kf e /\ ss_shows T s' l /\ s_set s' = s_set s).
Proof. exact c118_set_keyed. Qed.
Print Assumptions C118_set_keyed.

Example C118_set_keyed_case :
  let T := e_keyed by_insertion flip flip (total1 last_digit) Nat.eqb 2 true in
  exists s, ss_new T Nat.eqb back 0 (Some (AIter [13; 21; 32; 4])) = Ok s /\ Equiv Nat.eqb /\ any_order back /\
  wset_reach (effect_kclass (W:=bool) Nat.eqb (total1 last_digit) 2) Nat.eqb back s /\ permutes (@by_insertion bool) /\
  ss_shows T s [32; 13; 21; 4] /\ fst (ss_step T Nat.eqb back (SAdd 0) s) = RUnit.
Proof.
  eexists. split; [vm_compute; reflexivity|]. split; [apply nat_equiv|]. split; [apply back_order|]. split.
  { eapply (wset_new _ _ _ (e_keyed by_insertion flip flip (total1 last_digit) Nat.eqb 2 true) 0 (Some (AIter [13; 21; 32; 4])));
      [exists by_insertion, flip, flip, true; split; [apply by_insertion_permutes|reflexivity]|vm_compute; reflexivity]. }
  split; [apply by_insertion_permutes|]. vm_compute. repeat match goal with |- _ /\ _ => split end; reflexivity.
Qed.

(** C118, SortedDict. *)
Theorem C118_dict : forall W A B K (eqb : A -> A -> bool) (veqb : B -> B -> bool) dflt s, Equiv eqb -> 1 <= dflt ->
  wdict_reach (effect_class (W:=W) (K:=K) eqb dflt) eqb veqb s ->
  exists l, distinct_keys eqb l /\ Permutation l (d_items s) /\ sd_len s = (Ok (length l), s) /\
    (forall k, sd_contains eqb k s = (Ok (match lookup eqb k l with Some _ => true | None => false end), s)) /\
    forall (srt : sorting W) (lt : A -> A -> M W bool) w0, permutes srt -> let T := e_plain (K:=K) srt lt eqb dflt w0 in
      sd_shows T eqb s l /\ sd_iter T s = (Ok (map fst l), s) /\ sd_reversed T s = (Ok (rev (map fst l)), s) /\
      forall o r s', dop_ok eqb o -> sd_step T eqb veqb o s = (r, s') -> ~ dcut eqb o s r ->
        (exists l', sd_shows T eqb s' l' /\ weak_deffect eqb veqb o (d_items s) l r (d_items s') l') \/
        (exists e, r = cut_result o e /\ (astray lt e \/ (e = ValueError /\ dmay_miss o)) /\
           sd_shows T eqb s' l /\ d_items s' = d_items s).
Proof. exact c118_dict. Qed.
Print Assumptions C118_dict.

Example C118_dict_case :
  let T := e_plain (K:=nat) by_insertion flip Nat.eqb 2 true in
  exists s, sd_new T Nat.eqb (APairs [(3, 0); (1, 1); (2, 2); (4, 3)]) = Ok s /\ Equiv Nat.eqb /\
  wdict_reach (effect_class (W:=bool) (K:=nat) Nat.eqb 2) Nat.eqb Nat.eqb s /\ permutes (@by_insertion bool) /\
  sd_shows T Nat.eqb s [(1, 1); (4, 3); (2, 2); (3, 0)] /\ fst (sd_step T Nat.eqb Nat.eqb (DSet 0 7) s) = ONone.
Proof.
  eexists. split; [vm_compute; reflexivity|]. split; [apply nat_equiv|]. split.
  { eapply (wdict_new _ _ _ (e_plain by_insertion flip Nat.eqb 2 true) (APairs [(3, 0); (1, 1); (2, 2); (4, 3)]));
      [exists by_insertion, flip, true; split; [apply by_insertion_permutes|reflexivity]|vm_compute; reflexivity]. }
  split; [apply by_insertion_permutes|]. vm_compute. repeat match goal with |- _ /\ _ => split end; reflexivity.
Qed.

(** C118, SortedDict with a key function without effects. *)
Theorem C118_dict_keyed : forall W A B K (eqb : A -> A -> bool) (veqb : B -> B -> bool) (kf : A -> res K) dflt s, Equiv eqb -> 1 <= dflt ->
  wdict_reach (effect_kclass (W:=W) eqb kf dflt) eqb veqb s ->
  exists l, distinct_keys eqb l /\ Permutation l (d_items s) /\ sd_len s = (Ok (length l), s) /\
    (forall k, sd_contains eqb k s = (Ok (match lookup eqb k l with Some _ => true | None => false end), s)) /\
    forall (srt : sorting W) klt keq w0, permutes srt -> let T := e_keyed srt klt keq kf eqb dflt w0 in
      sd_shows T eqb s l /\ sd_iter T s = (Ok (map fst l), s) /\ sd_reversed T s = (Ok (rev (map fst l)), s) /\
      forall o r s', dop_ok eqb o -> sd_step T eqb veqb o s = (r, s') -> ~ dcut eqb o s r ->
        (exists l', sd_shows T eqb s' l' /\ weak_deffect eqb veqb o (d_items s) l r (d_items s') l') \/
        (exists e, r = cut_result o e /\ (k_astray klt keq kf e \/ (e = ValueError /\ dmay_miss o)) /\
           sd_shows T eqb s' l /\ d_items s' = d_items s).
Proof. exact c118_dict_keyed. Qed.
Print Assumptions C118_dict_keyed.

Example C118_dict_keyed_case :
  let T := e_keyed by_insertion flip flip (total1 last_digit) Nat.eqb 2 true in
  exists s, sd_new T Nat.eqb (APairs [(13, 0); (21, 1); (32, 2); (4, 3)]) = Ok s /\ Equiv Nat.eqb /\
  wdict_reach (effect_kclass (W:=bool) Nat.eqb (total1 last_digit) 2) Nat.eqb Nat.eqb s /\ permutes (@by_insertion bool) /\
  sd_shows T Nat.eqb s [(21, 1); (4, 3); (32, 2); (13, 0)] /\ fst (sd_step T Nat.eqb Nat.eqb (DSet 0 7) s) = ONone.
Proof.
  eexists. split; [vm_compute; reflexivity|]. split; [apply nat_equiv|]. split.
  { eapply (wdict_new _ _ _ (e_keyed by_insertion flip flip (total1 last_digit) Nat.eqb 2 true) (APairs [(13, 0); (21, 1); (32, 2); (4, 3)]));
      [exists by_insertion, flip, flip, true; split; [apply by_insertion_permutes|reflexivity]|vm_compute; reflexivity]. }
  split; [apply by_insertion_permutes|]. vm_compute. repeat match goal with |- _ /\ _ => split end; reflexivity.
Qed.

(** C119, SortedSet: what an operation leaves behind when [<] raises, or leads the search astray, after the operation has begun to change
    the set ([set_failed], by operation). *)
Theorem C119_set : forall W V K (eqb : V -> V -> bool) dflt ord s, Equiv eqb -> any_order ord -> 1 <= dflt ->
  wset_reach (effect_class (W:=W) (K:=K) eqb dflt) eqb ord s ->
  forall (srt : sorting W) (lt : V -> V -> M W bool) w0 l o r s', let T := e_plain (K:=K) srt lt eqb dflt w0 in
    permutes srt -> ss_shows T s l -> sop_ok o -> ss_step T eqb ord o s = (r, s') -> scut eqb o s r ->
    exists e l', r = RExn e /\ (astray lt e \/ (e = ValueError /\ may_miss o)) /\
      ss_shows T s' l' /\ set_failed eqb o l (s_set s) l' (s_set s').
Proof. exact c119_set. Qed.
Print Assumptions C119_set.

Example C119_set_case :
  let T := e_plain (K:=nat) by_insertion once_no Nat.eqb 2 0 in
  exists s, ss_new T Nat.eqb back 0 (Some (AIter [1])) = Ok s /\ Equiv Nat.eqb /\ any_order back /\
  wset_reach (effect_class (W:=nat) (K:=nat) Nat.eqb 2) Nat.eqb back s /\ permutes (@by_insertion nat) /\ ss_shows T s [1] /\
  fst (ss_step T Nat.eqb back (SDiscard 1) s) = RExn IndexError /\ s_set (snd (ss_step T Nat.eqb back (SDiscard 1) s)) = [].
Proof.
  eexists. split; [vm_compute; reflexivity|]. split; [apply nat_equiv|]. split; [apply back_order|]. split.
  { eapply (wset_new _ _ _ (e_plain by_insertion once_no Nat.eqb 2 0) 0 (Some (AIter [1])));
      [exists by_insertion, once_no, 0; split; [apply by_insertion_permutes|reflexivity]|vm_compute; reflexivity]. }
  split; [apply by_insertion_permutes|]. vm_compute. repeat match goal with |- _ /\ _ => split end; reflexivity.
Qed.

(** C119, SortedSet with a key function without effects. *)
Theorem C119_set_keyed : forall W V K (eqb : V -> V -> bool) (kf : V -> res K) dflt ord s, Equiv eqb -> any_order ord -> 1 <= dflt ->
  wset_reach (effect_kclass (W:=W) eqb kf dflt) eqb ord s ->
  forall (srt : sorting W) klt keq w0 l o r s', let T := e_keyed srt klt keq kf eqb dflt w0 in
    permutes srt -> ss_shows T s l -> sop_ok o -> ss_step T eqb ord o s = (r, s') -> scut eqb o s r ->
    exists e l', r = RExn e /\ (k_astray klt keq kf e \/ (e = ValueError /\ may_miss o)) /\
      ss_shows T s' l' /\ set_failed eqb o l (s_set s) l' (s_set s').
Proof. exact c119_set_keyed. Qed.
Print Assumptions C119_set_keyed.

Example C119_set_keyed_case :
  let T := e_keyed by_insertion once_no (calm2 Nat.eqb) (total1 last_digit) Nat.eqb 2 0 in
  exists s, ss_new T Nat.eqb back 0 (Some (AIter [21])) = Ok s /\ Equiv Nat.eqb /\ any_order back /\
  wset_reach (effect_kclass (W:=nat) Nat.eqb (total1 last_digit) 2) Nat.eqb back s /\ permutes (@by_insertion nat) /\ ss_shows T s [21] /\
  fst (ss_step T Nat.eqb back (SDiscard 21) s) = RExn IndexError /\ s_set (snd (ss_step T Nat.eqb back (SDiscard 21) s)) = [].
Proof.
  eexists. split; [vm_compute; reflexivity|]. split; [apply nat_equiv|]. split; [apply back_order|]. split.
  { eapply (wset_new _ _ _ (e_keyed by_insertion once_no (calm2 Nat.eqb) (total1 last_digit) Nat.eqb 2 0) 0 (Some (AIter [21])));
      [exists by_insertion, once_no, (calm2 Nat.eqb), 0; split; [apply by_insertion_permutes|reflexivity]|vm_compute; reflexivity]. }
  split; [apply by_insertion_permutes|]. vm_compute. repeat match goal with |- _ /\ _ => split end; reflexivity.
Qed.

(** C119, SortedDict ([dict_failed], by operation). *)
Theorem C119_dict : forall W A B K (eqb : A -> A -> bool) (veqb : B -> B -> bool) dflt s, Equiv eqb -> 1 <= dflt ->
  wdict_reach (effect_class (W:=W) (K:=K) eqb dflt) eqb veqb s ->
  forall (srt : sorting W) (lt : A -> A -> M W bool) w0 l o r s', let T := e_plain (K:=K) srt lt eqb dflt w0 in
    permutes srt -> sd_shows T eqb s l -> dop_ok eqb o -> sd_step T eqb veqb o s = (r, s') -> dcut eqb o s r ->
    exists e ks', r = cut_result o e /\ (astray lt e \/ (e = ValueError /\ dmay_miss o)) /\
      sd_iter T s' = (Ok ks', s') /\ distinct_keys eqb (d_items s') /\
      dict_failed eqb o (d_items s) (map fst l) (d_items s') ks'.
Proof. exact c119_dict. Qed.
Print Assumptions C119_dict.

Example C119_dict_case :
  let T := e_plain (K:=nat) by_insertion once_no Nat.eqb 2 0 in
  exists s, sd_new T Nat.eqb (APairs [(1, 5)]) = Ok s /\ Equiv Nat.eqb /\
  wdict_reach (effect_class (W:=nat) (K:=nat) Nat.eqb 2) Nat.eqb Nat.eqb s /\ permutes (@by_insertion nat) /\ sd_shows T Nat.eqb s [(1, 5)] /\
  fst (sd_step T Nat.eqb Nat.eqb (DDel 1) s) = OExn IndexError /\ d_items (snd (sd_step T Nat.eqb Nat.eqb (DDel 1) s)) = [].
Proof.
  eexists. split; [vm_compute; reflexivity|]. split; [apply nat_equiv|]. split.
  { eapply (wdict_new _ _ _ (e_plain by_insertion once_no Nat.eqb 2 0) (APairs [(1, 5)]));
      [exists by_insertion, once_no, 0; split; [apply by_insertion_permutes|reflexivity]|vm_compute; reflexivity]. }
  split; [apply by_insertion_permutes|]. vm_compute. repeat match goal with |- _ /\ _ => split end; reflexivity.
Qed.

(** C119, SortedDict with a key function without effects. *)
Theorem C119_dict_keyed : forall W A B K (eqb : A -> A -> bool) (veqb : B -> B -> bool) (kf : A -> res K) dflt s, Equiv eqb -> 1 <= dflt ->
  wdict_reach (effect_kclass (W:=W) eqb kf dflt) eqb veqb s ->
  forall (srt : sorting W) klt keq w0 l o r s', let T := e_keyed srt klt keq kf eqb dflt w0 in
    permutes srt -> sd_shows T eqb s l -> dop_ok eqb o -> sd_step T eqb veqb o s = (r, s') -> dcut eqb o s r ->
    exists e ks', r = cut_result o e /\ (k_astray klt keq kf e \/ (e = ValueError /\ dmay_miss o)) /\
      sd_iter T s' = (Ok ks', s') /\ distinct_keys eqb (d_items s') /\
      dict_failed eqb o (d_items s) (map fst l) (d_items s') ks'.
Proof. exact c119_dict_keyed. Qed.
Print Assumptions C119_dict_keyed.

Example C119_dict_keyed_case :
  let T := e_keyed by_insertion once_no (calm2 Nat.eqb) (total1 last_digit) Nat.eqb 2 0 in
  exists s, sd_new T Nat.eqb (APairs [(21, 5)]) = Ok s /\ Equiv Nat.eqb /\
  wdict_reach (effect_kclass (W:=nat) Nat.eqb (total1 last_digit) 2) Nat.eqb Nat.eqb s /\ permutes (@by_insertion nat) /\ sd_shows T Nat.eqb s [(21, 5)] /\
  fst (sd_step T Nat.eqb Nat.eqb (DDel 21) s) = OExn IndexError /\ d_items (snd (sd_step T Nat.eqb Nat.eqb (DDel 21) s)) = [].
Proof.
  eexists. split; [vm_compute; reflexivity|]. split; [apply nat_equiv|]. split.
  { eapply (wdict_new _ _ _ (e_keyed by_insertion once_no (calm2 Nat.eqb) (total1 last_digit) Nat.eqb 2 0) (APairs [(21, 5)]));
      [exists by_insertion, once_no, (calm2 Nat.eqb), 0; split; [apply by_insertion_permutes|reflexivity]|vm_compute; reflexivity]. }
  split; [apply by_insertion_permutes|]. vm_compute. repeat match goal with |- _ /\ _ => split end; reflexivity.
Qed.

(** * SortedSet and SortedDict over comparisons with effects: statements *)
From Coq Require Import Permutation.
From Verif Require Import PyBase Model Spec History ListClass ClassSpec ModelSet SetSpec ModelDict DictSpec FaultSpec WildSpec WildClass WildSet WildDict WildProps
  ModelEffect EffectSpec EffectFacts ModelEffectSet EffectSetSpec EffectSet.
Local Unset Implicit Arguments.

Lemma e_fam {W V K} (eqb : V -> V -> bool) dflt : 1 <= dflt -> forall T : listcls (W * core V V) V K, effect_class eqb dflt T ->
  exists raised, WildOK T eqb raised ER.
Proof. intros Hd T (srt & lt & w0 & Hs & ->). eexists. apply e_plain_wild; assumption. Qed.
Lemma ek_fam {W V K} (eqb : V -> V -> bool) (kf : V -> res K) dflt : 1 <= dflt -> forall T : listcls (W * skl V K) V K, effect_kclass eqb kf dflt T ->
  exists raised, WildOK T eqb raised EKR.
Proof. intros Hd T (srt & klt & keq & w0 & Hs & ->). eexists. apply e_keyed_wild; assumption. Qed.

Lemma c118_set : forall W V K (eqb : V -> V -> bool) dflt ord s, Equiv eqb -> any_order ord -> 1 <= dflt ->
  wset_reach (effect_class (W:=W) (K:=K) eqb dflt) eqb ord s ->
  exists l, distinct eqb l /\ ss_len s = (Ok (length l), s) /\
    (forall v, exists b, ss_contains eqb v s = (Ok b, s) /\ (b = true <-> member eqb v l)) /\
    forall (srt : sorting W) (lt : V -> V -> M W bool) w0, permutes srt -> let T := e_plain (K:=K) srt lt eqb dflt w0 in
      ss_shows T s l /\ ss_reversed T s = (Ok (rev l), s) /\
      forall o r s', sop_ok o -> ss_step T eqb ord o s = (r, s') -> ~ scut eqb o s r ->
        (exists l', ss_shows T s' l' /\ weak_effect eqb o l r l') \/
        (exists e, r = RExn e /\ astray lt e /\ ss_shows T s' l /\ s_set s' = s_set s).
Proof.
  intros W V K eqb dflt ord s HE HO Hd HR.
  destruct (wset_sound _ eqb HE ER (e_fam eqb dflt Hd) ord HO s HR) as (l & H1 & _ & _ & H2 & H3 & H4).
  exists l. split; [exact H1|]. split; [exact H2|]. split; [exact H3|]. intros srt lt w0 Hs T.
  assert (HT : effect_class eqb dflt T) by (exists srt, lt, w0; auto). destruct (H4 T HT) as [H5 H6].
  split; [exact H5|]. split; [exact H6|]. intros o r s' Ho E HC.
  exact (wset_effect _ eqb HE ER (e_fam eqb dflt Hd) ord HO T _ s l o r s' (e_plain_wild eqb srt Hs lt dflt Hd w0) HT HR H5 Ho E HC).
Qed.

Lemma c118_set_keyed : forall W V K (eqb : V -> V -> bool) (kf : V -> res K) dflt ord s, Equiv eqb -> any_order ord -> 1 <= dflt ->
  wset_reach (effect_kclass (W:=W) eqb kf dflt) eqb ord s ->
  exists l, distinct eqb l /\ ss_len s = (Ok (length l), s) /\
    (forall v, exists b, ss_contains eqb v s = (Ok b, s) /\ (b = true <-> member eqb v l)) /\
    forall (srt : sorting W) klt keq w0, permutes srt -> let T := e_keyed srt klt keq kf eqb dflt w0 in
      ss_shows T s l /\ ss_reversed T s = (Ok (rev l), s) /\
      forall o r s', sop_ok o -> ss_step T eqb ord o s = (r, s') -> ~ scut eqb o s r ->
        (exists l', ss_shows T s' l' /\ weak_effect eqb o l r l') \/
        (exists e, r = RExn e /\ k_astray klt keq kf e /\ ss_shows T s' l /\ s_set s' = s_set s).
Proof.
  intros W V K eqb kf dflt ord s HE HO Hd HR.
  destruct (wset_sound _ eqb HE EKR (ek_fam eqb kf dflt Hd) ord HO s HR) as (l & H1 & _ & _ & H2 & H3 & H4).
  exists l. split; [exact H1|]. split; [exact H2|]. split; [exact H3|]. intros srt klt keq w0 Hs T.
  assert (HT : effect_kclass eqb kf dflt T) by (exists srt, klt, keq, w0; auto). destruct (H4 T HT) as [H5 H6].
  split; [exact H5|]. split; [exact H6|]. intros o r s' Ho E HC.
  exact (wset_effect _ eqb HE EKR (ek_fam eqb kf dflt Hd) ord HO T _ s l o r s' (e_keyed_wild eqb srt Hs klt keq kf dflt Hd w0) HT HR H5 Ho E HC).
Qed.

Lemma c118_dict : forall W A B K (eqb : A -> A -> bool) (veqb : B -> B -> bool) dflt s, Equiv eqb -> 1 <= dflt ->
  wdict_reach (effect_class (W:=W) (K:=K) eqb dflt) eqb veqb s ->
  exists l, distinct_keys eqb l /\ Permutation l (d_items s) /\ sd_len s = (Ok (length l), s) /\
    (forall k, sd_contains eqb k s = (Ok (match lookup eqb k l with Some _ => true | None => false end), s)) /\
    forall (srt : sorting W) (lt : A -> A -> M W bool) w0, permutes srt -> let T := e_plain (K:=K) srt lt eqb dflt w0 in
      sd_shows T eqb s l /\ sd_iter T s = (Ok (map fst l), s) /\ sd_reversed T s = (Ok (rev (map fst l)), s) /\
      forall o r s', dop_ok eqb o -> sd_step T eqb veqb o s = (r, s') -> ~ dcut eqb o s r ->
        (exists l', sd_shows T eqb s' l' /\ weak_deffect eqb veqb o (d_items s) l r (d_items s') l') \/
        (exists e, r = cut_result o e /\ (astray lt e \/ (e = ValueError /\ dmay_miss o)) /\
           sd_shows T eqb s' l /\ d_items s' = d_items s).
Proof.
  intros W A B K eqb veqb dflt s HE Hd HR.
  destruct (wdict_sound _ eqb veqb HE ER (e_fam eqb dflt Hd) s HR) as (l & H1 & H1' & _ & H2 & H3 & H4).
  exists l. split; [exact H1|]. split; [exact H1'|]. split; [exact H2|]. split; [exact H3|]. intros srt lt w0 Hs T.
  assert (HT : effect_class eqb dflt T) by (exists srt, lt, w0; auto). destruct (H4 T HT) as (H5 & H6 & H7).
  split; [exact H5|]. split; [exact H6|]. split; [exact H7|]. intros o r s' Ho E HC.
  exact (wdict_effect _ eqb veqb HE ER (e_fam eqb dflt Hd) T _ s l o r s' (e_plain_wild eqb srt Hs lt dflt Hd w0) HT HR H5 Ho E HC).
Qed.

Lemma c118_dict_keyed : forall W A B K (eqb : A -> A -> bool) (veqb : B -> B -> bool) (kf : A -> res K) dflt s, Equiv eqb -> 1 <= dflt ->
  wdict_reach (effect_kclass (W:=W) eqb kf dflt) eqb veqb s ->
  exists l, distinct_keys eqb l /\ Permutation l (d_items s) /\ sd_len s = (Ok (length l), s) /\
    (forall k, sd_contains eqb k s = (Ok (match lookup eqb k l with Some _ => true | None => false end), s)) /\
    forall (srt : sorting W) klt keq w0, permutes srt -> let T := e_keyed srt klt keq kf eqb dflt w0 in
      sd_shows T eqb s l /\ sd_iter T s = (Ok (map fst l), s) /\ sd_reversed T s = (Ok (rev (map fst l)), s) /\
      forall o r s', dop_ok eqb o -> sd_step T eqb veqb o s = (r, s') -> ~ dcut eqb o s r ->
        (exists l', sd_shows T eqb s' l' /\ weak_deffect eqb veqb o (d_items s) l r (d_items s') l') \/
        (exists e, r = cut_result o e /\ (k_astray klt keq kf e \/ (e = ValueError /\ dmay_miss o)) /\
           sd_shows T eqb s' l /\ d_items s' = d_items s).
Proof.
  intros W A B K eqb veqb kf dflt s HE Hd HR.
  destruct (wdict_sound _ eqb veqb HE EKR (ek_fam eqb kf dflt Hd) s HR) as (l & H1 & H1' & _ & H2 & H3 & H4).
  exists l. split; [exact H1|]. split; [exact H1'|]. split; [exact H2|]. split; [exact H3|]. intros srt klt keq w0 Hs T.
  assert (HT : effect_kclass eqb kf dflt T) by (exists srt, klt, keq, w0; auto). destruct (H4 T HT) as (H5 & H6 & H7).
  split; [exact H5|]. split; [exact H6|]. split; [exact H7|]. intros o r s' Ho E HC.
  exact (wdict_effect _ eqb veqb HE EKR (ek_fam eqb kf dflt Hd) T _ s l o r s' (e_keyed_wild eqb srt Hs klt keq kf dflt Hd w0) HT HR H5 Ho E HC).
Qed.

Lemma c119_set : forall W V K (eqb : V -> V -> bool) dflt ord s, Equiv eqb -> any_order ord -> 1 <= dflt ->
  wset_reach (effect_class (W:=W) (K:=K) eqb dflt) eqb ord s ->
  forall (srt : sorting W) (lt : V -> V -> M W bool) w0 l o r s', let T := e_plain (K:=K) srt lt eqb dflt w0 in
    permutes srt -> ss_shows T s l -> sop_ok o -> ss_step T eqb ord o s = (r, s') -> scut eqb o s r ->
    exists e l', r = RExn e /\ (astray lt e \/ (e = ValueError /\ may_miss o)) /\
      ss_shows T s' l' /\ set_failed eqb o l (s_set s) l' (s_set s').
Proof.
  intros W V K eqb dflt ord s HE HO Hd HR srt lt w0 l o r s' T Hs HS Ho E HC.
  exact (wset_cut _ eqb HE ER (e_fam eqb dflt Hd) ord HO T _ s l o r s' (e_plain_wild eqb srt Hs lt dflt Hd w0)
    (ex_intro _ srt (ex_intro _ lt (ex_intro _ w0 (conj Hs eq_refl)))) HR HS Ho E HC).
Qed.

Lemma c119_set_keyed : forall W V K (eqb : V -> V -> bool) (kf : V -> res K) dflt ord s, Equiv eqb -> any_order ord -> 1 <= dflt ->
  wset_reach (effect_kclass (W:=W) eqb kf dflt) eqb ord s ->
  forall (srt : sorting W) klt keq w0 l o r s', let T := e_keyed srt klt keq kf eqb dflt w0 in
    permutes srt -> ss_shows T s l -> sop_ok o -> ss_step T eqb ord o s = (r, s') -> scut eqb o s r ->
    exists e l', r = RExn e /\ (k_astray klt keq kf e \/ (e = ValueError /\ may_miss o)) /\
      ss_shows T s' l' /\ set_failed eqb o l (s_set s) l' (s_set s').
Proof.
  intros W V K eqb kf dflt ord s HE HO Hd HR srt klt keq w0 l o r s' T Hs HS Ho E HC.
  exact (wset_cut _ eqb HE EKR (ek_fam eqb kf dflt Hd) ord HO T _ s l o r s' (e_keyed_wild eqb srt Hs klt keq kf dflt Hd w0)
    (ex_intro _ srt (ex_intro _ klt (ex_intro _ keq (ex_intro _ w0 (conj Hs eq_refl))))) HR HS Ho E HC).
Qed.

Lemma c119_dict : forall W A B K (eqb : A -> A -> bool) (veqb : B -> B -> bool) dflt s, Equiv eqb -> 1 <= dflt ->
  wdict_reach (effect_class (W:=W) (K:=K) eqb dflt) eqb veqb s ->
  forall (srt : sorting W) (lt : A -> A -> M W bool) w0 l o r s', let T := e_plain (K:=K) srt lt eqb dflt w0 in
    permutes srt -> sd_shows T eqb s l -> dop_ok eqb o -> sd_step T eqb veqb o s = (r, s') -> dcut eqb o s r ->
    exists e ks', r = cut_result o e /\ (astray lt e \/ (e = ValueError /\ dmay_miss o)) /\
      sd_iter T s' = (Ok ks', s') /\ distinct_keys eqb (d_items s') /\
      dict_failed eqb o (d_items s) (map fst l) (d_items s') ks'.
Proof.
  intros W A B K eqb veqb dflt s HE Hd HR srt lt w0 l o r s' T Hs HS Ho E HC.
  exact (wdict_cut _ eqb veqb HE ER (e_fam eqb dflt Hd) T _ s l o r s' (e_plain_wild eqb srt Hs lt dflt Hd w0)
    (ex_intro _ srt (ex_intro _ lt (ex_intro _ w0 (conj Hs eq_refl)))) HR HS Ho E HC).
Qed.

Lemma c119_dict_keyed : forall W A B K (eqb : A -> A -> bool) (veqb : B -> B -> bool) (kf : A -> res K) dflt s, Equiv eqb -> 1 <= dflt ->
  wdict_reach (effect_kclass (W:=W) eqb kf dflt) eqb veqb s ->
  forall (srt : sorting W) klt keq w0 l o r s', let T := e_keyed srt klt keq kf eqb dflt w0 in
    permutes srt -> sd_shows T eqb s l -> dop_ok eqb o -> sd_step T eqb veqb o s = (r, s') -> dcut eqb o s r ->
    exists e ks', r = cut_result o e /\ (k_astray klt keq kf e \/ (e = ValueError /\ dmay_miss o)) /\
      sd_iter T s' = (Ok ks', s') /\ distinct_keys eqb (d_items s') /\
      dict_failed eqb o (d_items s) (map fst l) (d_items s') ks'.
Proof.
  intros W A B K eqb veqb kf dflt s HE Hd HR srt klt keq w0 l o r s' T Hs HS Ho E HC.
  exact (wdict_cut _ eqb veqb HE EKR (ek_fam eqb kf dflt Hd) T _ s l o r s' (e_keyed_wild eqb srt Hs klt keq kf dflt Hd w0)
    (ex_intro _ srt (ex_intro _ klt (ex_intro _ keq (ex_intro _ w0 (conj Hs eq_refl))))) HR HS Ho E HC).
Qed.

Lemma nat_equiv : Equiv Nat.eqb.
Proof.
  split; [apply Nat.eqb_refl|intros x y E; apply Nat.eqb_eq in E; subst; apply Nat.eqb_refl|].
  intros x y z E1 E2. apply Nat.eqb_eq in E1, E2. subst. apply Nat.eqb_refl.
Qed.

(** * SortedSet and SortedDict under arbitrary comparisons: proofs of the property theorems *)
From Coq Require Import Permutation.
From Verif Require Import PyBase Model Spec History Reach BaseFacts SpecFacts SliceFacts ListProps SetFacts DictFacts ListClass ClassSpec ModelSet SetSpec HashFacts
  ModelDict DictSpec MapFacts FaultSpec WildSpec WildClass WildSet WildDict.
Local Unset Implicit Arguments.

(** ** Sets *)
Section AnyFam.
  Context {S V K : Type}.
  Variable fam : listcls S V K -> Prop.
  Variable eqb : V -> V -> bool.
  Hypothesis HE : Equiv eqb.
  Variable R : S -> list V -> Prop.
  Hypothesis HF : forall T, fam T -> exists raised, WildOK T eqb raised R.
  Variable ord : nat -> list V -> list V.
  Hypothesis HO : any_order ord.

  Lemma fine_step T raised (o : sop V K) s l r s' : WildOK T eqb raised R -> WInv eqb R s l -> sop_ok o ->
    ss_step T eqb ord o s = (r, s') -> ~ scut eqb o s r ->
    (exists l', WInv eqb R s' l' /\ weak_effect eqb o l r l') \/
    (exists e, r = RExn e /\ raised e /\ WInv eqb R s' l /\ s_set s' = s_set s).
  Proof.
    intros HK HI Ho E HC. destruct (wstep T eqb HE raised R HK ord HO o s l HI Ho) as (r1 & s1 & E1 & HW).
    rewrite E in E1. injection E1 as <- <-. destruct HW as [HW|(e & l' & -> & Hr & HR & Hf)]; [left; exact HW|]. right.
    exists e. split; [reflexivity|].
    assert (HH : raised e /\ l' = l /\ s_set s' = s_set s).
    { destruct o; cbn in HC; try (exfalso; apply HC; exact I); cbn in Hf, Hr;
        try (split; [tauto|exact Hf]).
      - exfalso. apply HC. apply (winv_mem eqb R s l v HI). apply Hf.
      - exfalso. apply HC, Hf.
      - destruct f; cbn in HC, Hf; try (split; [tauto|exact Hf]). exfalso. apply HC. exact I. }
    destruct HH as (H1 & -> & H3). split; [exact H1|]. split; [|exact H3]. split; [exact HR|]. rewrite H3. apply HI.
  Qed.
  Lemma wset_reach_ok s : wset_reach fam eqb ord s -> exists l, WInv eqb R s l.
  Proof.
    induction 1 as [T tick it s HT E|s T o r s' HR [l HI] HT Ho E HC].
    - destruct (HF T HT) as [raised HK]. destruct (wnew T eqb HE raised R HK ord HO tick it) as [(s1 & l & E1 & HI & _)|(e & E1 & _)]; [|congruence].
      rewrite E in E1. injection E1 as <-. eauto.
    - destruct (HF T HT) as [raised HK]. destruct (fine_step T raised o s l r s' HK HI Ho E HC) as [(l' & HI' & _)|(e & _ & _ & HI' & _)]; eauto.
  Qed.
  Lemma wset_sound s : wset_reach fam eqb ord s ->
    exists l, distinct eqb l /\ Permutation (s_set s) l /\ WInv eqb R s l /\ ss_len s = (Ok (length l), s) /\
      (forall v, exists b, ss_contains eqb v s = (Ok b, s) /\ (b = true <-> member eqb v l)) /\
      (forall T, fam T -> ss_shows T s l /\ ss_reversed T s = (Ok (rev l), s)).
  Proof.
    intros HR. destruct (wset_reach_ok s HR) as [l HI]. exists l. pose proof HI as (HL & HD & HP).
    split; [eapply winv_distinct; eauto|]. split; [exact HP|]. split; [exact HI|].
    split; [unfold ss_len, members, bind, get, ret; rewrite (Permutation_length HP); reflexivity|]. split.
    - intros v. eexists. split; [reflexivity|]. rewrite set_mem_iff. apply (winv_mem eqb R s l v HI).
    - intros T HT. destruct (HF T HT) as [raised HK]. split; [eapply witer; eauto|].
      unfold ss_reversed, onlist, zoom. rewrite (w_reversed _ _ _ _ HK _ _ HL). destruct s; reflexivity.
  Qed.
  Lemma wset_effect T raised s l (o : sop V K) r s' : WildOK T eqb raised R -> fam T -> wset_reach fam eqb ord s -> ss_shows T s l -> sop_ok o ->
    ss_step T eqb ord o s = (r, s') -> ~ scut eqb o s r ->
    (exists l', ss_shows T s' l' /\ weak_effect eqb o l r l') \/
    (exists e, r = RExn e /\ raised e /\ ss_shows T s' l /\ s_set s' = s_set s).
  Proof.
    intros HK HT HR HS Ho E HC. destruct (wset_sound s HR) as (l1 & _ & _ & HI & _ & _ & H).
    destruct (H T HT) as [HS1 _]. assert (l1 = l) as -> by (unfold ss_shows in *; congruence).
    destruct (fine_step T raised o s l r s' HK HI Ho E HC) as [(l' & HI' & He)|(e & H1 & H2 & HI' & H3)].
    - left. exists l'. split; [|exact He]. eapply witer; [exact HK|apply HI'].
    - right. exists e. split; [exact H1|]. split; [exact H2|]. split; [|exact H3]. eapply witer; [exact HK|apply HI'].
  Qed.
  Lemma wset_cut T raised s l (o : sop V K) r s' : WildOK T eqb raised R -> fam T -> wset_reach fam eqb ord s -> ss_shows T s l -> sop_ok o ->
    ss_step T eqb ord o s = (r, s') -> scut eqb o s r ->
    exists e l', r = RExn e /\ (raised e \/ (e = ValueError /\ may_miss o)) /\ ss_shows T s' l' /\
      set_failed eqb o l (s_set s) l' (s_set s').
  Proof.
    intros HK HT HR HS Ho E HC. destruct (wset_sound s HR) as (l1 & _ & _ & HI & _ & _ & H).
    destruct (H T HT) as [HS1 _]. assert (l1 = l) as -> by (unfold ss_shows in *; congruence).
    destruct (wstep T eqb HE raised R HK ord HO o s l HI Ho) as (r1 & s1 & E1 & HW).
    rewrite E in E1. injection E1 as <- <-. destruct HW as [(l' & _ & He)|(e & l' & H1 & H2 & H3 & H4)].
    - exfalso. destruct o; destruct r; cbn in HC; try contradiction; try (destruct f; contradiction); cbn in He;
        try (destruct He as [He _]; discriminate).
      + destruct He as [(Hn & _)|(a & x & b & _ & _ & He & _)]; [|discriminate].
        apply Hn, (winv_mem eqb R s l v HI), HC.
      + destruct He as [(Hn & _)|(_ & He & _)]; [contradiction|discriminate].
      + destruct f; try contradiction; destruct He as [He _]; discriminate.
    - exists e, l'. split; [exact H1|]. split; [exact H2|]. split; [|exact H4]. eapply witer; eauto.
  Qed.
End AnyFam.

Lemma plain_fam {V K} (eqb : V -> V -> bool) dflt : 1 <= dflt -> forall T : listcls (core V V) V K, plain_class eqb dflt T ->
  exists raised, WildOK T eqb raised WR.
Proof. intros Hd T [lt ->]. eexists. apply plain_wild, Hd. Qed.
Lemma keyed_fam {V K} (eqb : V -> V -> bool) (kf : V -> res K) dflt : 1 <= dflt -> forall T, keyed_class eqb kf dflt T ->
  exists raised, WildOK T eqb raised (KWR kf).
Proof. intros Hd T [klt [keq ->]]. eexists. apply keyed_wild, Hd. Qed.

Lemma c58_plain : forall V K (eqb : V -> V -> bool) dflt ord s, Equiv eqb -> any_order ord -> 1 <= dflt ->
  wset_reach (plain_class (K:=K) eqb dflt) eqb ord s ->
  exists l, distinct eqb l /\ ss_len s = (Ok (length l), s) /\
    (forall v, exists b, ss_contains eqb v s = (Ok b, s) /\ (b = true <-> member eqb v l)) /\
    forall lt, let T := plain (K:=K) lt (total2 eqb) dflt in
      ss_shows T s l /\ ss_reversed T s = (Ok (rev l), s) /\
      forall o r s', sop_ok o -> ss_step T eqb ord o s = (r, s') -> ~ scut eqb o s r ->
        (exists l', ss_shows T s' l' /\ weak_effect eqb o l r l') \/
        (exists e, r = RExn e /\ (exists x y, lt x y = Err e) /\ ss_shows T s' l /\ s_set s' = s_set s).
Proof.
  intros V K eqb dflt ord s HE HO Hd HR.
  destruct (wset_sound _ eqb HE WR (plain_fam eqb dflt Hd) ord HO s HR) as (l & H1 & _ & _ & H2 & H3 & H4).
  exists l. split; [exact H1|]. split; [exact H2|]. split; [exact H3|]. intros lt T.
  assert (HT : plain_class eqb dflt T) by (exists lt; reflexivity). destruct (H4 T HT) as [H5 H6].
  split; [exact H5|]. split; [exact H6|]. intros o r s' Ho E HC.
  exact (wset_effect _ eqb HE WR (plain_fam eqb dflt Hd) ord HO T _ s l o r s' (plain_wild eqb lt dflt Hd) HT HR H5 Ho E HC).
Qed.
Lemma c58_keyed : forall V K (eqb : V -> V -> bool) (kf : V -> res K) dflt ord s, Equiv eqb -> any_order ord -> 1 <= dflt ->
  wset_reach (keyed_class eqb kf dflt) eqb ord s ->
  exists l, distinct eqb l /\ ss_len s = (Ok (length l), s) /\
    (forall v, exists b, ss_contains eqb v s = (Ok b, s) /\ (b = true <-> member eqb v l)) /\
    forall klt keq, let T := keyed (total2 eqb) klt keq kf dflt in
      ss_shows T s l /\ ss_reversed T s = (Ok (rev l), s) /\
      forall o r s', sop_ok o -> ss_step T eqb ord o s = (r, s') -> ~ scut eqb o s r ->
        (exists l', ss_shows T s' l' /\ weak_effect eqb o l r l') \/
        (exists e, r = RExn e /\ k_raises klt keq kf e /\ ss_shows T s' l /\ s_set s' = s_set s).
Proof.
  intros V K eqb kf dflt ord s HE HO Hd HR.
  destruct (wset_sound _ eqb HE (KWR kf) (keyed_fam eqb kf dflt Hd) ord HO s HR) as (l & H1 & _ & _ & H2 & H3 & H4).
  exists l. split; [exact H1|]. split; [exact H2|]. split; [exact H3|]. intros klt keq T.
  assert (HT : keyed_class eqb kf dflt T) by (exists klt, keq; reflexivity). destruct (H4 T HT) as [H5 H6].
  split; [exact H5|]. split; [exact H6|]. intros o r s' Ho E HC.
  exact (wset_effect _ eqb HE (KWR kf) (keyed_fam eqb kf dflt Hd) ord HO T _ s l o r s' (keyed_wild eqb klt keq kf dflt Hd) HT HR H5 Ho E HC).
Qed.
Lemma c59_plain : forall V K (eqb : V -> V -> bool) dflt ord s, Equiv eqb -> any_order ord -> 1 <= dflt ->
  wset_reach (plain_class (K:=K) eqb dflt) eqb ord s ->
  forall lt l o r s', let T := plain (K:=K) lt (total2 eqb) dflt in
    ss_shows T s l -> sop_ok o -> ss_step T eqb ord o s = (r, s') -> scut eqb o s r ->
    exists e l', r = RExn e /\ ((exists x y, lt x y = Err e) \/ (e = ValueError /\ may_miss o)) /\
      ss_shows T s' l' /\ set_failed eqb o l (s_set s) l' (s_set s').
Proof.
  intros V K eqb dflt ord s HE HO Hd HR lt l o r s' T HS Ho E HC.
  exact (wset_cut _ eqb HE WR (plain_fam eqb dflt Hd) ord HO T _ s l o r s' (plain_wild eqb lt dflt Hd)
    (ex_intro _ lt eq_refl) HR HS Ho E HC).
Qed.
Lemma c59_keyed : forall V K (eqb : V -> V -> bool) (kf : V -> res K) dflt ord s, Equiv eqb -> any_order ord -> 1 <= dflt ->
  wset_reach (keyed_class eqb kf dflt) eqb ord s ->
  forall klt keq l o r s', let T := keyed (total2 eqb) klt keq kf dflt in
    ss_shows T s l -> sop_ok o -> ss_step T eqb ord o s = (r, s') -> scut eqb o s r ->
    exists e l', r = RExn e /\ (k_raises klt keq kf e \/ (e = ValueError /\ may_miss o)) /\
      ss_shows T s' l' /\ set_failed eqb o l (s_set s) l' (s_set s').
Proof.
  intros V K eqb kf dflt ord s HE HO Hd HR klt keq l o r s' T HS Ho E HC.
  exact (wset_cut _ eqb HE (KWR kf) (keyed_fam eqb kf dflt Hd) ord HO T _ s l o r s' (keyed_wild eqb klt keq kf dflt Hd)
    (ex_intro _ klt (ex_intro _ keq eq_refl)) HR HS Ho E HC).
Qed.

(** A comparison that raises. *)
Definition sulky (x y : nat) : res bool := if (x =? 2) || (y =? 2) then Err TypeError else Ok (x <? y).
Lemma c60_refuted : exists (lt : nat -> nat -> res bool) dflt ord s0 s v e l,
  let T := plain (K:=nat) (total2 Nat.ltb) (total2 Nat.eqb) dflt in
  let T' := plain (K:=nat) lt (total2 Nat.eqb) dflt in
  1 <= dflt /\ any_order ord /\ ss_new T Nat.eqb ord 0 (Some (AIter [1; 2; 3])) = Ok s0 /\
  (ss_discard T' Nat.eqb v s0 = (Err e, s) /\ ss_remove T' Nat.eqb v s0 = (Err e, s)) /\
  ss_contains Nat.eqb v s = (Ok false, s) /\
  ss_shows T s l /\ In v l /\ ss_len s = (Ok (length l - 1), s).
Proof.
  exists sulky, 4, (fun _ l => l). eexists _, _, 2, TypeError, [1; 2; 3]. cbv zeta. split; [lia|]. split; [intros n l; reflexivity|].
  split; [vm_compute; reflexivity|]. split; [split; vm_compute; reflexivity|]. split; [vm_compute; reflexivity|].
  split; [vm_compute; reflexivity|]. split; [cbn; auto|vm_compute; reflexivity].
Qed.
Lemma failed_length {V} (eqb : V -> V -> bool) (HE : Equiv eqb) v (l m m' : list V) :
  distinct eqb m -> Permutation m l -> member eqb v l -> (forall x, In x m' <-> In x m /\ eqb x v = false) -> m' = set_del eqb v m ->
  Datatypes.S (length m') = length l.
Proof.
  intros HD HP HM _ ->. rewrite <- (Permutation_length HP). assert (HM' : member eqb v m) by (apply (mem_perm eqb v _ _ HP), HM).
  destruct HM' as (x & Hx & Ex). apply in_split in Hx as (a & b & ->).
  rewrite (set_del_mid eqb HE _ _ _ _ HD Ex), !app_length. cbn. lia.
Qed.
Lemma c60_plain : forall V K (eqb : V -> V -> bool) dflt ord s, Equiv eqb -> any_order ord -> 1 <= dflt ->
  wset_reach (plain_class (K:=K) eqb dflt) eqb ord s ->
  forall lt l v e s', let T := plain (K:=K) lt (total2 eqb) dflt in
    ss_shows T s l -> member eqb v l ->
    ss_discard T eqb v s = (Err e, s') \/ ss_remove T eqb v s = (Err e, s') ->
    ((exists x y, lt x y = Err e) \/ e = ValueError) /\ ss_shows T s' l /\
    ss_contains eqb v s' = (Ok false, s') /\ ss_len s' = (Ok (length l - 1), s').
Proof.
  intros V K eqb dflt ord s HE HO Hd HR lt l v e s' T HS HM E.
  destruct (wset_sound _ eqb HE WR (plain_fam eqb dflt Hd) ord HO s HR) as (l1 & _ & _ & HI & _ & _ & H4).
  assert (HT : plain_class eqb dflt T) by (exists lt; reflexivity). destruct (H4 T HT) as [H5 _].
  assert (l1 = l) as -> by (unfold ss_shows in *; congruence).
  pose proof (plain_wild (K:=K) eqb lt dflt Hd) as HK. fold T in HK.
  assert (E1 : ss_discard T eqb v s = (Err e, s')).
  { destruct E as [E|E]; [exact E|]. destruct (wremove T eqb WR v s l HI) as [[_ H]|[H _]]; [congruence|contradiction]. }
  destruct (wdiscard T eqb HE _ WR HK v s l HI) as [(s1 & l' & E2 & _)|(e1 & s1 & E2 & Hr & HR' & _ & Hs)]; [congruence|].
  rewrite E1 in E2. injection E2 as <- <-. pose proof HI as (_ & HD & HP).
  split; [destruct Hr as [Hr|Hr]; auto|]. split; [eapply witer; eauto|]. split.
  - unfold ss_contains, members, bind, get, ret. do 2 f_equal. apply set_mem_false. rewrite Hs.
    intros (x & Hx & Ex). apply set_del_In in Hx. destruct Hx as [_ Hx]. congruence.
  - unfold ss_len, members, bind, get, ret. do 2 f_equal.
    assert (HL := failed_length eqb HE v l (s_set s) (s_set s') HD HP HM
      (fun x => ltac:(rewrite Hs; apply set_del_In)) Hs). lia.
Qed.

(** ** Dicts *)
Section AnyFamDict.
  Context {S A B K : Type}.
  Variable fam : listcls S A K -> Prop.
  Variable eqb : A -> A -> bool.
  Variable veqb : B -> B -> bool.
  Hypothesis HE : Equiv eqb.
  Variable R : S -> list A -> Prop.
  Hypothesis HF : forall T, fam T -> exists raised, WildOK T eqb raised R.
  Notation SD := (sdict S A B).

  Lemma dfine_step T raised (o : dop A B K) (s : SD) l r s' : WildOK T eqb raised R -> DW eqb R s l -> dop_ok eqb o ->
    sd_step T eqb veqb o s = (r, s') -> ~ dcut eqb o s r ->
    (exists l', DW eqb R s' l' /\ weak_deffect eqb veqb o (d_items s) l r (d_items s') l') \/
    (exists e, r = cut_result o e /\ (raised e \/ (e = ValueError /\ dmay_miss o)) /\ DW eqb R s' l /\ d_items s' = d_items s).
  Proof.
    intros HK HI Ho E HC. destruct (wdstep T eqb veqb HE raised R HK o s l HI Ho) as (r1 & s1 & E1 & HW).
    rewrite E in E1. injection E1 as <- <-. destruct HW as [HW|(e & ks & Hr & He & HR & HD & Hf)]; [left; exact HW|]. right.
    exists e. split; [exact Hr|]. split; [exact He|].
    assert (HH : ks = map fst l /\ d_items s' = d_items s).
    { subst r. destruct o; cbn in HC, Hf; try tauto; try (exfalso; apply HC; apply Hf).
      - destruct Hf as (l1 & _ & _ & Hl1). exfalso. apply HC. intros H.
        unfold sp_del_slice, slice_indices in Hl1. rewrite H in Hl1. cbn in Hl1. discriminate.
      - destruct f; cbn in HC, Hf; tauto. }
    destruct HH as (-> & H3). split; [|exact H3].
    split; [exact HR|]. rewrite H3. apply HI.
  Qed.
  Lemma wdict_reach_ok (s : SD) : wdict_reach fam eqb veqb s -> exists l, DW eqb R s l.
  Proof.
    induction 1 as [T a s HT E|s T o r s' HR [l HI] HT Ho E HC].
    - destruct (HF T HT) as [raised HK]. destruct (wdnew T eqb HE raised R HK a) as [(s1 & l & E1 & _ & HI)|(e & E1 & _)]; [|congruence].
      rewrite E in E1. injection E1 as <-. eauto.
    - destruct (HF T HT) as [raised HK]. destruct (dfine_step T raised o s l r s' HK HI Ho E HC) as [(l' & HI' & _)|(e & _ & _ & HI' & _)]; eauto.
  Qed.
  Lemma wdict_sound (s : SD) : wdict_reach fam eqb veqb s ->
    exists l, distinct_keys eqb l /\ Permutation l (d_items s) /\ DW eqb R s l /\ sd_len s = (Ok (length l), s) /\
      (forall k, sd_contains eqb k s = (Ok (match lookup eqb k l with Some _ => true | None => false end), s)) /\
      (forall T, fam T -> sd_shows T eqb s l /\ sd_iter T s = (Ok (map fst l), s) /\ sd_reversed T s = (Ok (rev (map fst l)), s)).
  Proof.
    intros HR. destruct (wdict_reach_ok s HR) as [l HI]. exists l. pose proof HI as (HL & HP & HD).
    split; [eapply dw_dk; eauto|]. split; [exact HP|]. split; [exact HI|].
    split; [unfold sd_len, items_of, bind, get, ret; rewrite (Permutation_length HP); reflexivity|]. split.
    - intros k. unfold sd_contains, items_of, bind, get, ret. rewrite d_mem_lookup, (dw_lookup eqb HE R s l k HI). reflexivity.
    - intros T HT. destruct (HF T HT) as [raised HK].
      split; [eapply w_items_ok; eauto|]. split; [eapply w_iter_ok; eauto|eapply w_rev_ok; eauto].
  Qed.
  Lemma dshow_inv T raised (s : SD) l : WildOK T eqb raised R -> fam T -> wdict_reach fam eqb veqb s -> sd_shows T eqb s l -> DW eqb R s l.
  Proof.
    intros HK HT HR HS. destruct (wdict_sound s HR) as (l1 & _ & _ & HI & _ & _ & H).
    destruct (H T HT) as [HS1 _]. assert (l1 = l) as -> by (unfold sd_shows in *; congruence). exact HI.
  Qed.
  Lemma wdict_effect T raised (s : SD) l (o : dop A B K) r s' : WildOK T eqb raised R -> fam T -> wdict_reach fam eqb veqb s -> sd_shows T eqb s l ->
    dop_ok eqb o -> sd_step T eqb veqb o s = (r, s') -> ~ dcut eqb o s r ->
    (exists l', sd_shows T eqb s' l' /\ weak_deffect eqb veqb o (d_items s) l r (d_items s') l') \/
    (exists e, r = cut_result o e /\ (raised e \/ (e = ValueError /\ dmay_miss o)) /\ sd_shows T eqb s' l /\ d_items s' = d_items s).
  Proof.
    intros HK HT HR HS Ho E HC. pose proof (dshow_inv T raised s l HK HT HR HS) as HI.
    destruct (dfine_step T raised o s l r s' HK HI Ho E HC) as [(l' & HI' & He)|(e & H1 & H2 & HI' & H3)].
    - left. exists l'. split; [|exact He]. eapply w_items_ok; eauto.
    - right. exists e. split; [exact H1|]. split; [exact H2|]. split; [|exact H3]. eapply w_items_ok; eauto.
  Qed.
  Lemma wdict_cut T raised (s : SD) l (o : dop A B K) r s' : WildOK T eqb raised R -> fam T -> wdict_reach fam eqb veqb s -> sd_shows T eqb s l ->
    dop_ok eqb o -> sd_step T eqb veqb o s = (r, s') -> dcut eqb o s r ->
    exists e ks', r = cut_result o e /\ (raised e \/ (e = ValueError /\ dmay_miss o)) /\ sd_iter T s' = (Ok ks', s') /\
      distinct_keys eqb (d_items s') /\ dict_failed eqb o (d_items s) (map fst l) (d_items s') ks'.
  Proof.
    intros HK HT HR HS Ho E HC. pose proof (dshow_inv T raised s l HK HT HR HS) as HI.
    destruct (wdstep T eqb veqb HE raised R HK o s l HI Ho) as (r1 & s1 & E1 & HW).
    rewrite E in E1. injection E1 as <- <-. destruct HW as [(l' & _ & _ & He)|(e & ks & H1 & H2 & H3 & H4 & H5)].
    - exfalso. destruct o; destruct r; cbn in HC; try contradiction; try (destruct f; contradiction); cbn in He; try discriminate.
      + destruct (lookup eqb k (d_items s)); [discriminate|congruence].
      + destruct (lookup eqb k (d_items s)); discriminate.
      + destruct (sp_slice sl l) eqn:Es; [discriminate|]. unfold sp_slice in Es.
        destruct (slice_indices_cases sl (length l)) as [[_ Hs]|(_ & st & sp & step & Ei)]; [contradiction|].
        destruct (sp_slice_is sl l HC) as (vs & Ev & _). unfold sp_slice in Ev. congruence.
      + destruct f; try contradiction. destruct He as [[= ->] _]. exact HC.
    - exists e, ks. split; [exact H1|]. split; [exact H2|]. split; [|auto].
      unfold sd_iter, onkeys, zoom. rewrite (w_iter _ _ _ _ HK _ _ H3). destruct s'; reflexivity.
  Qed.
End AnyFamDict.

Lemma c61_plain : forall A B K (eqb : A -> A -> bool) (veqb : B -> B -> bool) dflt s, Equiv eqb -> 1 <= dflt ->
  wdict_reach (plain_class (K:=K) eqb dflt) eqb veqb s ->
  exists l, distinct_keys eqb l /\ Permutation l (d_items s) /\ sd_len s = (Ok (length l), s) /\
    (forall k, sd_contains eqb k s = (Ok (match lookup eqb k l with Some _ => true | None => false end), s)) /\
    forall lt, let T := plain (K:=K) lt (total2 eqb) dflt in
      sd_shows T eqb s l /\ sd_iter T s = (Ok (map fst l), s) /\ sd_reversed T s = (Ok (rev (map fst l)), s) /\
      forall o r s', dop_ok eqb o -> sd_step T eqb veqb o s = (r, s') -> ~ dcut eqb o s r ->
        (exists l', sd_shows T eqb s' l' /\ weak_deffect eqb veqb o (d_items s) l r (d_items s') l') \/
        (exists e, r = cut_result o e /\ ((exists x y, lt x y = Err e) \/ (e = ValueError /\ dmay_miss o)) /\
           sd_shows T eqb s' l /\ d_items s' = d_items s).
Proof.
  intros A B K eqb veqb dflt s HE Hd HR.
  destruct (wdict_sound _ eqb veqb HE WR (plain_fam eqb dflt Hd) s HR) as (l & H1 & H1' & _ & H2 & H3 & H4).
  exists l. split; [exact H1|]. split; [exact H1'|]. split; [exact H2|]. split; [exact H3|]. intros lt T.
  assert (HT : plain_class eqb dflt T) by (exists lt; reflexivity). destruct (H4 T HT) as (H5 & H6 & H7).
  split; [exact H5|]. split; [exact H6|]. split; [exact H7|]. intros o r s' Ho E HC.
  exact (wdict_effect _ eqb veqb HE WR (plain_fam eqb dflt Hd) T _ s l o r s' (plain_wild eqb lt dflt Hd) HT HR H5 Ho E HC).
Qed.
Lemma c61_keyed : forall A B K (eqb : A -> A -> bool) (veqb : B -> B -> bool) (kf : A -> res K) dflt s, Equiv eqb -> 1 <= dflt ->
  wdict_reach (keyed_class eqb kf dflt) eqb veqb s ->
  exists l, distinct_keys eqb l /\ Permutation l (d_items s) /\ sd_len s = (Ok (length l), s) /\
    (forall k, sd_contains eqb k s = (Ok (match lookup eqb k l with Some _ => true | None => false end), s)) /\
    forall klt keq, let T := keyed (total2 eqb) klt keq kf dflt in
      sd_shows T eqb s l /\ sd_iter T s = (Ok (map fst l), s) /\ sd_reversed T s = (Ok (rev (map fst l)), s) /\
      forall o r s', dop_ok eqb o -> sd_step T eqb veqb o s = (r, s') -> ~ dcut eqb o s r ->
        (exists l', sd_shows T eqb s' l' /\ weak_deffect eqb veqb o (d_items s) l r (d_items s') l') \/
        (exists e, r = cut_result o e /\ (k_raises klt keq kf e \/ (e = ValueError /\ dmay_miss o)) /\
           sd_shows T eqb s' l /\ d_items s' = d_items s).
Proof.
  intros A B K eqb veqb kf dflt s HE Hd HR.
  destruct (wdict_sound _ eqb veqb HE (KWR kf) (keyed_fam eqb kf dflt Hd) s HR) as (l & H1 & H1' & _ & H2 & H3 & H4).
  exists l. split; [exact H1|]. split; [exact H1'|]. split; [exact H2|]. split; [exact H3|]. intros klt keq T.
  assert (HT : keyed_class eqb kf dflt T) by (exists klt, keq; reflexivity). destruct (H4 T HT) as (H5 & H6 & H7).
  split; [exact H5|]. split; [exact H6|]. split; [exact H7|]. intros o r s' Ho E HC.
  exact (wdict_effect _ eqb veqb HE (KWR kf) (keyed_fam eqb kf dflt Hd) T _ s l o r s' (keyed_wild eqb klt keq kf dflt Hd) HT HR H5 Ho E HC).
Qed.
Lemma c62_plain : forall A B K (eqb : A -> A -> bool) (veqb : B -> B -> bool) dflt s, Equiv eqb -> 1 <= dflt ->
  wdict_reach (plain_class (K:=K) eqb dflt) eqb veqb s ->
  forall lt l o r s', let T := plain (K:=K) lt (total2 eqb) dflt in
    sd_shows T eqb s l -> dop_ok eqb o -> sd_step T eqb veqb o s = (r, s') -> dcut eqb o s r ->
    exists e ks', r = cut_result o e /\ ((exists x y, lt x y = Err e) \/ (e = ValueError /\ dmay_miss o)) /\
      sd_iter T s' = (Ok ks', s') /\ distinct_keys eqb (d_items s') /\
      dict_failed eqb o (d_items s) (map fst l) (d_items s') ks'.
Proof.
  intros A B K eqb veqb dflt s HE Hd HR lt l o r s' T HS Ho E HC.
  exact (wdict_cut _ eqb veqb HE WR (plain_fam eqb dflt Hd) T _ s l o r s' (plain_wild eqb lt dflt Hd)
    (ex_intro _ lt eq_refl) HR HS Ho E HC).
Qed.
Lemma c62_keyed : forall A B K (eqb : A -> A -> bool) (veqb : B -> B -> bool) (kf : A -> res K) dflt s, Equiv eqb -> 1 <= dflt ->
  wdict_reach (keyed_class eqb kf dflt) eqb veqb s ->
  forall klt keq l o r s', let T := keyed (total2 eqb) klt keq kf dflt in
    sd_shows T eqb s l -> dop_ok eqb o -> sd_step T eqb veqb o s = (r, s') -> dcut eqb o s r ->
    exists e ks', r = cut_result o e /\ (k_raises klt keq kf e \/ (e = ValueError /\ dmay_miss o)) /\
      sd_iter T s' = (Ok ks', s') /\ distinct_keys eqb (d_items s') /\
      dict_failed eqb o (d_items s) (map fst l) (d_items s') ks'.
Proof.
  intros A B K eqb veqb kf dflt s HE Hd HR klt keq l o r s' T HS Ho E HC.
  exact (wdict_cut _ eqb veqb HE (KWR kf) (keyed_fam eqb kf dflt Hd) T _ s l o r s' (keyed_wild eqb klt keq kf dflt Hd)
    (ex_intro _ klt (ex_intro _ keq eq_refl)) HR HS Ho E HC).
Qed.

Lemma c63_refuted : exists (lt : nat -> nat -> res bool) dflt s0 s k e l,
  let T := plain (K:=nat) (total2 Nat.ltb) (total2 Nat.eqb) dflt in
  let T' := plain (K:=nat) lt (total2 Nat.eqb) dflt in
  1 <= dflt /\ sd_new T Nat.eqb (APairs [(1, 10); (2, 20); (3, 30)]) = Ok s0 /\
  sd_delitem T' Nat.eqb k s0 = (Err e, s) /\ sd_contains Nat.eqb k s = (Ok false, s) /\
  sd_iter T s = (Ok l, s) /\ In k l /\ sd_len s = (Ok (length l - 1), s) /\
  fst (sd_items T Nat.eqb s) = Err KeyError.
Proof.
  exists sulky, 4. eexists _, _, 2, TypeError, [1; 2; 3]. cbv zeta. split; [lia|].
  split; [vm_compute; reflexivity|]. split; [vm_compute; reflexivity|]. split; [vm_compute; reflexivity|].
  split; [vm_compute; reflexivity|]. split; [cbn; auto|]. split; vm_compute; reflexivity.
Qed.
Lemma c63_partial : forall A B K (eqb : A -> A -> bool) (veqb : B -> B -> bool) dflt s, Equiv eqb -> 1 <= dflt ->
  wdict_reach (plain_class (K:=K) eqb dflt) eqb veqb s ->
  forall lt l k e s', let T := plain (K:=K) lt (total2 eqb) dflt in
    sd_shows T eqb s l -> lookup eqb k l <> None -> sd_delitem T eqb k s = (Err e, s') ->
    ((exists x y, lt x y = Err e) \/ e = ValueError) /\ sd_iter T s' = (Ok (map fst l), s') /\
    d_items s' = erase eqb k (d_items s) /\ sd_contains eqb k s' = (Ok false, s') /\ sd_len s' = (Ok (length l - 1), s').
Proof.
  intros A B K eqb veqb dflt s HE Hd HR lt l k e s' T HS Hk E.
  pose proof (plain_wild (K:=K) eqb lt dflt Hd) as HK. fold T in HK.
  pose proof (dshow_inv _ eqb veqb HE WR (plain_fam eqb dflt Hd) T _ s l HK (ex_intro _ lt eq_refl) HR HS) as HI.
  pose proof HI as (HL & HP & HD). pose proof (wdelitem T eqb HE _ WR HK k s l HI) as H.
  rewrite (dw_lookup eqb HE WR s l k HI) in Hk. destruct (lookup eqb k (d_items s)) as [v|] eqn:El; [|congruence].
  destruct H as [(s1 & E1 & _)|(e1 & s1 & E1 & Hr & Hd1 & HR1)]; [congruence|]. rewrite E in E1. injection E1 as <- <-.
  split; [exact Hr|]. split; [unfold sd_iter, onkeys, zoom; rewrite (w_iter _ _ _ _ HK _ _ HR1); destruct s'; reflexivity|].
  split; [exact Hd1|].
  assert (Hk' : lookup eqb k (d_items s') = None).
  { apply lookup_None. intros p Hp. rewrite Hd1 in Hp. apply filter_In in Hp. destruct Hp as [_ Hp].
    unfold same in Hp. destruct (eqb (fst p) k); [discriminate|reflexivity]. }
  split; [unfold sd_contains, items_of, bind, get, ret; rewrite d_mem_lookup, Hk'; reflexivity|].
  unfold sd_len, items_of, bind, get, ret. do 2 f_equal. rewrite (Permutation_length HP), Hd1.
  rewrite <- (map_length fst), erase_keys, <- (map_length fst (d_items s)).
  assert (HM : member eqb k (map fst (d_items s))).
  { destruct (mem_dec eqb k (map fst (d_items s))) as [H|H]; [exact H|]. apply lookup_mem in H. congruence. }
  destruct HM as (x & Hx & Ex). apply in_split in Hx as (a & b & Hab).
  unfold distinct_keys in HD. rewrite Hab in HD |- *. rewrite (set_del_mid eqb HE _ _ _ _ HD Ex), !app_length. cbn. lia.
Qed.

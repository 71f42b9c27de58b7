(** * The properties of SortedSet *)
From Coq Require Import Permutation.
From Verif Require Import PyBase Model Spec History BaseFacts SpecFacts SliceFacts Shape FaultSpec FaultFacts FaultHist
  ListSim ListFacts KeyFacts HistFacts Reach ListProps
  ListClass ClassSpec ClassFacts ModelSet SetSpec HashFacts SetFacts.
Local Unset Implicit Arguments.

Ltac cls H HK := destruct (class_ok _ _ _ _ _ H) as (R & ld & HK).

(** ** C33 *)
Lemma c33_consistent : forall S V K (T : listcls S V K) ltb eqb fref dflt ord s,
  list_class T ltb eqb fref dflt -> any_order ord -> ss_reach T eqb ord s ->
  exists l, ss_shows T s l /\ sorted ltb l /\ distinct eqb l /\
    ss_len s = (Ok (length l), s) /\ ss_reversed T s = (Ok (rev l), s) /\
    forall v, exists b, ss_contains eqb v s = (Ok b, s) /\ ss_count eqb v s = (Ok (if b then 1 else 0), s) /\
      (b = true <-> exists x, In x l /\ eqb x v = true).
Proof.
  intros S V K T ltb eqb fref dflt ord s HC HO HR. cls HC HK.
  destruct (ss_reach_ok T ltb eqb fref dflt R ld HK ord HO s HR) as [l HI].
  exists l. split; [eapply ss_iter_ok; eauto|]. split; [eapply sinv_sorted; eauto|].
  split; [eapply sinv_distinct; eauto|]. pose proof HI as (_ & _ & HP).
  split; [unfold ss_len, members, bind, get, ret; rewrite (Permutation_length HP); reflexivity|].
  split; [eapply ss_reversed_ok; eauto|].
  intros v. exists (set_mem eqb v (s_set s)). split; [reflexivity|]. split; [reflexivity|].
  rewrite set_mem_iff. apply (mem_perm eqb v _ _ HP).
Qed.

(** ** C34 *)
Lemma c34_refines : forall S V K (T : listcls S V K) ltb eqb fref dflt ord tick it ops,
  list_class T ltb eqb fref dflt -> any_order ord -> Forall sop_ok ops ->
  exists s0 l0 rs s l, ss_new T eqb ord tick it = Ok s0 /\ ss_shows T s0 l0 /\
    sorted ltb l0 /\ distinct eqb l0 /\
    (forall x, member eqb x l0 <-> exists a, it = Some a /\ member eqb x (items a)) /\
    ss_run T eqb ord ops s0 = (rs, s) /\ set_history ltb eqb fref ops l0 rs l /\ ss_shows T s l.
Proof.
  intros S V K T ltb eqb fref dflt ord tick it ops HC HO HF. cls HC HK.
  destruct (ss_new_ok T ltb eqb fref dflt R ld HK ord HO tick it) as (s0 & l0 & E0 & HI0 & (Hu & _) & _).
  destruct (ss_run_ok T ltb eqb fref dflt R ld HK ord HO ops s0 l0 HI0 HF) as (rs & s & l & E & Hh & HI & _).
  exists s0, l0, rs, s, l. split; [exact E0|]. split; [eapply ss_iter_ok; eauto|].
  split; [eapply sinv_sorted; eauto|]. split; [eapply sinv_distinct; eauto|]. split.
  - intros x. rewrite Hu. split.
    + intros [H|(a & H & Ha)]; [destruct (mem_nil eqb x H)|]. destruct it as [b|]; [|destruct H].
      destruct H as [<-|[]]. eauto.
    + intros (a & -> & Ha). right. exists a. cbn. auto.
  - split; [exact E|]. split; [exact Hh|eapply ss_iter_ok; eauto].
Qed.

(** One operation, from the point of view of what is shown. *)
Lemma set_step : forall S V K (T : listcls S V K) ltb eqb fref dflt ord s l o,
  list_class T ltb eqb fref dflt -> any_order ord -> ss_reach T eqb ord s -> ss_shows T s l -> sop_ok o ->
  exists r s' l', ss_step T eqb ord o s = (r, s') /\ ss_reach T eqb ord s' /\ ss_shows T s' l' /\
    sorted ltb l' /\ distinct eqb l' /\ set_effect eqb fref o l r l'.
Proof.
  intros S V K T ltb eqb fref dflt ord s l o HC HO HR HS Ho. cls HC HK.
  pose proof (ss_shows_ok T ltb eqb fref dflt R ld HK ord HO s l HR HS) as HI.
  destruct (ss_step_ok T ltb eqb fref dflt R ld HK ord HO o s l HI Ho) as (r & s' & l' & E & He & HI' & _).
  exists r, s', l'. split; [exact E|]. split.
  { replace s' with (snd (ss_step T eqb ord o s)) by (rewrite E; reflexivity). eapply ss_reach_step; eauto. }
  split; [eapply ss_iter_ok; eauto|]. split; [eapply sinv_sorted; eauto|]. split; [eapply sinv_distinct; eauto|]. exact He.
Qed.

Lemma insert_members {V} (eqb : V -> V -> bool) v a b x :
  member eqb x (a ++ v :: b) <-> member eqb x (a ++ b) \/ eqb v x = true.
Proof. rewrite !mem_app, mem_cons. tauto. Qed.
Lemma delete_members {V} (eqb : V -> V -> bool) (HE : Equiv eqb) v a y b x : distinct eqb (a ++ y :: b) -> eqb y v = true ->
  member eqb x (a ++ b) <-> member eqb x (a ++ y :: b) /\ eqb v x = false.
Proof.
  intros HD E. pose proof (distinct_mid eqb HE a y b v HD E) as HM. rewrite insert_members. split.
  - intros H. split; [auto|]. destruct H as (z & Hz & Ez).
    destruct (eqb v x) eqn:Ev; [|reflexivity]. rewrite <- (eqb_r eqb HE _ _ z Ev), HM in Ez by exact Hz. discriminate.
  - intros [[H|H] Hv]; [exact H|]. rewrite (eqb_l eqb HE _ _ x E), Hv in H. discriminate.
Qed.
Lemma class_equiv {S V K} (T : listcls S V K) ltb eqb fref dflt : list_class T ltb eqb fref dflt -> Equiv eqb.
Proof. intros H. cls H HK. apply HK. Qed.
Lemma shown_distinct {S V K} (T : listcls S V K) ltb eqb fref dflt ord s l :
  list_class T ltb eqb fref dflt -> any_order ord -> ss_reach T eqb ord s -> ss_shows T s l -> distinct eqb l.
Proof.
  intros HC HO HR HS. cls HC HK. eapply sinv_distinct; [exact HK|eapply ss_shows_ok; eauto].
Qed.

(** ** C35 *)
Lemma c35_add : forall S V K (T : listcls S V K) ltb eqb fref dflt ord s l v,
  list_class T ltb eqb fref dflt -> any_order ord -> ss_reach T eqb ord s -> ss_shows T s l ->
  exists s' l', ss_step T eqb ord (SAdd v) s = (RUnit, s') /\ ss_reach T eqb ord s' /\ ss_shows T s' l' /\
    sorted ltb l' /\ distinct eqb l' /\
    (forall x, member eqb x l' <-> member eqb x l \/ eqb v x = true) /\
    (member eqb v l -> l' = l) /\ (~ member eqb v l -> exists a b, l = a ++ b /\ l' = a ++ v :: b).
Proof.
  intros S V K T ltb eqb fref dflt ord s l v HC HO HR HS.
  destruct (set_step _ _ _ T ltb eqb fref dflt ord s l (SAdd v) HC HO HR HS I) as (r & s' & l' & E & H1 & H2 & H3 & H4 & -> & He).
  exists s', l'. split; [exact E|]. do 4 (split; [assumption|]).
  destruct He as [(Hm & ->)|(Hm & a & b & -> & ->)].
  - split; [|split; [auto|contradiction]]. intros x. split; [auto|]. intros [H|H]; [exact H|].
    apply (mem_eqb eqb (class_equiv _ _ _ _ _ HC) _ _ l H), Hm.
  - split; [intros x; apply insert_members|]. split; [contradiction|]. intros _. exists a, b. auto.
Qed.
Lemma c35_discard_remove : forall S V K (T : listcls S V K) ltb eqb fref dflt ord s l v,
  list_class T ltb eqb fref dflt -> any_order ord -> ss_reach T eqb ord s -> ss_shows T s l ->
  exists s1 s2 r2, ss_step T eqb ord (SDiscard v) s = (RUnit, s1) /\ ss_reach T eqb ord s1 /\
    ss_step T eqb ord (SRemove v) s = (r2, s2) /\ ss_reach T eqb ord s2 /\
    ((~ member eqb v l /\ r2 = RExn KeyError /\ ss_shows T s1 l /\ ss_shows T s2 l) \/
     (member eqb v l /\ r2 = RUnit /\ exists a y b, l = a ++ y :: b /\ eqb y v = true /\
        ss_shows T s1 (a ++ b) /\ ss_shows T s2 (a ++ b) /\
        forall x, member eqb x (a ++ b) <-> member eqb x l /\ eqb v x = false)).
Proof.
  intros S V K T ltb eqb fref dflt ord s l v HC HO HR HS.
  pose proof (class_equiv _ _ _ _ _ HC) as HE. pose proof (shown_distinct _ _ _ _ _ _ _ _ HC HO HR HS) as HD.
  destruct (set_step _ _ _ T ltb eqb fref dflt ord s l (SDiscard v) HC HO HR HS I) as (r1 & s1 & l1 & E1 & H1 & H2 & _ & _ & -> & He1).
  destruct (set_step _ _ _ T ltb eqb fref dflt ord s l (SRemove v) HC HO HR HS I) as (r2 & s2 & l2 & E2 & H5 & H6 & _ & _ & He2).
  exists s1, s2, r2. do 4 (split; [assumption|]).
  assert (HP : forall a x b, l = a ++ x :: b -> eqb x v = true -> member eqb v l).
  { intros a x b -> Ex. exists x. split; [apply in_elt|exact Ex]. }
  destruct He1 as [(Hn & ->)|(a & x & b & Hl & Ex & ->)]; destruct He2 as [(Hn' & -> & ->)|(a' & x' & b' & Hl' & Ex' & -> & ->)].
  - left. auto.
  - destruct Hn. eauto.
  - destruct Hn'. eauto.
  - right. split; [eauto|]. split; [reflexivity|]. exists a, x, b.
    assert (Hq : a' ++ b' = a ++ b).
    { rewrite Hl in HD. rewrite <- (set_del_mid eqb HE v a x b HD Ex), <- Hl.
      rewrite <- Hl, Hl' in HD. rewrite Hl', (set_del_mid eqb HE v a' x' b' HD Ex'). reflexivity. }
    rewrite Hq in H6. repeat (split; [assumption|]). intros y. rewrite Hl in *. apply delete_members; assumption.
Qed.
Lemma c35_pop : forall S V K (T : listcls S V K) ltb eqb fref dflt ord s l i,
  list_class T ltb eqb fref dflt -> any_order ord -> ss_reach T eqb ord s -> ss_shows T s l ->
  exists r s', ss_step T eqb ord (SPop i) s = (r, s') /\ ss_reach T eqb ord s' /\
    ((out_of_range i l /\ r = RExn IndexError /\ ss_shows T s' l) \/
     (exists a x b, at_pos i l a x b /\ r = RVal x /\ ss_shows T s' (a ++ b) /\
        ss_contains eqb x s' = (Ok false, s'))).
Proof.
  intros S V K T ltb eqb fref dflt ord s l i HC HO HR HS.
  pose proof (shown_distinct _ _ _ _ _ _ _ _ HC HO HR HS) as HD.
  destruct (set_step _ _ _ T ltb eqb fref dflt ord s l (SPop i) HC HO HR HS I) as (r & s' & l' & E & H1 & H2 & H3 & H4 & He).
  exists r, s'. split; [exact E|]. split; [exact H1|].
  destruct He as [(Hn & -> & ->)|(a & x & b & Hp & -> & ->)]; [left; auto|right]. exists a, x, b.
  split; [exact Hp|]. split; [reflexivity|]. split; [exact H2|].
  destruct (c33_consistent _ _ _ T ltb eqb fref dflt ord s' HC HO H1) as (l2 & Hs2 & _ & _ & _ & _ & Hc).
  unfold ss_shows in *. rewrite H2 in Hs2. injection Hs2 as <-.
  destruct (Hc x) as (c & Ec & _ & Hx). rewrite Ec. destruct c; [|reflexivity]. exfalso.
  destruct (proj1 Hx eq_refl) as (y & Hy & Ey). destruct Hp as [-> _].
  pose proof (class_equiv _ _ _ _ _ HC) as HE.
  rewrite (distinct_mid eqb HE a x b x HD (eqb_refl eqb HE x) y Hy) in Ey. discriminate.
Qed.
Lemma c35_clear : forall S V K (T : listcls S V K) ltb eqb fref dflt ord s l,
  list_class T ltb eqb fref dflt -> any_order ord -> ss_reach T eqb ord s -> ss_shows T s l ->
  exists s', ss_step T eqb ord SClear s = (RUnit, s') /\ ss_reach T eqb ord s' /\ ss_shows T s' [] /\
    ss_len s' = (Ok 0, s').
Proof.
  intros S V K T ltb eqb fref dflt ord s l HC HO HR HS.
  destruct (set_step _ _ _ T ltb eqb fref dflt ord s l SClear HC HO HR HS I) as (r & s' & l' & E & H1 & H2 & H3 & H4 & -> & ->).
  exists s'. split; [exact E|]. split; [exact H1|]. split; [exact H2|].
  destruct (c33_consistent _ _ _ T ltb eqb fref dflt ord s' HC HO H1) as (l2 & Hs2 & _ & _ & Hl & _).
  unfold ss_shows in *. rewrite H2 in Hs2. injection Hs2 as <-. exact Hl.
Qed.

(** ** C36 *)
Lemma rebind_reach {S V K} (T : listcls S V K) eqb ord s o (m : M (sset S V) (sset S V)) n s1 :
  ss_reach T eqb ord s -> sop_ok o -> ss_step T eqb ord o s = rebind m s -> m s = (Ok n, s1) -> ss_reach T eqb ord n.
Proof.
  intros HR Ho E Em. pose proof (ss_reach_step T eqb ord s o HR Ho) as H. rewrite E in H. unfold rebind in H.
  rewrite Em in H. exact H.
Qed.
Lemma c36_operators : forall S V K (T : listcls S V K) ltb eqb fref dflt ord s l its it,
  list_class T ltb eqb fref dflt -> any_order ord -> ss_reach T eqb ord s -> ss_shows T s l ->
  (exists n l', ss_union T eqb ord its s = (Ok n, s) /\ ss_reach T eqb ord n /\ ss_shows T n l' /\
     sorted ltb l' /\ distinct eqb l' /\
     forall x, member eqb x l' <-> member eqb x l \/ in_any eqb x its) /\
  (exists n l', ss_intersection T eqb ord its s = (Ok n, s) /\ ss_reach T eqb ord n /\ ss_shows T n l' /\
     sorted ltb l' /\ distinct eqb l' /\
     forall x, member eqb x l' <-> member eqb x l /\ forall a, In a its -> member eqb x (items a)) /\
  (exists n l', ss_difference T eqb ord its s = (Ok n, s) /\ ss_reach T eqb ord n /\ ss_shows T n l' /\
     sorted ltb l' /\ distinct eqb l' /\
     forall x, member eqb x l' <-> member eqb x l /\ ~ in_any eqb x its) /\
  (exists n l', ss_symmetric_difference T eqb ord it s = (Ok n, s) /\ ss_reach T eqb ord n /\ ss_shows T n l' /\
     sorted ltb l' /\ distinct eqb l' /\
     forall x, member eqb x l' <->
       (member eqb x l /\ ~ member eqb x (items it)) \/ (~ member eqb x l /\ member eqb x (items it))).
Proof.
  intros S V K T ltb eqb fref dflt ord s l its it HC HO HR HS. cls HC HK.
  pose proof (ss_shows_ok T ltb eqb fref dflt R ld HK ord HO s l HR HS) as HI.
  assert (HF : forall n l', SInv eqb R n l' -> ss_shows T n l' /\ sorted ltb l' /\ distinct eqb l').
  { intros n l' H. split; [eapply ss_iter_ok; eauto|]. split; [eapply sinv_sorted; eauto|eapply sinv_distinct; eauto]. }
  split; [|split; [|split]].
  - destruct (ss_union_ok T ltb eqb fref dflt R ld HK ord HO its s l HI) as (n & l' & E & HI' & (Hu & _) & _).
    destruct (HF n l' HI') as (H1 & H2 & H3). exists n, l'. split; [exact E|].
    split; [eapply (rebind_reach T eqb ord s (SUnion its)); eauto; [exact I|reflexivity]|]. auto.
  - destruct (ss_intersection_ok T ltb eqb fref dflt R ld HK ord HO its s l HI) as (n & l' & E & HI' & (Hu & _) & _).
    destruct (HF n l' HI') as (H1 & H2 & H3). exists n, l'. split; [exact E|].
    split; [eapply (rebind_reach T eqb ord s (SIntersection its)); eauto; [exact I|reflexivity]|]. auto.
  - destruct (ss_difference_ok T ltb eqb fref dflt R ld HK ord HO its s l HI) as (n & l' & E & HI' & Hu & _).
    destruct (HF n l' HI') as (H1 & H2 & H3). exists n, l'. split; [exact E|].
    split; [eapply (rebind_reach T eqb ord s (SDifference its)); eauto; [exact I|reflexivity]|].
    repeat (split; [assumption|]). intros x. unfold member at 1 2. pose proof (class_equiv _ _ _ _ _ HC) as HE. split.
    + intros (y & Hy & Ey). apply Hu in Hy as [Hy Hn]. split; [eauto|].
      intros (a & Ha & Hx). apply Hn. exists a. split; [exact Ha|]. apply (mem_eqb eqb HE _ _ _ Ey), Hx.
    + intros [(y & Hy & Ey) Hn]. exists y. split; [|exact Ey]. apply Hu. split; [exact Hy|].
      intros (a & Ha & Hx). apply Hn. exists a. split; [exact Ha|]. apply (mem_eqb eqb HE _ _ _ Ey), Hx.
  - destruct (ss_symmetric_difference_ok T ltb eqb fref dflt R ld HK ord HO it s l HI) as (n & l' & E & HI' & (Hu & _) & _).
    destruct (HF n l' HI') as (H1 & H2 & H3). exists n, l'. split; [exact E|].
    split; [eapply (rebind_reach T eqb ord s (SSymmetricDifference it)); eauto; [exact I|reflexivity]|]. auto.
Qed.

(** ** C37 *)
Lemma same_diff {V} (eqb : V -> V -> bool) (HE : Equiv eqb) l its l' :
  diff_of eqb l its l' -> forall x, member eqb x l' <-> member eqb x l /\ ~ in_any eqb x its.
Proof.
  intros Hu x. unfold member at 1 2. split.
  - intros (y & Hy & Ey). apply Hu in Hy as [Hy Hn]. split; [eauto|].
    intros (a & Ha & Hx). apply Hn. exists a. split; [exact Ha|]. apply (mem_eqb eqb HE _ _ _ Ey), Hx.
  - intros [(y & Hy & Ey) Hn]. exists y. split; [|exact Ey]. apply Hu. split; [exact Hy|].
    intros (a & Ha & Hx). apply Hn. exists a. split; [exact Ha|]. apply (mem_eqb eqb HE _ _ _ Ey), Hx.
Qed.
Lemma c37_in_place : forall S V K (T : listcls S V K) ltb eqb fref dflt ord s l its it,
  list_class T ltb eqb fref dflt -> any_order ord -> ss_reach T eqb ord s -> ss_shows T s l ->
  (exists s' l', ss_update T eqb ord its s = (Ok tt, s') /\ ss_reach T eqb ord s' /\ ss_shows T s' l' /\
     forall x, member eqb x l' <-> member eqb x l \/ in_any eqb x its) /\
  (exists s' l', ss_intersection_update T eqb ord its s = (Ok tt, s') /\ ss_reach T eqb ord s' /\ ss_shows T s' l' /\
     forall x, member eqb x l' <-> member eqb x l /\ forall a, In a its -> member eqb x (items a)) /\
  (exists s' l', ss_difference_update T eqb ord its s = (Ok tt, s') /\ ss_reach T eqb ord s' /\ ss_shows T s' l' /\
     forall x, member eqb x l' <-> member eqb x l /\ ~ in_any eqb x its) /\
  (exists s' l', ss_symmetric_difference_update T eqb ord it s = (Ok tt, s') /\ ss_reach T eqb ord s' /\ ss_shows T s' l' /\
     forall x, member eqb x l' <->
       (member eqb x l /\ ~ member eqb x (items it)) \/ (~ member eqb x l /\ member eqb x (items it))).
Proof.
  intros S V K T ltb eqb fref dflt ord s l its it HC HO HR HS.
  pose proof (class_equiv _ _ _ _ _ HC) as HE.
  assert (HF : forall o r s' (m : M (sset S V) unit), ss_step T eqb ord o s = observe runit m s ->
     ss_step T eqb ord o s = (r, s') -> r = RUnit -> m s = (Ok tt, s')).
  { intros o r s' m E1 E2 ->. rewrite E1 in E2. unfold observe in E2. destruct (m s) as [[[]|e] s2]; [|discriminate].
    injection E2 as ->. reflexivity. }
  split; [|split; [|split]].
  - destruct (set_step _ _ _ T ltb eqb fref dflt ord s l (SUpdate its) HC HO HR HS I) as (r & s' & l' & E & H1 & H2 & _ & _ & -> & Hu & _).
    exists s', l'. split; [eapply HF; eauto; reflexivity|]. auto.
  - destruct (set_step _ _ _ T ltb eqb fref dflt ord s l (SIntersectionUpdate its) HC HO HR HS I) as (r & s' & l' & E & H1 & H2 & _ & _ & -> & Hu & _).
    exists s', l'. split; [eapply HF; eauto; reflexivity|]. auto.
  - destruct (set_step _ _ _ T ltb eqb fref dflt ord s l (SDifferenceUpdate its) HC HO HR HS I) as (r & s' & l' & E & H1 & H2 & _ & _ & -> & Hu).
    exists s', l'. split; [eapply HF; eauto; reflexivity|]. split; [exact H1|]. split; [exact H2|].
    apply same_diff; assumption.
  - destruct (set_step _ _ _ T ltb eqb fref dflt ord s l (SSymmetricDifferenceUpdate it) HC HO HR HS I) as (r & s' & l' & E & H1 & H2 & _ & _ & -> & Hu & _).
    exists s', l'. split; [eapply HF; eauto; reflexivity|]. auto.
Qed.
Lemma c37_paths : forall S V K (T : listcls S V K) ltb eqb fref dflt ord s l vs,
  list_class T ltb eqb fref dflt -> any_order ord -> ss_reach T eqb ord s -> ss_shows T s l ->
  (exists s1 s2 l1 l2, update_at_once T eqb ord vs s = (Ok tt, s1) /\ update_each T eqb vs s = (Ok tt, s2) /\
     ss_shows T s1 l1 /\ ss_shows T s2 l2 /\ Permutation l1 l2) /\
  (exists s1 s2 l1 l2, remove_at_once T eqb ord vs s = (Ok tt, s1) /\ remove_each T eqb vs s = (Ok tt, s2) /\
     ss_shows T s1 l1 /\ ss_shows T s2 l2 /\ Permutation l1 l2).
Proof.
  intros S V K T ltb eqb fref dflt ord s l vs HC HO HR HS. cls HC HK.
  pose proof (ss_shows_ok T ltb eqb fref dflt R ld HK ord HO s l HR HS) as HI. pose proof HI as (_ & HD & _).
  pose proof (class_equiv _ _ _ _ _ HC) as HE.
  assert (HF : forall s1 s2 l1 l2, SInv eqb R s1 l1 -> SInv eqb R s2 l2 -> s_set s1 = s_set s2 -> Permutation l1 l2).
  { intros s1 s2 l1 l2 (_ & _ & H1) (_ & _ & H2) E. rewrite <- H1, E, H2. reflexivity. }
  split.
  - destruct (rebuild_ok T ltb eqb fref dflt R ld HK ord HO s l (set_union eqb (s_set s) vs) HI) as (s1 & l1 & E1 & Hs1 & HI1 & _).
    { apply set_union_spec; assumption. }
    destruct (add_all T ltb eqb fref dflt R ld HK vs s l HI) as (s2 & l2 & E2 & Hs2 & HI2 & _).
    exists s1, s2, l1, l2. split; [exact E1|]. split; [exact E2|]. split; [eapply ss_iter_ok; eauto|].
    split; [eapply ss_iter_ok; eauto|]. eapply HF; eauto. congruence.
  - destruct (rebuild_ok T ltb eqb fref dflt R ld HK ord HO s l (set_diff eqb (s_set s) vs) HI) as (s1 & l1 & E1 & Hs1 & HI1 & _).
    { apply set_diff_distinct; assumption. }
    destruct (discard_all T ltb eqb fref dflt R ld HK vs s l HI) as (s2 & l2 & E2 & Hs2 & HI2 & _).
    exists s1, s2, l1, l2. split; [exact E1|]. split; [exact E2|]. split; [eapply ss_iter_ok; eauto|].
    split; [eapply ss_iter_ok; eauto|]. eapply HF; eauto. congruence.
Qed.

(** ** C38 *)
Lemma c38_compare : forall S V K (T : listcls S V K) ltb eqb fref dflt ord ord2 s s2 l l2 op,
  list_class T ltb eqb fref dflt -> any_order ord -> any_order ord2 ->
  ss_reach T eqb ord s -> ss_shows T s l -> ss_reach T eqb ord2 s2 -> ss_shows T s2 l2 ->
  exists b, ss_compare eqb op (s_set s2) s = (Ok b, s) /\ (b = true <-> set_cmp_means eqb op l l2).
Proof.
  intros S V K T ltb eqb fref dflt ord ord2 s s2 l l2 op HC HO HO2 HR HS HR2 HS2. cls HC HK.
  pose proof (ss_shows_ok T ltb eqb fref dflt R ld HK ord HO s l HR HS) as (_ & HD & HP).
  pose proof (ss_shows_ok T ltb eqb fref dflt R ld HK ord2 HO2 s2 l2 HR2 HS2) as (_ & HD2 & HP2).
  pose proof (class_equiv _ _ _ _ _ HC) as HE.
  eexists. split; [reflexivity|]. rewrite (set_cmp_spec eqb HE) by assumption.
  pose proof (subset_perm eqb _ _ _ _ HP HP2) as H1. pose proof (subset_perm eqb _ _ _ _ HP2 HP) as H2.
  destruct op; cbn [set_cmp_means]; tauto.
Qed.
Lemma c38_compare_set : forall S V K (T : listcls S V K) ltb eqb fref dflt ord s l op other,
  list_class T ltb eqb fref dflt -> any_order ord -> ss_reach T eqb ord s -> ss_shows T s l -> distinct eqb other ->
  exists b, ss_compare eqb op other s = (Ok b, s) /\ (b = true <-> set_cmp_means eqb op l other).
Proof.
  intros S V K T ltb eqb fref dflt ord s l op other HC HO HR HS HD2. cls HC HK.
  pose proof (ss_shows_ok T ltb eqb fref dflt R ld HK ord HO s l HR HS) as (_ & HD & HP).
  pose proof (class_equiv _ _ _ _ _ HC) as HE.
  eexists. split; [reflexivity|]. rewrite (set_cmp_spec eqb HE) by assumption.
  pose proof (subset_perm eqb _ _ _ _ HP (Permutation_refl other)) as H1.
  pose proof (subset_perm eqb _ _ _ _ (Permutation_refl other) HP) as H2.
  destruct op; cbn [set_cmp_means]; tauto.
Qed.
Lemma c38_relations : forall S V K (T : listcls S V K) ltb eqb fref dflt ord s l a,
  list_class T ltb eqb fref dflt -> any_order ord -> ss_reach T eqb ord s -> ss_shows T s l ->
  (exists b, ss_isdisjoint eqb a s = (Ok b, s) /\
     (b = true <-> forall x, ~ (member eqb x l /\ member eqb x (items a)))) /\
  (exists b, ss_issubset eqb a s = (Ok b, s) /\
     (b = true <-> forall x, member eqb x l -> member eqb x (items a))) /\
  (exists b, ss_issuperset eqb a s = (Ok b, s) /\
     (b = true <-> forall x, member eqb x (items a) -> member eqb x l)).
Proof.
  intros S V K T ltb eqb fref dflt ord s l a HC HO HR HS.
  assert (HF : forall (m : M (sset S V) bool) P r s', observe (@RBool V) m s = (r, s') -> answers r P ->
     exists b, m s = (Ok b, s') /\ (b = true <-> P)).
  { intros m P r s' E (b & -> & Hb). unfold observe in E. destruct (m s) as [[c|e] s2]; [|discriminate].
    injection E as -> ->. eauto. }
  split; [|split].
  - destruct (set_step _ _ _ T ltb eqb fref dflt ord s l (SIsDisjoint a) HC HO HR HS I) as (r & s' & l' & E & _ & _ & _ & _ & _ & Ha).
    destruct (HF _ _ _ _ E Ha) as (b & Eb & Hb). assert (s' = s) as -> by (inversion Eb; reflexivity). eauto.
  - destruct (set_step _ _ _ T ltb eqb fref dflt ord s l (SIsSubset a) HC HO HR HS I) as (r & s' & l' & E & _ & _ & _ & _ & _ & Ha).
    destruct (HF _ _ _ _ E Ha) as (b & Eb & Hb). assert (s' = s) as -> by (inversion Eb; reflexivity). eauto.
  - destruct (set_step _ _ _ T ltb eqb fref dflt ord s l (SIsSuperset a) HC HO HR HS I) as (r & s' & l' & E & _ & _ & _ & _ & _ & Ha).
    destruct (HF _ _ _ _ E Ha) as (b & Eb & Hb). assert (s' = s) as -> by (inversion Eb; reflexivity). eauto.
Qed.

(** ** C39 *)
Lemma c39_read : forall S V K (T : listcls S V K) ltb eqb fref dflt ord s l i sl,
  list_class T ltb eqb fref dflt -> any_order ord -> ss_reach T eqb ord s -> ss_shows T s l ->
  (exists r s', ss_step T eqb ord (SGet i) s = (r, s') /\ ss_reach T eqb ord s' /\ ss_shows T s' l /\
     ((out_of_range i l /\ r = RExn IndexError) \/ exists a x b, at_pos i l a x b /\ r = RVal x)) /\
  (exists r s', ss_step T eqb ord (SSlice sl) s = (r, s') /\ ss_reach T eqb ord s' /\ ss_shows T s' l /\
     ((s_step sl = Some 0%Z /\ r = RExn ValueError) \/
      (s_step sl <> Some 0%Z /\ exists x, r = RList x /\ slice_is sl l x))).
Proof.
  intros S V K T ltb eqb fref dflt ord s l i sl HC HO HR HS. split.
  - destruct (set_step _ _ _ T ltb eqb fref dflt ord s l (SGet i) HC HO HR HS I) as (r & s' & l' & E & H1 & H2 & _ & _ & -> & He).
    exists r, s'. auto.
  - destruct (set_step _ _ _ T ltb eqb fref dflt ord s l (SSlice sl) HC HO HR HS I) as (r & s' & l' & E & H1 & H2 & _ & _ & -> & He).
    exists r, s'. auto.
Qed.
Lemma c39_delete : forall S V K (T : listcls S V K) ltb eqb fref dflt ord s l i sl,
  list_class T ltb eqb fref dflt -> any_order ord -> ss_reach T eqb ord s -> ss_shows T s l ->
  (exists r s' l', ss_step T eqb ord (SDel i) s = (r, s') /\ ss_reach T eqb ord s' /\ ss_shows T s' l' /\
     (forall v, exists b, ss_contains eqb v s' = (Ok b, s') /\ (b = true <-> member eqb v l')) /\
     ((out_of_range i l /\ r = RExn IndexError /\ l' = l) \/
      exists a x b, at_pos i l a x b /\ r = RUnit /\ l' = a ++ b)) /\
  (exists r s' l', ss_step T eqb ord (SDelSlice sl) s = (r, s') /\ ss_reach T eqb ord s' /\ ss_shows T s' l' /\
     (forall v, exists b, ss_contains eqb v s' = (Ok b, s') /\ (b = true <-> member eqb v l')) /\
     ((s_step sl = Some 0%Z /\ r = RExn ValueError /\ l' = l) \/
      (s_step sl <> Some 0%Z /\ r = RUnit /\ slice_deleted sl l l'))).
Proof.
  intros S V K T ltb eqb fref dflt ord s l i sl HC HO HR HS.
  assert (HF : forall s' l', ss_reach T eqb ord s' -> ss_shows T s' l' ->
     forall v, exists b, ss_contains eqb v s' = (Ok b, s') /\ (b = true <-> member eqb v l')).
  { intros s' l' H1 H2 v. destruct (c33_consistent _ _ _ T ltb eqb fref dflt ord s' HC HO H1) as (l2 & Hs2 & _ & _ & _ & _ & Hc).
    unfold ss_shows in *. rewrite H2 in Hs2. injection Hs2 as <-. destruct (Hc v) as (b & Eb & _ & Hb). eauto. }
  split.
  - destruct (set_step _ _ _ T ltb eqb fref dflt ord s l (SDel i) HC HO HR HS I) as (r & s' & l' & E & H1 & H2 & _ & _ & He).
    exists r, s', l'. auto 6.
  - destruct (set_step _ _ _ T ltb eqb fref dflt ord s l (SDelSlice sl) HC HO HR HS I) as (r & s' & l' & E & H1 & H2 & _ & _ & He).
    exists r, s', l'. auto 6.
Qed.

(** ** C40 *)
Lemma sorted_sets_equal {V} (ltb eqb : V -> V -> bool) (HW : SWO ltb) (HE : Equiv eqb) (HC : EqCompat ltb eqb) :
  (forall x y, ltb x y = false -> ltb y x = false -> eqb x y = true) ->
  forall l1 l2, sorted ltb l1 -> sorted ltb l2 -> distinct eqb l1 -> distinct eqb l2 ->
  (forall x, member eqb x l1 <-> member eqb x l2) -> Forall2 (fun x y => eqb x y = true) l1 l2.
Proof.
  intros HT.
  assert (Hle : forall a b t, (forall z, In z t -> ltb z a = false) -> member eqb b (a :: t) -> ltb b a = false).
  { intros a b t Ht (z & [<-|Hz] & E); apply HC in E as [E1 E2]; [exact E2|].
    destruct (ltb b a) eqn:Eb; [|reflexivity].
    rewrite (swo_lt_le ltb HW _ _ _ Eb (Ht z Hz)) in E2. discriminate. }
  assert (Htl : forall x t z, (forall y, In y t -> eqb x y = false) -> member eqb z t -> eqb x z = false).
  { intros x t z Hx (w & Hw & E). destruct (eqb x z) eqn:Ez; [|reflexivity].
    rewrite <- (eqb_r eqb HE _ _ x E), Hx in Ez by exact Hw. discriminate. }
  induction l1 as [|x t1 IH]; intros l2 H1 H2 D1 D2 HM.
  - destruct l2 as [|y t2]; [constructor|]. exfalso. apply (mem_nil eqb y). apply HM, mem_In; [exact HE|cbn; auto].
  - destruct l2 as [|y t2].
    { exfalso. apply (mem_nil eqb x). apply HM, mem_In; [exact HE|cbn; auto]. }
    apply sorted_cons_inv in H1 as [S1 L1]. apply sorted_cons_inv in H2 as [S2 L2]. destruct D1 as [X1 D1], D2 as [X2 D2].
    assert (Exy : eqb x y = true).
    { apply HT.
      - apply (Hle y x t2 L2), HM, mem_In; [exact HE|cbn; auto].
      - apply (Hle x y t1 L1), HM, mem_In; [exact HE|cbn; auto]. }
    constructor; [exact Exy|]. apply IH; auto. intros z. specialize (HM z). rewrite !mem_cons in HM. split; intros Hz.
    + pose proof (Htl _ _ _ X1 Hz) as Hn. rewrite (eqb_l eqb HE _ _ z Exy) in Hn. intuition congruence.
    + pose proof (Htl _ _ _ X2 Hz) as Hn. rewrite (eqb_l eqb HE _ _ z Exy) in HM. intuition congruence.
Qed.
Lemma c40_hash_order : forall S V K (T : listcls S V K) ltb eqb fref dflt ord1 ord2 s1 s2 l1 l2,
  list_class T ltb eqb fref dflt ->
  (forall x y, ltb x y = false -> ltb y x = false -> eqb x y = true) ->
  any_order ord1 -> any_order ord2 ->
  ss_reach T eqb ord1 s1 -> ss_reach T eqb ord2 s2 -> ss_shows T s1 l1 -> ss_shows T s2 l2 ->
  (forall v, exists b, ss_contains eqb v s1 = (Ok b, s1) /\ ss_contains eqb v s2 = (Ok b, s2)) ->
  Forall2 (fun x y => eqb x y = true) l1 l2.
Proof.
  intros S V K T ltb eqb fref dflt ord1 ord2 s1 s2 l1 l2 HC HT HO1 HO2 HR1 HR2 HS1 HS2 HM. cls HC HK.
  pose proof (ss_shows_ok T ltb eqb fref dflt R ld HK ord1 HO1 s1 l1 HR1 HS1) as HI1.
  pose proof (ss_shows_ok T ltb eqb fref dflt R ld HK ord2 HO2 s2 l2 HR2 HS2) as HI2.
  apply (sorted_sets_equal ltb eqb); [apply HK|apply HK|apply HK|exact HT| | | | |].
  - eapply sinv_sorted; eauto.
  - eapply sinv_sorted; eauto.
  - eapply sinv_distinct; eauto.
  - eapply sinv_distinct; eauto.
  - intros x. rewrite <- (sinv_mem eqb R s1 l1 x HI1), <- (sinv_mem eqb R s2 l2 x HI2), <- !set_mem_iff.
    destruct (HM x) as (b & E1 & E2). cbn in E1, E2. injection E1 as ->. injection E2 as ->. reflexivity.
Qed.
Lemma c40_plain : forall V K (ltb eqb : V -> V -> bool) dflt ord1 ord2 s1 s2 l1 l2,
  let T := plain (K:=K) (total2 ltb) (total2 eqb) dflt in
  TotalOrder ltb eqb -> 1 <= dflt -> any_order ord1 -> any_order ord2 ->
  ss_reach T eqb ord1 s1 -> ss_reach T eqb ord2 s2 -> ss_shows T s1 l1 -> ss_shows T s2 l2 ->
  (forall v, exists b, ss_contains eqb v s1 = (Ok b, s1) /\ ss_contains eqb v s2 = (Ok b, s2)) ->
  Forall2 (fun x y => eqb x y = true) l1 l2.
Proof.
  intros V K ltb eqb dflt ord1 ord2 s1 s2 l1 l2 T HT Hd HO1 HO2 HR1 HR2 HS1 HS2 HM.
  eapply (c40_hash_order _ V K T ltb eqb (fwd_plain ltb eqb) dflt ord1 ord2 s1 s2 l1 l2); eauto.
  - apply class_plain; assumption.
  - intros x y H1 H2. rewrite (to_eq HT). rewrite H1, H2. reflexivity.
Qed.

(** ** C41 *)
Lemma c41_copy : forall S V K (T : listcls S V K) ltb eqb fref dflt ord s l,
  list_class T ltb eqb fref dflt -> any_order ord -> ss_reach T eqb ord s -> ss_shows T s l ->
  exists n l', ss_copy T ord s = (Ok n, s) /\ ss_reach T eqb ord n /\ ss_shows T n l' /\
    Permutation l' l /\ sorted ltb l' /\ (4 <= dflt -> ss_check T eqb n = (Ok tt, n)).
Proof.
  intros S V K T ltb eqb fref dflt ord s l HC HO HR HS. cls HC HK.
  pose proof (ss_shows_ok T ltb eqb fref dflt R ld HK ord HO s l HR HS) as HI.
  destruct (ss_copy_ok T ltb eqb fref dflt R ld HK ord HO s l HI) as (n & l' & E & HI' & Hu & Hl).
  exists n, l'. split; [exact E|]. split; [eapply (rebind_reach T eqb ord s SCopy); eauto; [exact I|reflexivity]|].
  split; [eapply ss_iter_ok; eauto|]. split; [exact Hu|]. split; [eapply sinv_sorted; eauto|].
  intros Hd. eapply ss_check_ok; eauto. lia.
Qed.
Lemma c41_reduce : forall S V K (T : listcls S V K) ltb eqb fref dflt ord s l,
  list_class T ltb eqb fref dflt -> any_order ord -> ss_reach T eqb ord s -> ss_shows T s l ->
  exists n l' s1, ss_reduce T eqb ord s = (Ok n, s1) /\ ss_shows T s1 l /\ s_set s1 = s_set s /\ s_list s1 = s_list s /\
    ss_reach T eqb ord n /\ ss_shows T n l' /\
    Permutation l' l /\ sorted ltb l' /\ (4 <= dflt -> ss_check T eqb n = (Ok tt, n)).
Proof.
  intros S V K T ltb eqb fref dflt ord s l HC HO HR HS. cls HC HK.
  pose proof (ss_shows_ok T ltb eqb fref dflt R ld HK ord HO s l HR HS) as HI.
  destruct (ss_reduce_ok T ltb eqb fref dflt R ld HK ord HO s l HI) as (n & l' & s1 & E & HI1 & HI' & Hu & Hl).
  exists n, l', s1. split; [exact E|]. split; [eapply ss_iter_ok; eauto|].
  assert (Es : s_set s1 = s_set s /\ s_list s1 = s_list s).
  { unfold ss_reduce, members, visit, fresh, modify, bind, get, ret, liftr in E.
    injection E as _ <-. split; reflexivity. }
  destruct Es as [Es1 Es2]. split; [exact Es1|]. split; [exact Es2|].
  split; [eapply (rebind_reach T eqb ord s SReduce); eauto; [exact I|reflexivity]|].
  split; [eapply ss_iter_ok; eauto|]. split; [exact Hu|]. split; [eapply sinv_sorted; eauto|].
  intros Hd. eapply ss_check_ok; eauto. lia.
Qed.
(** ** C25 *)
(** Two arrangements of the same distinct values that agree up to equality are the same. *)
Lemma pointwise_perm {V} (eqb : V -> V -> bool) : Equiv eqb -> forall l1 l2, distinct eqb l2 ->
  Permutation l1 l2 -> Forall2 (fun x y => eqb x y = true) l1 l2 -> l1 = l2.
Proof.
  intros HE l1 l2 HD HP HF. revert HD HP. induction HF as [|x y t1 t2 Exy HF IH]; intros HD HP; [reflexivity|].
  assert (x = y) as ->.
  { assert (Hx : In x (y :: t2)) by (apply (Permutation_in _ HP); cbn; auto).
    destruct Hx as [Hx|Hx]; [auto|]. destruct HD as [HD _]. pose proof (HD x Hx) as Hn.
    rewrite (eqv_sym HE x y Exy) in Hn. discriminate. }
  f_equal. apply IH; [apply HD|]. eapply Permutation_cons_inv; exact HP.
Qed.
Lemma c25_set_reduce : forall S V K (T : listcls S V K) ltb eqb fref dflt ord s l,
  list_class T ltb eqb fref dflt ->
  (forall x y, ltb x y = false -> ltb y x = false -> eqb x y = true) ->
  any_order ord -> ss_reach T eqb ord s -> ss_shows T s l ->
  exists n s1, ss_reduce T eqb ord s = (Ok n, s1) /\ ss_shows T s1 l /\ ss_reach T eqb ord n /\ ss_shows T n l.
Proof.
  intros S V K T ltb eqb fref dflt ord s l HC HT HO HR HS.
  destruct (c41_reduce S V K T ltb eqb fref dflt ord s l HC HO HR HS)
    as (n & l' & s1 & E & HS1 & _ & _ & HRn & HSn & HP & _ & _).
  exists n, s1. split; [exact E|]. split; [exact HS1|]. split; [exact HRn|].
  cls HC HK.
  pose proof (ss_shows_ok T ltb eqb fref dflt R ld HK ord HO s l HR HS) as HI.
  pose proof (ss_shows_ok T ltb eqb fref dflt R ld HK ord HO n l' HRn HSn) as HI'.
  assert (l' = l) as <-; [|exact HSn].
  apply (pointwise_perm eqb); [apply HK|eapply sinv_distinct; eauto|exact HP|].
  apply (sorted_sets_equal ltb eqb); [apply HK|apply HK|apply HK|exact HT| | | | |];
    try solve [eapply sinv_sorted; eauto | eapply sinv_distinct; eauto].
  intros x. apply (mem_perm eqb x _ _ HP).
Qed.
Lemma c25_set_refuted : exists (key : nat -> nat) dflt ord s0 s n s1 l l',
  let T := keyed (total2 Nat.eqb) (total2 Nat.ltb) (total2 Nat.eqb) (total1 key) dflt in
  list_class T (by_key key Nat.ltb) Nat.eqb (fwd_keyed key Nat.ltb Nat.eqb) dflt /\ any_order ord /\
  ss_new T Nat.eqb ord 0 None = Ok s0 /\ s = snd (ss_run T Nat.eqb ord [SAdd 2; SAdd 1] s0) /\ ss_shows T s l /\
  ss_reduce T Nat.eqb ord s = (Ok n, s1) /\ ss_shows T n l' /\ l' <> l.
Proof.
  assert (HN : TotalOrder Nat.ltb Nat.eqb).
  { constructor; [constructor|]; intros; rewrite ?Nat.ltb_irrefl, ?Nat.ltb_lt in *; try lia.
    destruct (Nat.eqb_spec x y), (Nat.ltb_spec x y), (Nat.ltb_spec y x); cbn; lia. }
  exists (fun _ => 0), 4, (fun _ l => sp_sort Nat.ltb l). eexists _, _, _, _, [2; 1], [1; 2]. cbv zeta.
  split.
  { apply class_keyed; [|split; intros; rewrite ?Nat.eqb_eq in *; congruence| |lia].
    - exact HN.
    - intros x y H. split; reflexivity. }
  split; [intros n l; apply sp_sort_perm, (to_swo HN)|].
  split; [vm_compute; reflexivity|]. split; [reflexivity|]. split; [vm_compute; reflexivity|].
  split; [vm_compute; reflexivity|]. split; [vm_compute; reflexivity|discriminate].
Qed.
(** ** C56 *)
Lemma c56_set_check : forall S V K (T : listcls S V K) ltb eqb fref dflt ord tick it s0 ops,
  list_class T ltb eqb fref dflt -> any_order ord -> 4 <= dflt -> Forall sop_ok ops -> Forall (resets_from 4) ops ->
  ss_new T eqb ord tick it = Ok s0 ->
  let s := snd (ss_run T eqb ord ops s0) in ss_check T eqb s = (Ok tt, s).
Proof.
  intros S V K T ltb eqb fref dflt ord tick it s0 ops HC HO Hd HF H4 E0. cls HC HK.
  destruct (ss_new_ok T ltb eqb fref dflt R ld HK ord HO tick it) as (s1 & l1 & E1 & HI1 & _ & Hl). rewrite E1 in E0. injection E0 as ->.
  destruct (ss_run_ok T ltb eqb fref dflt R ld HK ord HO ops s0 l1 HI1 HF) as (rs & s' & l' & E & _ & HI & HL). rewrite E.
  cbn. eapply ss_check_ok; eauto. apply HL; auto. lia.
Qed.

(** ** C42 *)
Definition cranky (x y : nat) : res bool := if (x =? 5) || (y =? 5) then Err TypeError else Ok (x <? y).
Lemma c42_refuted : exists (lt eq : nat -> nat -> res bool) dflt ord s0 s v e l,
  let T := plain (K:=nat) lt eq dflt in
  1 <= dflt /\ any_order ord /\ ss_new T Nat.eqb ord 0 (Some (AIter [1; 2])) = Ok s0 /\
  ss_add T Nat.eqb v s0 = (Err e, s) /\ ss_contains Nat.eqb v s = (Ok true, s) /\
  ss_shows T s l /\ ~ In v l /\ ss_len s = (Ok (Datatypes.S (length l)), s).
Proof.
  exists cranky, (total2 Nat.eqb), 4, (fun _ l => l).
  eexists _, _, 5, TypeError, [1; 2]. cbv zeta. split; [lia|]. split; [intros n l; reflexivity|].
  split; [vm_compute; reflexivity|]. split; [vm_compute; reflexivity|]. split; [vm_compute; reflexivity|].
  split; [vm_compute; reflexivity|]. split; [cbn; lia|vm_compute; reflexivity].
Qed.
Lemma shows_of_list {S V K} (T : listcls S V K) s s' l : ss_shows T s l -> s_list s' = s_list s -> ss_shows T s' l.
Proof.
  unfold ss_shows, ss_iter, onlist, zoom. intros H Hs. rewrite Hs. destruct (l_iter T (s_list s)) as [r x] eqn:E.
  destruct s as [a b t], s' as [a' b' t']. cbn in *. injection H as -> ->. rewrite Hs. reflexivity.
Qed.
Lemma c42_list_kept : forall V K (ltb eqb : V -> V -> bool) dflt ord s l,
  let T := plain (K:=K) (total2 ltb) (total2 eqb) dflt in
  TotalOrder ltb eqb -> 1 <= dflt -> any_order ord -> ss_reach T eqb ord s -> ss_shows T s l ->
  forall lt eq v e s', ss_add (plain (K:=K) lt eq dflt) eqb v s = (Err e, s') ->
    (exists x, lt v x = Err e) /\ s_list s' = s_list s /\ ss_shows T s' l /\
    ~ member eqb v l /\ s_set s' = s_set s ++ [v].
Proof.
  intros V K ltb eqb dflt ord s l T HT Hd HO HR HS lt eq v e s' E.
  pose proof (plain_ok (K:=K) ltb eqb HT dflt Hd) as HK.
  pose proof (ss_shows_ok _ _ _ _ _ _ _ HK ord HO s l HR HS) as HI. pose proof HI as ([[HL _] _] & _).
  unfold ss_add, members, bind, get, ret in E. destruct (set_mem eqb v (s_set s)) eqn:Em; [discriminate|].
  unfold put_set, modify, onlist, zoom in E. cbn [s_list s_set s_tick l_add plain] in E.
  destruct (sl_add_gen lt v _ HL) as [(e0 & E0 & y & Hy)|(c' & l1 & l2 & E0 & _)]; rewrite E0 in E; [|discriminate].
  injection E as <- <-. split; [eauto|]. split; [reflexivity|].
  split; [eapply shows_of_list; [exact HS|reflexivity]|].
  split; [|unfold set_add; rewrite Em; reflexivity].
  rewrite <- (sinv_mem eqb _ s l v HI). apply set_mem_false, Em.
Qed.
Lemma c42_keyed_list_kept : forall V K (key : V -> K) (kltb keqb : K -> K -> bool) (eqb : V -> V -> bool) dflt ord s l,
  let T := keyed (total2 eqb) (total2 kltb) (total2 keqb) (total1 key) dflt in
  TotalOrder kltb keqb -> Equiv eqb -> EqCompat (by_key key kltb) eqb -> 1 <= dflt ->
  any_order ord -> ss_reach T eqb ord s -> ss_shows T s l ->
  forall klt keq eq v e s', ss_add (keyed eq klt keq (total1 key) dflt) eqb v s = (Err e, s') ->
    (exists k, klt (key v) k = Err e) /\ s_list s' = s_list s /\ ss_shows T s' l /\
    ~ member eqb v l /\ s_set s' = s_set s ++ [v].
Proof.
  intros V K key kltb keqb eqb dflt ord s l T HT HE HC Hd HO HR HS klt keq eq v e s' E.
  pose proof (keyed_ok key kltb keqb eqb HT HE HC dflt Hd) as HK.
  pose proof (ss_shows_ok _ _ _ _ _ _ _ HK ord HO s l HR HS) as HI. pose proof HI as ([[HL _] _] & _).
  unfold ss_add, members, bind, get, ret in E. destruct (set_mem eqb v (s_set s)) eqn:Em; [discriminate|].
  unfold put_set, modify, onlist, zoom in E. cbn [s_list s_set s_tick l_add keyed] in E.
  destruct (skl_add_gen (total1 key) klt v _ HL) as [(e0 & E0 & Hy)|(c' & k & l1 & l2 & k1 & k2 & E0 & _)]; rewrite E0 in E; [|discriminate].
  injection E as <- <-. split; [destruct Hy as [Hy|(k & y & Hk & Hy)]; [discriminate|injection Hk as <-; eauto]|].
  split; [reflexivity|]. split; [eapply shows_of_list; [exact HS|reflexivity]|].
  split; [|unfold set_add; rewrite Em; reflexivity].
  rewrite <- (sinv_mem eqb _ s l v HI). apply set_mem_false, Em.
Qed.

(** ** C54 *)
Lemma set_doc : forall S V K (T : listcls S V K) ltb eqb fref dflt ord s o,
  list_class T ltb eqb fref dflt -> any_order ord -> ss_reach T eqb ord s -> sop_ok o ->
  forall e s', ss_step T eqb ord o s = (RExn e, s') ->
    sdocumented (exists f l, fst (fref f l) = RExn AttributeError) o e.
Proof.
  intros S V K T ltb eqb fref dflt ord s o HC HO HR Ho e s' E.
  destruct (c33_consistent _ _ _ T ltb eqb fref dflt ord s HC HO HR) as (l & HS & _).
  destruct (set_step _ _ _ T ltb eqb fref dflt ord s l o HC HO HR HS Ho) as (r & s1 & l' & E1 & _ & _ & _ & _ & He).
  rewrite E in E1. injection E1 as <- <-.
  assert (HA : forall P, answers (@RExn V e) P -> False) by (intros P (b & H & _); discriminate).
  destruct o; cbn [set_effect sdocumented] in *;
    repeat match goal with
    | H : _ /\ _ |- _ => destruct H
    | H : exists _, _ |- _ => destruct H
    | H : _ \/ _ |- _ => destruct H
    | H : RExn _ = RExn _ |- _ => injection H as H
    end; subst; try discriminate; try tauto; eauto.
  - (* SFwd *) match goal with H : RExn e = fst (fref f l) |- _ => rename H into Ef end.
    destruct HC as [ltb eqb dflt HT Hd|key kltb keqb eqb dflt HT HE HEC Hd].
    + destruct f; try (symmetry in Ef; exact (sp_documented _ _ _ _ _ _ Ef)); cbn in Ef; injection Ef as ->; (split; [|reflexivity]).
      * exists (FBisectKeyLeft k), []. reflexivity.
      * exists (FBisectKeyRight k), []. reflexivity.
      * exists (FIRangeKey mn mx imin imax reverse), []. reflexivity.
    + destruct f; try (symmetry in Ef; exact (sp_documented _ _ _ _ _ _ Ef)); discriminate Ef.
Qed.

Lemma sdocumented_mono {V K} (P Q : Prop) (o : sop V K) e : (P -> Q) -> sdocumented P o e -> sdocumented Q o e.
Proof. intros H. destruct o; cbn; auto. destruct f; tauto. Qed.
Lemma c54_set_plain : forall V K (ltb eqb : V -> V -> bool) dflt ord s o,
  let T := plain (K:=K) (total2 ltb) (total2 eqb) dflt in
  TotalOrder ltb eqb -> 1 <= dflt -> any_order ord -> ss_reach T eqb ord s -> sop_ok o ->
  forall e s', ss_step T eqb ord o s = (RExn e, s') -> sdocumented True o e.
Proof.
  intros V K ltb eqb dflt ord s o T HT Hd HO HR Ho e s' E.
  eapply sdocumented_mono; [|eapply (set_doc _ V K T ltb eqb (fwd_plain ltb eqb) dflt); eauto]; [auto|].
  apply class_plain; assumption.
Qed.
Lemma c54_set_keyed : forall V K (key : V -> K) (kltb keqb : K -> K -> bool) (eqb : V -> V -> bool) dflt ord s o,
  let T := keyed (total2 eqb) (total2 kltb) (total2 keqb) (total1 key) dflt in
  TotalOrder kltb keqb -> Equiv eqb -> EqCompat (by_key key kltb) eqb -> 1 <= dflt ->
  any_order ord -> ss_reach T eqb ord s -> sop_ok o ->
  forall e s', ss_step T eqb ord o s = (RExn e, s') -> sdocumented False o e.
Proof.
  intros V K key kltb keqb eqb dflt ord s o T HT HE HC Hd HO HR Ho e s' E.
  eapply sdocumented_mono; [|eapply (set_doc _ V K T _ eqb (fwd_keyed key kltb eqb) dflt); eauto].
  - intros (f & l & Hf). destruct f; try discriminate Hf;
      pose proof (sp_documented _ _ _ _ _ _ Hf) as Hg; first [exact Hg|discriminate Hg].
  - eapply class_keyed; eassumption.
Qed.

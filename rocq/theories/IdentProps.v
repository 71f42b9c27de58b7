(** * Lemmas: which of several equal objects a SortedSet or SortedDict holds *)
From Coq Require Import Permutation Lia.
From Verif Require Import PyBase Model Spec History BaseFacts SpecFacts SliceFacts Reach ListProps ListClass ClassSpec ClassFacts
  ModelSet SetSpec HashFacts SetFacts SetProps ModelDict DictSpec MapFacts DictFacts IdentSpec Concrete ConcreteSet.
Local Unset Implicit Arguments.

Section Sets.
  Context {S V K : Type}.
  Variable T : listcls S V K.
  Variables ltb eqb : V -> V -> bool.
  Variable fref : fwd V K -> list V -> out V * list V.
  Variable dflt : nat.
  Variable R : S -> list V -> Prop.
  Variable ld : S -> nat.
  Hypothesis HK : ClsOK T ltb eqb fref dflt R ld.
  Variable ord : nat -> list V -> list V.
  Hypothesis HO : any_order ord.
  Notation mem := (member eqb).
  Notation SS := (sset S V).
  Notation SInv := (SInv eqb R).
  Let HE : Equiv eqb := k_equiv _ _ _ _ _ _ _ HK.

  Lemma first_cons x v l : first_of eqb x l -> eqb v x = false -> first_of eqb x (v :: l).
  Proof.
    intros (a & b & -> & H) E. exists (v :: a), b. split; [reflexivity|]. intros (y & [Hy|Hy] & Ey); [subst; congruence|].
    apply H. exists y. auto.
  Qed.
  Lemma union_first l : forall s x, In x (set_union eqb s l) -> In x s \/ (first_of eqb x l /\ ~ mem x s).
  Proof.
    induction l as [|v l IH]; intros s x Hx; [left; exact Hx|].
    change (set_union eqb s (v :: l)) with (set_union eqb (set_add eqb v s) l) in Hx.
    apply IH in Hx. unfold set_add in Hx. destruct (set_mem eqb v s) eqn:E.
    - destruct Hx as [Hx|[Hx Hn]]; [auto|]. right. split; [|exact Hn].
      apply first_cons; [exact Hx|]. destruct (eqb v x) eqn:Ev; [|reflexivity]. exfalso. apply Hn.
      apply (set_mem_iff eqb) in E. apply (mem_eqb eqb HE _ _ s Ev), E.
    - apply (set_mem_false eqb) in E. destruct Hx as [Hx|[Hx Hn]].
      + apply in_app_iff in Hx as [Hx|[Hx|[]]]; [auto|]. subst. right. split; [|exact E].
        exists [], l. split; [reflexivity|]. intros (y & [] & _).
      + right. rewrite mem_app in Hn. split; [|tauto]. apply first_cons; [exact Hx|].
        destruct (eqb v x) eqn:Ev; [|reflexivity]. exfalso. apply Hn. right. exists v. cbn. auto.
  Qed.
  Lemma set_of_first l x : In x (set_of eqb l) -> first_of eqb x l.
  Proof. intros H. apply union_first in H as [[]|[H _]]. exact H. Qed.

  Lemma update_set its s l : SInv s l -> exists s', ss_update T eqb ord its s = (Ok tt, s') /\
    forall x, In x (s_set s') -> In x (s_set s) \/ (first_of eqb x (listed its) /\ ~ mem x (s_set s)).
  Proof.
    intros HI. unfold ss_update. unfold bind at 1. cbn [members bind get ret].
    fold (listed its). set (vals := set_of eqb (listed its)).
    unfold bind at 1, get, ret. destruct (_ <? _).
    - destruct (rebuild_ok T ltb eqb fref dflt R ld HK ord HO s l (set_union eqb (s_set s) vals) HI) as (s' & l' & E & Hs & HI' & Hl).
      { apply set_union_spec; [exact HE|apply HI]. }
      exists s'. split; [exact E|]. intros x Hx. rewrite Hs in Hx. apply union_first in Hx as [Hx|[Hx Hn]]; [auto|].
      right. split; [|exact Hn]. apply set_of_first. destruct Hx as (a & b & E' & _). fold vals. rewrite E'. apply in_elt.
    - unfold bind at 1. rewrite visit_ok.
      destruct (add_all T ltb eqb fref dflt R ld HK (ord (s_tick s) vals) _ l (sinv_tick eqb R s l (s_tick s + 1) HI)) as (s' & l' & E & Hs & HI' & Hl).
      exists s'. split; [exact E|]. intros x Hx. rewrite Hs in Hx. apply union_first in Hx as [Hx|[Hx Hn]]; [auto|].
      right. split; [|exact Hn]. apply set_of_first. destruct Hx as (a & b & E' & _).
      assert (Hi : In x (ord (s_tick s) vals)) by (rewrite E'; apply in_elt).
      eapply Permutation_in; [apply HO|exact Hi].
  Qed.

  Lemma first_app x l m : first_of eqb x (l ++ m) -> In x l \/ (first_of eqb x m /\ ~ mem x l).
  Proof.
    induction l as [|v l IH]; cbn [app].
    - intros H. right. split; [exact H|]. intros (y & [] & _).
    - intros (a & b & E & Hn). destruct a as [|w a]; cbn [app] in E; injection E as -> E; [left; left; reflexivity|].
      assert (Hv : eqb w x = false).
      { destruct (eqb w x) eqn:Ev; [|reflexivity]. exfalso. apply Hn. exists w. cbn. auto. }
      destruct IH as [H|[H H']]; [exists a, b; split; [exact E|]|left; right; exact H|right].
      + intros (y & Hy & Ey). apply Hn. exists y. cbn. auto.
      + split; [exact H|]. intros (y & [Hy|Hy] & Ey); [congruence|]. apply H'. exists y. auto.
  Qed.
  Lemma union_set its s l : SInv s l -> exists n, ss_union T eqb ord its s = (Ok n, s) /\
    forall x, In x (s_set n) -> In x l \/ (first_of eqb x (listed its) /\ ~ mem x l).
  Proof.
    intros HI. unfold ss_union. unfold bind at 1. fold (ss_iter T). rewrite (ss_iter_ok T ltb eqb fref dflt R ld HK s l HI).
    unfold fresh, bind, get, liftr. fold (listed its).
    unfold ss_new. destruct (ss_fromset_ok T ltb eqb fref dflt R ld HK ord HO (s_tick s) [] I) as (s0 & l0 & E & Hs & HI0 & Hl).
    rewrite E. cbn [rbind].
    destruct (update_set [AIter (l ++ listed its)] s0 l0 HI0) as (n & En & Hn). rewrite En.
    exists n. split; [reflexivity|]. intros x Hx. apply Hn in Hx as [Hx|[Hx _]]; [rewrite Hs in Hx; destruct Hx|].
    unfold listed in Hx at 1. cbn [map items concat] in Hx. rewrite app_nil_r in Hx. apply first_app, Hx.
  Qed.

  Lemma sym_set s m x : distinct eqb s -> In x (set_sym eqb s m) \/ In x (set_sym_new eqb s m) ->
    In x s \/ (first_of eqb x m /\ ~ mem x s).
  Proof.
    intros HD Hx. destruct (set_of_spec eqb HE m) as (Hd & Hm & _).
    assert (H : In x s \/ In x (set_of eqb m)).
    { destruct Hx as [Hx|Hx]; [apply (fold_toggle eqb HE _ Hd _ HD) in Hx|apply (fold_toggle eqb HE _ HD _ Hd) in Hx]; tauto. }
    destruct H as [H|H]; [auto|]. right. split; [apply set_of_first, H|].
    assert (Hi : mem x m) by (apply Hm, mem_In; [exact HE|exact H]).
    assert (Hr : (mem x s /\ ~ mem x m) \/ (~ mem x s /\ mem x m)).
    { destruct Hx as [Hx|Hx]; [apply (set_sym_spec eqb HE _ _ HD)|apply (set_sym_new_spec eqb HE _ _ HD)]; apply mem_In; assumption. }
    tauto.
  Qed.

  Lemma deleted_in sl (l l' : list V) x : slice_deleted sl l l' -> In x l' -> In x l.
  Proof.
    intros (sel & _ & ->) H. apply in_map_iff in H as ((i & y) & <- & H). apply filter_In in H as [H _].
    apply in_combine_r in H. exact H.
  Qed.

  Lemma step_objects o s l : SInv s l -> sop_ok o -> intersects o = false -> exists l',
    ss_shows T (snd (ss_step T eqb ord o s)) l' /\ SInv (snd (ss_step T eqb ord o s)) l' /\
    forall x, In x l' -> In x l \/ (~ mem x l /\ set_brings eqb o x).
  Proof.
    intros HI Ho Hn. destruct (ss_step_ok T ltb eqb fref dflt R ld HK ord HO o s l HI Ho) as (r & s' & l' & E & Heff & HI' & _).
    exists l'. rewrite E. cbn [snd]. split; [eapply ss_inv_shows; eauto|]. split; [exact HI'|].
    pose proof HI as (_ & HD & _).
    destruct o; cbn [set_effect set_brings intersects] in *; try discriminate; intros x Hx.
    - destruct Heff as (_ & [(_ & ->)|(Hv & a & b & -> & ->)]); [auto|]. apply in_app_iff in Hx. cbn in Hx. rewrite in_app_iff.
      destruct Hx as [Hx|[Hx|Hx]]; [auto| |auto]. subst. right. auto.
    - destruct Heff as (_ & [(_ & ->)|(a & y & b & -> & _ & ->)]); [auto|]. left. rewrite in_app_iff in *. cbn. tauto.
    - destruct Heff as [(_ & _ & ->)|(a & y & b & -> & _ & _ & ->)]; [auto|]. left. rewrite in_app_iff in *. cbn. tauto.
    - destruct Heff as [(_ & _ & ->)|(a & y & b & (-> & _) & _ & ->)]; [auto|]. left. rewrite in_app_iff in *. cbn. tauto.
    - destruct Heff as (_ & ->). destruct Hx.
    - destruct Heff as (-> & _). auto.
    - destruct Heff as (-> & _). auto.
    - destruct Heff as (-> & _). auto.
    - destruct Heff as (-> & _). auto.
    - destruct Heff as (-> & _). auto.
    - destruct Heff as (-> & _). auto.
    - destruct Heff as (-> & _). auto.
    - destruct Heff as [(_ & _ & ->)|(a & y & b & (-> & _) & _ & ->)]; [auto|]. left. rewrite in_app_iff in *. cbn. tauto.
    - destruct Heff as [(_ & _ & ->)|(_ & _ & Hd)]; [auto|]. left. eapply deleted_in; eauto.
    - destruct (update_set its s l HI) as (s2 & E2 & H2). cbn [ss_step] in E. unfold observe in E. rewrite E2 in E. injection E as <- <-.
      apply (sinv_In eqb R _ _ x HI') in Hx. apply H2 in Hx. rewrite (sinv_In eqb R _ _ x HI), (sinv_mem eqb R _ _ x HI) in Hx. tauto.
    - destruct Heff as (_ & H). apply H in Hx. tauto.
    - cbn [ss_step] in E. unfold observe, ss_symmetric_difference_update, members, bind, get, ret in E.
      destruct (rebuild_ok T ltb eqb fref dflt R ld HK ord HO s l (set_sym eqb (s_set s) (items it)) HI) as (s2 & l2 & E2 & Hs2 & _).
      { apply set_sym_spec; auto. }
      unfold bind in E2. rewrite E2 in E. injection E as <- <-.
      apply (sinv_In eqb R _ _ x HI') in Hx. rewrite Hs2 in Hx.
      destruct (sym_set (s_set s) (items it) x HD (or_introl Hx)) as [H|[H H']];
        [left; apply (sinv_In eqb R _ _ x HI), H|right; rewrite (sinv_mem eqb R _ _ x HI) in H'; auto].
    - destruct (union_set its s l HI) as (n & E2 & H2). cbn [ss_step] in E. unfold rebind in E. rewrite E2 in E. injection E as <- <-.
      apply (sinv_In eqb R _ _ x HI') in Hx. apply H2 in Hx. tauto.
    - destruct Heff as (_ & H). apply H in Hx. tauto.
    - cbn [ss_step] in E. unfold rebind, ss_symmetric_difference, fresh, members, bind, get, ret, liftr in E.
      destruct (ss_fromset_ok T ltb eqb fref dflt R ld HK ord HO (s_tick s) (set_sym_new eqb (s_set s) (items it))) as (n & l2 & E2 & Hs2 & _).
      { apply set_sym_new_spec; auto. }
      rewrite E2 in E. injection E as <- <-.
      apply (sinv_In eqb R _ _ x HI') in Hx. rewrite Hs2 in Hx.
      destruct (sym_set (s_set s) (items it) x HD (or_intror Hx)) as [H|[H H']];
        [left; apply (sinv_In eqb R _ _ x HI), H|right; rewrite (sinv_mem eqb R _ _ x HI) in H'; auto].
    - destruct Heff as (_ & H). left. eapply Permutation_in; eauto.
    - destruct Heff as (_ & H). left. eapply Permutation_in; eauto.
    - destruct Heff as (-> & _). auto.
    - destruct Heff as (-> & _). auto.
    - destruct Heff as (-> & _). auto.
    - destruct Heff as (-> & _). auto.
    - destruct Heff as (-> & _). auto.
  Qed.

  Lemma inter_objects s l a x : SInv s l -> In x (set_inter eqb (s_set s) a) -> intersection_of l a x.
  Proof.
    intros HI. pose proof HI as (_ & _ & HP). destruct a as [m|m]; cbn [set_inter intersection_of].
    - intros H. apply keep_spec in H; [exact H|exact HE].
    - rewrite (Permutation_length HP). destruct (length l <? length m); intros H; apply keep_spec in H; try exact HE; [|exact H].
      apply (sinv_In eqb R _ _ x HI), H.
  Qed.
  Lemma step_inter o a s l : SInv s l -> o = SIntersectionUpdate [a] \/ o = SIntersection [a] -> exists l',
    ss_shows T (snd (ss_step T eqb ord o s)) l' /\ forall x, In x l' -> intersection_of l a x.
  Proof.
    intros HI Ho. pose proof HI as (_ & HD & _).
    assert (Hd : distinct eqb (fold_left (set_inter eqb) [a] (s_set s))) by (apply fold_inter; auto).
    destruct Ho as [Ho|Ho]; subst; cbn [ss_step].
    - unfold observe, ss_intersection_update, members, bind, get, ret.
      destruct (rebuild_ok T ltb eqb fref dflt R ld HK ord HO s l _ HI Hd) as (s2 & l2 & E2 & Hs2 & HI2 & _).
      unfold bind in E2. rewrite E2. exists l2. cbn [snd]. split; [eapply ss_inv_shows; eauto|]. intros x Hx.
      apply (sinv_In eqb R _ _ x HI2) in Hx. rewrite Hs2 in Hx. eapply inter_objects; eauto.
    - unfold rebind, ss_intersection, fresh, members, bind, get, ret, liftr.
      destruct (ss_fromset_ok T ltb eqb fref dflt R ld HK ord HO (s_tick s) _ Hd) as (n & l2 & E2 & Hs2 & HI2 & _).
      rewrite E2. exists l2. cbn [snd]. split; [eapply ss_inv_shows; eauto|]. intros x Hx.
      apply (sinv_In eqb R _ _ x HI2) in Hx. rewrite Hs2 in Hx. eapply inter_objects; eauto.
  Qed.
End Sets.

Lemma distinct_same V (eqb : V -> V -> bool) (HE : Equiv eqb) l x y : distinct eqb l -> In x l -> In y l -> eqb x y = true -> x = y.
Proof.
  induction l as [|v l IH]; [intros _ []|]. intros [Hv Hd] [Hx|Hx] [Hy|Hy] E; subst.
  - reflexivity.
  - rewrite (Hv _ Hy) in E. discriminate.
  - rewrite (eqb_sym eqb HE), (Hv _ Hx) in E. discriminate.
  - auto.
Qed.

Lemma c104_set : forall S V K (T : listcls S V K) ltb eqb fref dflt ord s l o r s',
  list_class T ltb eqb fref dflt -> any_order ord -> ss_reach T eqb ord s -> ss_shows T s l -> sop_ok o -> intersects o = false ->
  ss_step T eqb ord o s = (r, s') ->
  exists l', ss_shows T s' l' /\
    (forall x, In x l' -> In x l \/ (~ member eqb x l /\ set_brings eqb o x)) /\
    (forall x y, In x l -> In y l' -> eqb x y = true -> y = x).
Proof.
  intros S V K T ltb eqb fref dflt ord s l o r s' HC HO HR HS Ho Hn E. cls HC HK. pose proof (k_equiv _ _ _ _ _ _ _ HK) as HE.
  pose proof (ss_shows_ok T ltb eqb fref dflt R ld HK ord HO s l HR HS) as HI.
  destruct (step_objects T ltb eqb fref dflt R ld HK ord HO o s l HI Ho Hn) as (l' & HS' & HI' & H). rewrite E in *. cbn [snd] in *.
  exists l'. split; [exact HS'|]. split; [exact H|]. intros x y Hx Hy Exy.
  destruct (H y Hy) as [Hy'|[Hy' _]].
  - symmetry. eapply (distinct_same _ eqb HE l); eauto. eapply sinv_distinct; eauto.
  - destruct Hy'. exists x. auto.
Qed.

Lemma c104_intersection : forall S V K (T : listcls S V K) ltb eqb fref dflt ord s l a o r s',
  list_class T ltb eqb fref dflt -> any_order ord -> ss_reach T eqb ord s -> ss_shows T s l ->
  o = SIntersectionUpdate [a] \/ o = SIntersection [a] -> ss_step T eqb ord o s = (r, s') ->
  exists l', ss_shows T s' l' /\ forall x, In x l' -> intersection_of l a x.
Proof.
  intros S V K T ltb eqb fref dflt ord s l a o r s' HC HO HR HS Ho E. cls HC HK.
  pose proof (ss_shows_ok T ltb eqb fref dflt R ld HK ord HO s l HR HS) as HI.
  destruct (step_inter T ltb eqb fref dflt R ld HK ord HO o a s l HI Ho) as (l' & H). rewrite E in H. eauto.
Qed.

Lemma c104_set_together : forall S V K (T : listcls S V K) ltb eqb fref dflt ord s l,
  list_class T ltb eqb fref dflt -> any_order ord -> ss_reach T eqb ord s -> ss_shows T s l -> Permutation (s_set s) l.
Proof.
  intros S V K T ltb eqb fref dflt ord s l HC HO HR HS. cls HC HK.
  apply (ss_shows_ok T ltb eqb fref dflt R ld HK ord HO s l HR HS).
Qed.

(** ** Keys of a SortedDict *)
Section Keys.
  Context {A B : Type}.
  Variables ltb eqb : A -> A -> bool.
  Hypothesis HE : Equiv eqb.
  Hypothesis HW : SWO ltb.
  Notation mem := (member eqb).

  Lemma lookup_key k (d : list (A * B)) : lookup eqb k d = None -> ~ mem k (map fst d).
  Proof.
    unfold lookup. destruct (find (same eqb k) d) eqn:E; [discriminate|]. intros _ (x & Hx & Ex).
    apply in_map_iff in Hx as (p & <- & Hp). pose proof (find_none _ _ E p Hp) as H. unfold same in H. congruence.
  Qed.
  Lemma store_key k v (d : list (A * B)) x : In x (map fst (store eqb k v d)) -> In x (map fst d) \/ (x = k /\ ~ mem k (map fst d)).
  Proof.
    unfold store. destruct (lookup eqb k d) eqn:E.
    - rewrite map_map. cbn. auto.
    - rewrite map_app, in_app_iff. cbn. intros [H|[H|[]]]; [auto|]. right. split; [auto|apply lookup_key, E].
  Qed.
  Lemma store_member k v (d : list (A * B)) x : mem x (map fst d) -> mem x (map fst (store eqb k v d)).
  Proof.
    unfold store. destruct (lookup eqb k d).
    - rewrite map_map. cbn. auto.
    - rewrite map_app. intros (y & Hy & Ey). exists y. split; [apply in_or_app; auto|exact Ey].
  Qed.
  Lemma stored k v (d : list (A * B)) : mem k (map fst (store eqb k v d)).
  Proof.
    unfold store. destruct (lookup eqb k d) eqn:E.
    - rewrite map_map. cbn. unfold lookup in E. destruct (find (same eqb k) d) as [p|] eqn:Ef; [|discriminate].
      apply find_some in Ef as [Hp Ep]. exists (fst p). split; [apply in_map_iff; eauto|exact Ep].
    - exists k. split; [|apply eqv_refl, HE]. rewrite map_app. apply in_or_app. cbn. auto.
  Qed.
  Lemma merge_key ps : forall (d : list (A * B)) x, In x (map fst (merge eqb d ps)) ->
    In x (map fst d) \/ (~ mem x (map fst d) /\ first_of eqb x (map fst ps)).
  Proof.
    induction ps as [|(k & v) ps IH]; intros d x Hx; cbn [merge] in Hx; [auto|].
    apply IH in Hx as [Hx|[Hn Hx]].
    - apply store_key in Hx as [Hx|[-> Hn]]; [auto|]. right. split; [exact Hn|]. exists [], (map fst ps). split; [reflexivity|].
      intros (y & [] & _).
    - right. split.
      + intros H. apply Hn, store_member, H.
      + cbn [map fst]. apply first_cons; [exact Hx|]. destruct (eqb k x) eqn:E; [|reflexivity]. exfalso. apply Hn.
        apply (mem_eqb eqb HE _ _ _ E), stored.
  Qed.
  Lemma listing_key (d : list (A * B)) x : In x (map fst (listing ltb d)) <-> In x (map fst d).
  Proof.
    assert (HP : Permutation (listing ltb d) d) by (apply listing_perm, HW).
    split; apply Permutation_in, Permutation_map; [exact HP|symmetry; exact HP].
  Qed.
  Lemma listing_member (d : list (A * B)) x : mem x (map fst (listing ltb d)) <-> mem x (map fst d).
  Proof. split; intros (y & Hy & Ey); exists y; rewrite listing_key in *; auto. Qed.
  Lemma filter_key f (d : list (A * B)) x : In x (map fst (filter f d)) -> In x (map fst d).
  Proof. intros H. apply in_map_iff in H as (p & <- & H). apply filter_In in H as [H _]. apply in_map, H. Qed.

  Lemma ref_objects K (veqb : B -> B -> bool) (fref : fwd A K -> list A -> out A * list A) o d x : starts_from_other o = false ->
    In x (map fst (snd (ref_step ltb eqb veqb fref o d))) ->
    In x (map fst d) \/ (~ mem x (map fst d) /\ dict_brings eqb o x).
  Proof.
    intros Hs. destruct o; cbn [ref_step snd dict_brings starts_from_other] in *; try discriminate; auto.
    - intros H. apply store_key in H as [H|[-> H]]; auto.
    - destruct (lookup eqb k d); cbn; intros H; [left; eapply filter_key; exact H|auto].
    - destruct (lookup eqb k d), default; cbn; intros H; auto; left; eapply filter_key; exact H.
    - destruct d; [auto|]. destruct (getz _ i); cbn [snd]; intros H; [left; eapply filter_key; exact H|auto].
    - destruct (lookup eqb k d); cbn [snd]; intros H; [auto|]. apply store_key in H as [H|[-> H]]; auto.
    - intros H. apply merge_key in H. tauto.
    - intros H. apply merge_key in H. tauto.
    - intros H. apply merge_key in H. rewrite listing_key, listing_member in H. tauto.
    - rewrite listing_key. auto.
    - destruct insertion; [auto|]. rewrite listing_key. auto.
    - destruct (getz _ i); cbn [snd]; intros H; [left; eapply filter_key; exact H|auto].
    - destruct (sp_slice _ _); cbn [snd]; intros H; [left; eapply filter_key; exact H|auto].
  Qed.
End Keys.

Lemma c104_dict : forall S A B K (T : listcls S A K) ltb eqb (veqb : B -> B -> bool) fref dflt s l o r s',
  list_class T ltb eqb fref dflt -> sd_reach T eqb veqb s -> sd_shows T eqb s l -> dop_ok eqb o -> starts_from_other o = false ->
  sd_step T eqb veqb o s = (r, s') ->
  exists l', sd_shows T eqb s' l' /\
    (forall k, In k (map fst l') -> In k (map fst l) \/ (~ member eqb k (map fst l) /\ dict_brings eqb o k)) /\
    (forall k k', In k (map fst l) -> In k' (map fst l') -> eqb k k' = true -> k' = k).
Proof.
  intros S A B K T ltb eqb veqb fref dflt s l o r s' HC HR HS Ho Hn E. cls HC HK.
  pose proof (k_equiv _ _ _ _ _ _ _ HK) as HE. pose proof (k_swo _ _ _ _ _ _ _ HK) as HW.
  pose proof (sd_reach_ok T ltb eqb veqb fref dflt R ld HK s HR) as HI.
  pose proof (sd_shows_ok T ltb eqb fref dflt R ld HK s HI) as HS0. pose proof (shows_unique T eqb s _ _ HS HS0) as ->.
  destruct (sd_step_ok T ltb eqb veqb fref dflt R ld HK o s HI Ho) as (s2 & E2 & Hit & HI' & _).
  rewrite E in E2. injection E2 as _ <-. exists (listing ltb (d_items s')).
  assert (H : forall k, In k (map fst (listing ltb (d_items s'))) ->
    In k (map fst (listing ltb (d_items s))) \/ (~ member eqb k (map fst (listing ltb (d_items s))) /\ dict_brings eqb o k)).
  { intros k Hk. rewrite listing_key in Hk by exact HW. rewrite listing_key, listing_member by exact HW. rewrite Hit in Hk.
    eapply ref_objects; eauto. }
  split; [apply (sd_shows_ok T ltb eqb fref dflt R ld HK s' HI')|]. split; [exact H|].
  intros k k' Hk Hk' Ek. destruct (H k' Hk') as [Hy|[Hy _]].
  - rewrite listing_key in Hk, Hy by exact HW. destruct HI as [_ HD]. symmetry. eapply (distinct_same _ eqb HE); eauto.
  - destruct Hy. exists k. auto.
Qed.

Lemma c104_dict_together : forall S A B K (T : listcls S A K) ltb eqb (veqb : B -> B -> bool) fref dflt s l,
  list_class T ltb eqb fref dflt -> sd_reach T eqb veqb s -> sd_iter T s = (Ok l, s) -> Permutation (map fst (d_items s)) l.
Proof.
  intros S A B K T ltb eqb veqb fref dflt s l HC HR HS. cls HC HK. pose proof (k_swo _ _ _ _ _ _ _ HK) as HW.
  pose proof (sd_reach_ok T ltb eqb veqb fref dflt R ld HK s HR) as [HL _].
  unfold sd_iter, onkeys, zoom in HS. rewrite (k_iter _ _ _ _ _ _ _ HK _ _ HL) in HS. injection HS as <- _.
  apply Permutation_map. symmetry. apply listing_perm, HW.
Qed.

(** ** Pairs that are equal when their first components are *)
Definition pset (l : list pv) : sset (core pv pv) pv := snd (ss_run pT peqb flip [SUpdate [AIter l]] ss_start).
Lemma pset_reach l : ss_reach pT peqb flip (pset l).
Proof. exists 0, None, ss_start, [SUpdate [AIter l]]. split; [vm_compute; reflexivity|]. split; [repeat constructor|reflexivity]. Qed.
Definition pdict (l : list (pv * nat)) : sdict (core pv pv) pv nat := snd (sd_run pT peqb Nat.eqb [DUpdate (APairs l)] (mksd [] (sl_init 2))).
Lemma pdict_reach l : sd_reach pT peqb Nat.eqb (pdict l).
Proof. exists (APairs []), (mksd [] (sl_init 2)), [DUpdate (APairs l)]. split; [vm_compute; reflexivity|]. split; [repeat constructor|reflexivity]. Qed.

Lemma c105_in_place : ~ forall S V K (T : listcls S V K) ltb eqb fref dflt ord s l o r s' l',
  list_class T ltb eqb fref dflt -> any_order ord -> ss_reach T eqb ord s -> ss_shows T s l -> sop_ok o -> in_place_op o = true ->
  ss_step T eqb ord o s = (r, s') -> ss_shows T s' l' ->
  forall x y, In x l -> In y l' -> eqb x y = true -> y = x.
Proof.
  intros H.
  specialize (H _ _ _ pT _ _ _ _ flip (pset [(1, 0)]) [(1, 0)] (SIntersectionUpdate [AIter [(1, 7)]]) RUnit
    (snd (ss_step pT peqb flip (SIntersectionUpdate [AIter [(1, 7)]]) (pset [(1, 0)]))) [(1, 7)]
    pT_class flip_order (pset_reach _) eq_refl I eq_refl eq_refl eq_refl (1, 0) (1, 7)).
  cbn in H. specialize (H (or_introl eq_refl) (or_introl eq_refl) eq_refl). discriminate.
Qed.

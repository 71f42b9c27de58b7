(** * Proofs: [SortedDict.__init__] called again (C86) *)
From Coq Require Import Permutation.
From Verif Require Import PyBase Model Spec History BaseFacts SpecFacts Reach Concrete ConcreteSet ConcreteDict ListClass ClassSpec ClassFacts ModelSet SetSpec SetProps
  ModelDict DictSpec HashFacts MapFacts DictFacts DictProps ModelReinit.
Local Unset Implicit Arguments.

Section Again.
  Context {S A B K : Type}.
  Variable T : listcls S A K.
  Variables ltb eqb : A -> A -> bool.
  Variable fref : fwd A K -> list A -> out A * list A.
  Variable dflt : nat.
  Variable R : S -> list A -> Prop.
  Variable ld : S -> nat.
  Hypothesis HK : ClsOK T ltb eqb fref dflt R ld.
  Notation SD := (sdict S A B).
  Notation map_t := (list (A * B)).
  Notation keys := (map (@fst A B)).
  Notation dk := (distinct_keys (B:=B) eqb).

  (** The list has the keys from the [n]-th on. *)
  Definition half (n : nat) (s : SD) : Prop :=
    R (d_list s) (sp_sort ltb (skipn n (keys (d_items s)))) /\ dk (d_items s) /\ n <= length (d_items s).

  Lemma half_set : forall n k v s, half n s ->
    exists s', sd_setitem T eqb k v s = (Ok tt, s') /\ d_items s' = store eqb k v (d_items s) /\ half n s' /\
      firstn n (keys (d_items s')) = firstn n (keys (d_items s)).
  Proof.
    intros n k v s (HR & HD & L). unfold sd_setitem, items_of, put_items, modify, bind, get, ret. rewrite d_mem_lookup, d_set_store.
    pose proof (store_keys eqb k v (d_items s)) as Ek.
    pose proof (store_dk eqb k v _ HD) as HD'.
    assert (L' : n <= length (keys (d_items s))) by (rewrite map_length; auto).
    assert (LL : n <= length (store eqb k v (d_items s))).
    { rewrite <- (map_length (@fst A B)), Ek. destruct (lookup eqb k (d_items s)); [auto|]. rewrite app_length. lia. }
    destruct (lookup eqb k (d_items s)) eqn:E.
    - eexists. split; [reflexivity|]. split; [reflexivity|]. unfold half. cbn [d_list d_items]. rewrite Ek. auto.
    - unfold onkeys, zoom. destruct (k_add _ _ _ _ _ _ _ HK k _ _ HR) as (x & Ex & HR' & Hl). rewrite Ex.
      eexists. split; [reflexivity|]. split; [reflexivity|]. unfold half. cbn [d_list d_items]. rewrite Ek. split; [split; [|auto]|].
      + rewrite skipn_app. replace (n - length (keys (d_items s))) with 0 by lia. cbn [skipn]. rewrite (sp_sort_snoc ltb). exact HR'.
      + rewrite firstn_app. replace (n - length (keys (d_items s))) with 0 by lia. cbn [firstn]. apply app_nil_r.
  Qed.
  Lemma half_each : forall n ps s, half n s ->
    exists s', forM (fun p => sd_setitem T eqb (fst p) (snd p)) ps s = (Ok tt, s') /\ d_items s' = merge eqb (d_items s) ps /\ half n s' /\
      firstn n (keys (d_items s')) = firstn n (keys (d_items s)).
  Proof.
    intros n ps. induction ps as [|[k v] ps IH]; intros s HH.
    - exists s. auto.
    - destruct (half_set n k v s HH) as (s1 & E1 & D1 & H1 & F1). destruct (IH s1 H1) as (s2 & E2 & D2 & H2 & F2).
      exists s2. cbn [forM fst snd merge]. unfold bind. rewrite E1. split; [exact E2|]. split; [congruence|]. split; [auto|congruence].
  Qed.

  Lemma reinit_enough : forall a (s : SD), dk (d_items s) ->
    length (d_items s) = 0 \/ length (d_items s) < 10 * length (merge eqb [] (pairs_of a)) ->
    exists s', sd_reinit T eqb a s = (Ok tt, s') /\ d_items s' = merge eqb (d_items s) (pairs_of a) /\ DInv ltb eqb R s'.
  Proof.
    intros a s HD HL. pose proof (k_equiv _ _ _ _ _ _ _ HK) as HE.
    unfold sd_reinit. unfold bind at 1. unfold liftr. destruct (k_new _ _ _ _ _ _ _ HK []) as (x & Ex & HR & _). rewrite Ex.
    change (sp_sort ltb []) with (@nil A) in HR. unfold bind at 1. unfold modify. unfold sd_update. unfold bind at 1. cbn [items_of bind get ret d_items d_list].
    unfold items_of, bind at 1, get, ret. cbn [d_items].
    destruct (Nat.eqb_spec (length (d_items s)) 0) as [E0|E0].
    - apply length_zero_iff_nil in E0. rewrite E0 in *. rewrite d_update_merge.
      destruct (fill T ltb eqb fref dflt R ld HK (merge eqb [] (pairs_of a)) x (merge_dk eqb _ _ HD) HR) as (s' & E & Hd & HI & _).
      exists s'. split; [exact E|auto].
    - destruct HL as [HL|HL]; [congruence|].
      set (pairs := match a with ADict ps => ps | APairs ps => d_of eqb ps end).
      assert (Em : merge eqb (d_items s) pairs = merge eqb (d_items s) (pairs_of a)).
      { unfold pairs. destruct a; [reflexivity|]. cbn. unfold d_of. rewrite d_update_merge. apply merge_of, HE. }
      assert (LP : length (merge eqb [] (pairs_of a)) <= length pairs).
      { unfold pairs. destruct a; cbn [pairs_of]; [|unfold d_of; rewrite d_update_merge; auto].
        assert (G : forall ps (d : map_t), length (merge eqb d ps) <= length d + length ps).
        { induction ps0 as [|[k v] t IH]; intro d; cbn; [lia|]. etransitivity; [apply IH|].
          rewrite <- (map_length (@fst A B) (store eqb k v d)), store_keys. destruct (lookup eqb k d); [rewrite map_length; lia|].
          rewrite app_length, map_length. cbn. lia. }
        etransitivity; [apply G|]. cbn. lia. }
      destruct (Nat.ltb_spec (length (d_items s)) (10 * length pairs)) as [Hb|Hb]; [|lia].
      unfold bind at 1. unfold put_items, modify. rewrite d_update_merge, Em. unfold bind at 1. unfold onkeys at 1, zoom. cbn [d_list d_items].
      destruct (k_clear _ _ _ _ _ _ _ HK _ _ HR) as (y & Ey & HR' & _). rewrite Ey.
      destruct (fill T ltb eqb fref dflt R ld HK (merge eqb (d_items s) (pairs_of a)) y (merge_dk eqb _ _ HD) HR') as (s' & E & Hd & HI & _).
      exists s'. split; [exact E|auto].
  Qed.

  Lemma reinit_lost : forall ps (s : SD), dk (d_items s) -> dk ps -> d_items s <> [] -> 10 * length ps <= length (d_items s) ->
    exists s' ks, sd_reinit T eqb (ADict ps) s = (Ok tt, s') /\ d_items s' = merge eqb (d_items s) ps /\ dk (d_items s') /\
      sd_iter T s' = (Ok (sp_sort ltb ks), s') /\ keys (d_items s') = keys (d_items s) ++ ks.
  Proof.
    intros ps s HD _ NE HL.
    unfold sd_reinit. unfold bind at 1. unfold liftr. destruct (k_new _ _ _ _ _ _ _ HK []) as (x & Ex & HR & _). rewrite Ex.
    unfold bind at 1. unfold modify. unfold sd_update. unfold bind at 1. unfold items_of, bind at 1, get, ret. cbn [d_items d_list].
    destruct (Nat.eqb_spec (length (d_items s)) 0) as [E0|E0]; [apply length_zero_iff_nil in E0; congruence|].
    destruct (Nat.ltb_spec (length (d_items s)) (10 * length ps)) as [Hb|Hb]; [lia|].
    destruct (half_each (length (d_items s)) ps (mksd (d_items s) x)) as (s' & E & D & (H1 & H2 & H3) & F).
    { split; [|auto]. cbn [d_list d_items]. rewrite skipn_all2 by (rewrite map_length; auto). exact HR. }
    exists s', (skipn (length (d_items s)) (keys (d_items s'))). split; [exact E|]. split; [exact D|]. split; [exact H2|]. split.
    - unfold sd_iter, onkeys, zoom. rewrite (k_iter _ _ _ _ _ _ _ HK _ _ H1). destruct s'; reflexivity.
    - rewrite <- (firstn_skipn (length (d_items s)) (keys (d_items s'))) at 1. f_equal. rewrite F. cbn [d_items].
      rewrite <- (map_length (@fst A B)). apply firstn_all.
  Qed.
End Again.

Lemma c86_enough : forall S A B K (T : listcls S A K) ltb eqb (veqb : B -> B -> bool) fref dflt s l a,
  list_class T ltb eqb fref dflt -> sd_reach T eqb veqb s -> sd_shows T eqb s l ->
  length l = 0 \/ length l < 10 * length (merge eqb [] (pairs_of a)) ->
  exists s' l', sd_reinit T eqb a s = (Ok tt, s') /\ sd_shows T eqb s' l' /\
    sorted ltb (map fst l') /\ distinct eqb (map fst l') /\
    forall k w, maps eqb l' k w <->
      last_says eqb (pairs_of a) k w \/ ((forall p, In p (pairs_of a) -> eqb (fst p) k = false) /\ maps eqb l k w).
Proof.
  intros S A B K T ltb eqb veqb fref dflt s l a HC HR HS HL.
  pose proof (class_swo T ltb eqb fref dflt HC) as HW. pose proof (class_eqv T ltb eqb fref dflt HC) as HE.
  destruct (shown T ltb eqb veqb fref dflt HC s l HR HS) as (-> & HD). rewrite (listing_length ltb HW) in HL.
  cls HC HK. destruct (reinit_enough T ltb eqb fref dflt R ld HK a s HD HL) as (s' & E & Ed & HI).
  exists s', (listing ltb (d_items s')). split; [exact E|]. split; [eapply sd_shows_ok; eauto|].
  split; [apply listing_sorted, HW|]. split; [apply (listing_dk ltb eqb HW HE), HI|].
  intros k w. rewrite Ed. apply (merge_maps ltb eqb HW HE). exact HD.
Qed.

Lemma c86_lost : forall S A B K (T : listcls S A K) ltb eqb (veqb : B -> B -> bool) fref dflt s l ps,
  list_class T ltb eqb fref dflt -> sd_reach T eqb veqb s -> sd_shows T eqb s l -> distinct_keys eqb ps ->
  l <> [] -> 10 * length ps <= length l ->
  exists s' ks, sd_reinit T eqb (ADict ps) s = (Ok tt, s') /\
    sd_iter T s' = (Ok ks, s') /\ sd_len s' = (Ok (length l + length ks), s') /\
    (forall k, member eqb k ks <-> member eqb k (map fst ps) /\ ~ member eqb k (map fst l)) /\
    (forall k w, sd_getitem eqb k s' = (Ok w, s') <->
       maps eqb ps k w \/ (~ member eqb k (map fst ps) /\ maps eqb l k w)).
Proof.
  intros S A B K T ltb eqb veqb fref dflt s l ps HC HR HS HP NE HL.
  pose proof (class_swo T ltb eqb fref dflt HC) as HW. pose proof (class_eqv T ltb eqb fref dflt HC) as HE.
  destruct (shown T ltb eqb veqb fref dflt HC s l HR HS) as (-> & HD). rewrite (listing_length ltb HW) in HL.
  assert (NE' : d_items s <> []) by (intro C; rewrite C in NE; apply NE; reflexivity).
  cls HC HK. destruct (reinit_lost T ltb eqb fref dflt R ld HK ps s HD HP NE' HL) as (s' & ks & E & Ed & HD' & EI & EK).
  exists s', (sp_sort ltb ks). split; [exact E|]. split; [exact EI|].
  assert (PK : Permutation (sp_sort ltb ks) ks) by apply (sp_sort_perm ltb HW).
  assert (MK : forall k, member eqb k (sp_sort ltb ks) <-> member eqb k ks).
  { intro k. unfold member. split; intros (y & Hy & Ey); exists y; split; auto;
      [apply (Permutation_in _ PK)|apply (Permutation_in _ (Permutation_sym PK))]; auto. }
  assert (LK : forall k, lookup eqb k (d_items s') = match lookup eqb k ps with Some v => Some v | None => lookup eqb k (d_items s) end).
  { intro k. rewrite Ed, (lookup_merge eqb HE). rewrite (lookup_perm eqb HE k ps (rev ps)) by (auto; apply Permutation_rev). reflexivity. }
  assert (ML : forall k, member eqb k (map fst (listing ltb (d_items s))) <-> lookup eqb k (d_items s) <> None).
  { intro k. rewrite <- (lookup_listing ltb eqb HW HE k (d_items s) HD). rewrite lookup_mem.
    split; [tauto|]. intro N. destruct (lookup eqb k (listing ltb (d_items s))) eqn:EQ.
    - apply (lookup_In eqb HE) in EQ; [|apply listing_dk; auto]. destruct EQ as (k' & Hin & Ek). exists k'. split; [|auto].
      apply in_map_iff. exists (k', b). auto.
    - exfalso. apply N. apply lookup_mem. exact EQ. }
  assert (MP : forall (d : list (A * B)) k, distinct_keys eqb d -> (member eqb k (map fst d) <-> lookup eqb k d <> None)).
  { intros d k Hd. split.
    - intros Hm C. apply lookup_mem in C. auto.
    - intro N. destruct (lookup eqb k d) eqn:EQ; [|congruence]. apply (lookup_In eqb HE) in EQ; [|auto].
      destruct EQ as (k' & Hin & Ek). exists k'. split; [|auto]. apply in_map_iff. exists (k', b). auto. }
  split; [|split].
  - unfold sd_len, items_of, bind, get, ret. rewrite (listing_length ltb HW), (Permutation_length PK).
    rewrite <- (map_length fst (d_items s')), EK, app_length, map_length. reflexivity.
  - intro k. rewrite MK, ML, (MP ps k HP).
    assert (MS : member eqb k (map fst (d_items s')) <-> lookup eqb k (d_items s') <> None) by (apply MP; auto).
    rewrite EK, LK in MS.
    assert (DJ : member eqb k (map fst (d_items s)) -> ~ member eqb k ks).
    { intros (x & Hx & Ex) (y & Hy & Ey). unfold distinct_keys in HD'. rewrite EK in HD'. apply distinct_app in HD' as (_ & _ & HH).
      specialize (HH x y Hx Hy).
      rewrite (eqb_sym eqb HE), (eqb_r eqb HE _ _ y Ex) in HH. congruence. }
    rewrite (MP (d_items s) k HD) in DJ.
    assert (MA : member eqb k (map fst (d_items s) ++ ks) <-> lookup eqb k (d_items s) <> None \/ member eqb k ks).
    { rewrite <- (MP (d_items s) k HD). unfold member. split.
      - intros (y & Hy & Ey). apply in_app_or in Hy. destruct Hy; [left|right]; exists y; auto.
      - intros [(y & Hy & Ey)|(y & Hy & Ey)]; exists y; split; auto; apply in_or_app; auto. }
    rewrite MA in MS. destruct (lookup eqb k ps), (lookup eqb k (d_items s)); split; intros; try tauto; try congruence.
  - intros k w. unfold sd_getitem, items_of, bind, get, ret, liftr. rewrite d_get_lookup, LK.
    rewrite <- (lookup_In eqb HE k w ps HP). rewrite (MP ps k HP).
    rewrite <- (lookup_In eqb HE k w (listing ltb (d_items s))) by (apply listing_dk; auto).
    rewrite (lookup_listing ltb eqb HW HE k (d_items s) HD).
    destruct (lookup eqb k ps) as [x|], (lookup eqb k (d_items s)) as [y|]; split; intro HH; try (inversion HH; subst; auto; fail).
    all: try (destruct HH as [HH|(HH1 & HH)]; try congruence; exfalso; apply HH1; congruence).
Qed.

Lemma c86_refuted : ~ (forall S A B K (T : listcls S A K) ltb eqb (veqb : B -> B -> bool) fref dflt s l a,
  list_class T ltb eqb fref dflt -> sd_reach T eqb veqb s -> sd_shows T eqb s l ->
  exists s' l', sd_reinit T eqb a s = (Ok tt, s') /\ sd_shows T eqb s' l' /\
    forall k w, maps eqb l' k w <->
      last_says eqb (pairs_of a) k w \/ ((forall p, In p (pairs_of a) -> eqb (fst p) k = false) /\ maps eqb l k w)).
Proof.
  intro C. destruct (C _ _ _ _ pT pltb peqb Nat.eqb _ 2 dd_ex dd_l (ADict []) pT_class dd_ex_reach dd_ex_shows) as (s' & l' & E & HS & HM).
  assert (EQ : sd_shows pT peqb s' []).
  { assert (ES : s' = snd (sd_reinit pT peqb (ADict []) dd_ex)) by (rewrite E; reflexivity).
    rewrite ES. vm_compute. reflexivity. }
  unfold sd_shows in *. rewrite HS in EQ. inversion EQ; subst l'.
  destruct dd_l as [|[k w] t] eqn:ED; [vm_compute in ED; discriminate|].
  destruct (proj2 (HM k w)) as (k' & [] & _). right. split; [intros p []|]. exists k. split; [left; reflexivity|].
  apply (eqv_refl (class_eqv pT pltb peqb (fwd_plain pltb peqb) 2 pT_class)).
Qed.

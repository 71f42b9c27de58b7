(** * Lemmas: a key function and comparisons that read the SortedKeyList *)
From Coq Require Import Lia.
From Verif Require Import PyBase Model Spec History BaseFacts SpecFacts SliceFacts Reach Shape CoreFacts VtFacts KeyFacts KeyLook ListSim ListFacts HistFacts
  ListProps FaultFacts FaultHist KeyProps OrderFacts KeyUseSpec KeyUseProps ModelKReads KReadsSpec KReadsFacts Concrete ConcreteCompare.
Local Unset Implicit Arguments.

Section All.
  Context {V K : Type}.
  Notation SKL := (skl V K).
  Variable a : answers V K.
  Variable u : calls V K.
  Variable dflt : nat.
  Notation key := (a_key a).
  Notation kltb := (a_klt a).
  Notation keqb := (a_keq a).
  Notation vltb := (a_vlt a).
  Notation eqb := (a_eq a).
  Notation ltb := (by_key key kltb).
  Hypothesis HT : TotalOrder kltb keqb.
  Hypothesis HE : EqCompat ltb eqb.
  Hypothesis Hd : 1 <= dflt.
  Notation reach := (skl_reach key kltb keqb vltb eqb dflt).
  Notation do := (skl_do key kltb keqb vltb eqb dflt).
  Notation pklt := (total2 kltb).
  Notation pkeq := (total2 keqb).
  Notation pvlt := (total2 vltb).
  Notation peq := (total2 eqb).
  Notation pkf := (total1 key).
  Notation kf := (c_key u).
  Notation klt := (c_klt u).
  Notation keq := (c_keq u).
  Notation eq := (c_eq u).
  Notation vlt := (c_vlt u).
  Notation step := (kr_step vlt eq klt keq kf dflt).
  Notation R := (R a dflt).
  Notation fill := (fun l v => sp_add ltb v l).

  Definition fine o s : Prop := exists r s1 s2 m, do o s = (r, s1) /\ kshows s1 m /\ step o s = (r, s2) /\ R m s2.

  Lemma do_R o l s : R l s -> kop_ok o -> exists m, R m (snd (do o s)).
  Proof.
    intros [H1 H2] Ho. pose proof (kreach_step key kltb keqb vltb eqb dflt s o H1 Ho) as H.
    exists (contents (kc (snd (do o s)))). split; [exact H|]. apply kshows_iff. reflexivity.
  Qed.
  Lemma fine_same o l s : R l s -> kop_ok o -> step o s = do o s -> fine o s.
  Proof.
    intros H Ho E. destruct (do_R o l s H Ho) as [m Hm]. unfold fine. rewrite E. destruct (do o s) as [r s1]. exists r, s1, s1, m.
    split; [reflexivity|]. split; [apply Hm|]. split; [reflexivity|exact Hm].
  Qed.
  Lemma near_refl l s : R l s -> near a dflt l s s.
  Proof. intros H. split; [exact H|apply alike_refl]. Qed.
  Lemma fine_late {A} (inj : A -> out V) (m m' : M SKL A) o l s : kop_ok o -> kcmp_ok vltb eqb o -> R l s -> late a dflt l s m m' ->
    step o s = observe inj m s -> (forall s', do o s' = observe inj m' s') -> fine o s.
  Proof.
    intros Ho Hc H HL E1 E2. destruct (HL s (near_refl l s H)) as (s' & E & [[N1 N2] _]).
    destruct (kdo_ok key kltb keqb vltb eqb dflt HT HE Hd s l o (proj1 H) (proj2 H) Ho Hc) as (s1 & D1 & _ & S1).
    destruct (kdo_ok key kltb keqb vltb eqb dflt HT HE Hd s' l o N1 N2 Ho Hc) as (s2 & D2 & R2 & S2).
    eexists _, s1, s2, _. split; [exact D1|]. split; [exact S1|]. split; [|split; [exact R2|exact S2]].
    rewrite E1. rewrite E2 in D2. unfold observe in *. rewrite E. exact D2.
  Qed.
  Lemma fine_loose {A} (inj : A -> out V) (m m' : M SKL A) o l s : R l s -> loose a dflt l s m m' ->
    step o s = observe inj m s -> do o s = observe inj m' s -> fine o s.
  Proof.
    intros H HL E1 E2. destruct (HL s s (near_refl l s H) (near_refl l s H)) as (r & s1 & s1' & F1 & F2 & [N1 _] & [N2 _]).
    unfold fine. rewrite E1, E2. unfold observe. rewrite F1, F2. destruct r as [x|e]; eexists _, s1', s1, l;
      (split; [reflexivity|split; [apply N2|split; [reflexivity|exact N1]]]).
  Qed.
  Lemma fine_new (f : SKL -> list V) o l s : kop_ok o -> kreads a dflt u l -> R l s ->
    step o s = rebind (s <- get ;; kr_new klt kf dflt (f s)) s -> do o s = rebind (s <- get ;; liftr (skl_new pklt pkf dflt (f s))) s -> fine o s.
  Proof.
    intros Ho HU H E1 E2. destruct (do_R o l s H Ho) as [m Hm]. unfold fine. rewrite E2 in *. rewrite E1. unfold rebind in *. rewrite bind_get in *.
    destruct (new_gives a u dflt HT HE Hd l s HU (f s) s (near_refl l s H)) as (s1 & E & [N _]). rewrite bind_get, E.
    unfold liftr in *. destruct (skl_new pklt pkf dflt (f s)) as [x|e]; cbn [snd] in *.
    - eexists _, x, x, m. split; [reflexivity|]. split; [apply Hm|]. split; [reflexivity|exact Hm].
    - eexists _, s, s1, l. split; [reflexivity|]. split; [apply H|]. split; [reflexivity|exact N].
  Qed.

  Lemma adds_R vs : forall m s, R m s -> (forall k, kreads a dflt u (fold_left fill (firstn k vs) m)) ->
    exists s', forM (kr_add klt kf) vs s = (Ok tt, s') /\ R (fold_left fill vs m) s'.
  Proof.
    induction vs as [|v vs IH]; intros m s H HL; cbn [forM fold_left]; [exists s; split; [reflexivity|exact H]|].
    destruct (add_late a u dflt HT HE Hd m s (HL 0) v s (near_refl m s H)) as (s1 & E1 & [N1 _]).
    destruct (kdo_ok key kltb keqb vltb eqb dflt HT HE Hd s1 m (KList (LAdd v)) (proj1 N1) (proj2 N1) I I) as (s2 & E2 & R2 & S2).
    unfold skl_do in E2. cbn [skl_step skl_lstep fst snd] in E2. unfold observe in E2.
    unfold bind. rewrite E1. destruct (skl_add pklt pkf v s1) as [[[]|e] s2']; [|discriminate E2]. injection E2 as <-.
    apply IH; [split; [exact R2|exact S2]|]. intros k. exact (HL (S k)).
  Qed.
  Lemma adds_pure vs : forall m s, R m s -> exists s', forM (skl_add pklt pkf) vs s = (Ok tt, s') /\ R (fold_left fill vs m) s'.
  Proof.
    induction vs as [|v vs IH]; intros m s H; cbn [forM fold_left]; [exists s; split; [reflexivity|exact H]|].
    destruct (kdo_ok key kltb keqb vltb eqb dflt HT HE Hd s m (KList (LAdd v)) (proj1 H) (proj2 H) I I) as (s2 & E2 & R2 & S2).
    unfold skl_do in E2. cbn [skl_step skl_lstep fst snd] in E2. unfold observe in E2.
    unfold bind. destruct (skl_add pklt pkf v s) as [[[]|e] s2']; [|discriminate E2]. injection E2 as <-.
    apply IH. split; [exact R2|exact S2].
  Qed.
  Lemma bare_R l s : R l s -> maxes (kc s) = [] -> lists (kc s) = [] /\ keys s = [].
  Proof.
    intros H Hm. destruct (R_shape a dflt HT HE Hd l s H) as (rows & H0 & _). rewrite (sh_maxes _ _ _ H0) in Hm.
    destruct rows; [|discriminate]. rewrite (sh_lists _ _ _ H0), (sh_keys _ _ _ H0). auto.
  Qed.
  (** Filling with nothing asks for nothing. *)
  Lemma update_none s : (maxes (kc s) = [] -> lists (kc s) = [] /\ keys s = []) -> (maxes (kc s) <> [] -> len (kc s) <> 0) ->
    kr_update klt kf [] s = skl_update pklt pkf [] s.
  Proof.
    destruct s as [[ls ms ix off n ld] kss]. cbn [kc maxes lists len keys]. intros H H'.
    destruct ms as [|m ms]; [destruct H as [-> ->]; [reflexivity|]; destruct ld; reflexivity|]. destruct n; [exfalso; apply H'; [discriminate|reflexivity]|]. reflexivity.
  Qed.
  Lemma update_fine it l s : R l s -> refills (K := K) (KList (LUpdate it)) l = false -> (forall m, kseen a (KList (LUpdate it)) l m -> kreads a dflt u m) ->
    exists s1 s2 m, skl_update pklt pkf it s = (Ok tt, s1) /\ kshows s1 m /\ kr_update klt kf it s = (Ok tt, s2) /\ R m s2.
  Proof.
    intros H Hr HU. cbn [refills] in Hr.
    destruct (kdo_ok key kltb keqb vltb eqb dflt HT HE Hd s l (KList (LUpdate it)) (proj1 H) (proj2 H) I I) as (s1 & E1 & R1 & S1).
    unfold skl_do in E1. cbn [skl_step skl_lstep fst snd] in E1. unfold observe in E1.
    destruct (skl_update pklt pkf it s) as [[[]|e] s1'] eqn:Ep; [|discriminate E1]. injection E1 as ->.
    pose proof (R_shape a dflt HT HE Hd l s H) as HS.
    assert (Hlen : len (kc s) = length l).
    { destruct HS as (rows & _ & Hl). rewrite Hl. destruct H as [_ H]. apply kshows_iff in H. rewrite H. reflexivity. }
    destruct it as [|v0 it0].
    - eexists s1, s1, _. split; [reflexivity|]. split; [exact S1|]. split; [|split; [exact R1|exact S1]].
      rewrite <- Ep. apply update_none; [apply (bare_R l s H)|]. intros Hm Hl0. apply Hm. rewrite Hlen in Hl0. destruct l; [|discriminate].
      destruct H as [_ H]. apply kshows_iff in H. destruct (shape_nil_state pkf s HS H) as (ix & off & -> & _). reflexivity.
    - cbn [is_nil negb andb] in Hr. apply Nat.leb_gt in Hr. remember (v0 :: it0) as it eqn:Eit.
      assert (X : forall s', R l s' -> is_nil (maxes (kc s')) = false /\ (len (kc s') <=? length (sp_sort ltb it) * 4) = false).
      { intros s' H'. pose proof (R_shape a dflt HT HE Hd l s' H') as HS'. destruct H' as [_ H']. apply kshows_iff in H'.
        split.
        - destruct (maxes (kc s')) eqn:Em; [|reflexivity]. exfalso. destruct HS' as (rows & H0 & _). rewrite (sh_maxes _ _ _ H0) in Em.
          destruct rows; [|discriminate]. unfold contents in H'. rewrite (sh_lists _ _ _ H0) in H'. cbn in H'. subst l. cbn in Hr. lia.
        - apply Nat.leb_gt. destruct HS' as (rows & _ & ->). rewrite H', sp_sort_length by apply (by_key_swo key kltb (to_swo HT)). lia. }
      assert (HL : forall k, kreads a dflt u (fold_left fill (firstn k (sp_sort ltb it)) l)) by (intros k; apply HU; exists k; reflexivity).
      destruct (sorted_gives a u dflt HT HE Hd l s (HL 0) it s (near_refl l s H)) as (s2 & E2 & [N2 _]).
      rewrite (skl_sorted_key key kltb (to_swo HT)) in E2.
      destruct (adds_R (sp_sort ltb it) l s2 N2 HL) as (s3 & E3 & H3).
      destruct (adds_pure (sp_sort ltb it) l s H) as (s4 & E4 & H4).
      exists s1, s3, (fold_left fill (sp_sort ltb it) l). split; [reflexivity|]. split; [|split; [|exact H3]].
      + unfold skl_update in Ep. rewrite (bind_lift _ _ _ _ (skl_sorted_key key kltb (to_swo HT) it)), bind_get in Ep. destruct (X s H) as [X1 X2].
        rewrite X1, X2, E4 in Ep. injection Ep as ->. apply H4.
      + unfold kr_update. rewrite (bind_ok _ _ _ _ _ E2), bind_get. destruct (X s2 N2) as [-> ->]. exact E3.
  Qed.

  Lemma refill_fine o l s it s0 : R l s -> kop_ok o -> it = [] -> maxes (kc s0) = [] -> lists (kc s0) = [] -> keys s0 = [] ->
    step o s = observe runit (kr_update klt kf it) s0 -> do o s = observe runit (skl_update pklt pkf it) s0 -> fine o s.
  Proof.
    intros H Ho -> Hm Hl Hk E1 E2. apply (fine_same o l s H Ho). rewrite E1, E2. unfold observe. rewrite update_none; [reflexivity|auto|].
    intros Z. congruence.
  Qed.
  Lemma rest_nil l s rest s1 s2 sl : R l s -> Shape pkf s1 -> skl_clear s1 = (Ok tt, s2) -> touches (K := K) (KList (LDelSlice sl)) l = [] ->
    (forall f, delitem_slice (mkvt (@kc V K) set_kc (@skl_clear V K) f (@skl_delete V K)) sl s = f rest s2) -> rest = [].
  Proof.
    intros H I1 Hc Ht G. destruct rest as [|v rest]; [reflexivity|exfalso].
    assert (Q : delitem_slice (skl_vt pklt (fun _ : V => Err AssertionError)) sl s = delitem_slice (skl_vt pklt pkf) sl s).
    { pose proof (R_shape a dflt HT HE Hd l s H) as HS. destruct H as [_ H]. apply kshows_iff in H.
      destruct (delslice_cases key pklt pkf sl s HS) as [[_ F]|(s' & F1 & F2 & F)].
      - apply F.
      - rewrite !F, H, Ht. destruct s' as [[ls ms ix off n ld] kss]. cbn [kc maxes lists] in F1, F2. subst ls ms. destruct ld; reflexivity. }
    unfold skl_vt in Q. rewrite (G (skl_update pklt (fun _ : V => Err AssertionError))), (G (skl_update pklt pkf)) in Q.
    destruct (vo_clear _ _ (skl_vt_ok pklt pkf) s1 I1) as (s3 & C1 & C2 & C3 & _). cbn [vt_clear skl_vt] in C1. rewrite Hc in C1. injection C1 as <-.
    destruct (skl_update_ok key kltb (to_swo HT) (v :: rest) s2 C2) as (s4 & E & _); [|rewrite E in Q; discriminate Q].
    unfold vcont in C3. cbn [vt_get skl_vt] in C3. rewrite C3. constructor.
  Qed.

  Lemma all_fine o l s : R l s -> kop_ok o -> refills o l = false -> (forall m, kseen a o l m -> kreads a dflt u m) -> fine o s.
  Proof.
    intros H Ho Hb HS.
    assert (Q : kreads a dflt u l -> match o with KList (LDelSlice _ | LReset _ | LIMul _ | LUpdate _ | LIAdd _) => True | _ => fine o s end).
    2:{ assert (HC : contents (kc s) = l) by (apply kshows_iff, H). destruct o as [o|k|k|mn mx i1 i2 rv]; [destruct o|..]; try (apply Q; apply HS; reflexivity); clear Q.
      - destruct (update_fine it l s H Hb HS) as (s1 & s2 & m & E1 & E2 & E3 & E4). eexists _, s1, s2, m.
        unfold skl_do. cbn [skl_step skl_lstep kr_step kr_lstep]. unfold observe. rewrite E1, E3. auto.
      - cbn [refills] in Hb. apply negb_false_iff in Hb. destruct (touches _ l) eqn:Et; [|discriminate].
        destruct (o_delslice (@kc V K) set_kc (@skl_clear V K) (@skl_delete V K) (Shape pkf) _ (skl_vt_ok pklt pkf)
            (fun s => ex_intro _ _ Logic.eq_refl) sl s (R_shape a dflt HT HE Hd l s H)) as [[_ G]|(s1 & s2 & rest & I1 & Hs2 & Em & G)].
        + apply (fine_same _ l s H Ho). unfold skl_do. cbn [skl_step skl_lstep kr_step kr_lstep]. unfold kr_vt, skl_vt, observe.
          rewrite (G (kr_update klt kf)). reflexivity.
        + pose proof (rest_nil l s rest s1 s2 sl H I1 Hs2 Et G) as Er. injection Hs2 as <-.
          eapply (refill_fine _ l s rest); [exact H|exact Ho|exact Er| | | | |].
          4:{ cbn [kr_step kr_lstep]. unfold kr_vt, observe. rewrite (G (kr_update klt kf)). reflexivity. }
          4:{ unfold skl_do. cbn [skl_step skl_lstep]. unfold skl_vt, observe. rewrite (G (skl_update pklt pkf)). reflexivity. }
          all: reflexivity.
      - cbn [refills touches] in Hb. apply negb_false_iff in Hb. destruct l; [|discriminate].
        apply (refill_fine _ [] s (contents (kc s)) (mkskl (set_load ld (kc (snd (skl_clear s)))) (keys (snd (skl_clear s))))); [exact H|exact Ho|exact HC|..]; reflexivity.
      - destruct (update_fine it l s H Hb HS) as (s1 & s2 & m & E1 & E2 & E3 & E4). eexists _, s1, s2, m.
        unfold skl_do. cbn [skl_step skl_lstep kr_step kr_lstep]. unfold observe, iadd. cbn [vt_update kr_vt skl_vt]. rewrite E1, E3. auto.
      - cbn [refills touches] in Hb. apply negb_false_iff in Hb.
        apply (refill_fine _ l s (list_mul (contents (kc s)) n) (snd (skl_clear s))); [exact H|exact Ho|..]; try reflexivity.
        rewrite HC. change (list_mul l n) with (sp_mul n l). destruct (sp_mul n l); [reflexivity|discriminate]. }
    intros HU. destruct o as [o|k|k|mn mx i1 i2 rv].
    - destruct o; try exact I; try (apply (fine_same _ l s H Ho); reflexivity).
      + eapply (fine_late runit); [exact Ho|exact I|exact H|exact (add_late a u dflt HT HE Hd l s HU v)|reflexivity|reflexivity].
      + eapply (fine_late runit); [exact Ho|exact I|exact H|apply (find_late a u dflt HT HE Hd l s HU v)|reflexivity|reflexivity].
      + eapply (fine_late runit); [exact Ho|exact I|exact H|apply (find_late a u dflt HT HE Hd l s HU v)|reflexivity|reflexivity].
      + eapply (fine_loose (@RBool V)); [exact H|exact (contains_loose a u dflt HT HE Hd l s HU v)|reflexivity|reflexivity].
      + eapply (fine_loose (@RNat V)); [exact H|exact (rank_loose a u dflt HT HE Hd l s HU true v)|reflexivity|reflexivity].
      + eapply (fine_loose (@RNat V)); [exact H|exact (rank_loose a u dflt HT HE Hd l s HU false v)|reflexivity|reflexivity].
      + eapply (fine_loose (@RNat V)); [exact H|exact (count_loose a u dflt HT HE Hd l s HU v)|reflexivity|reflexivity].
      + eapply (fine_loose (@RNat V)); [exact H|exact (index_loose a u dflt HT HE Hd l s HU v start stop)|reflexivity|reflexivity].
      + eapply (fine_loose (@RList V)); [exact H|exact (irange_loose a u dflt HT HE Hd l s HU mn mx imin imax reverse)|reflexivity|reflexivity].
      + eapply (fine_new (fun s => concat (lists (kc s)))); [exact Ho|exact HU|exact H|reflexivity|reflexivity].
      + eapply (fine_new (fun s => contents (kc s) ++ it)); [exact Ho|exact HU|exact H|reflexivity|reflexivity].
      + eapply (fine_new (fun s => list_mul (contents (kc s)) n)); [exact Ho|exact HU|exact H|reflexivity|reflexivity].
      + eapply (fine_new (fun s => contents (kc s))); [exact Ho|exact HU|exact H|reflexivity|reflexivity].
      + eapply (fine_loose (@RBool V)); [exact H|exact (compare_loose a u dflt HT HE Hd l s HU op other)|reflexivity|reflexivity].
    - eapply (fine_loose (@RNat V)); [exact H|exact (rank_key_loose a u dflt HT HE Hd l s HU true k)|reflexivity|reflexivity].
    - eapply (fine_loose (@RNat V)); [exact H|exact (rank_key_loose a u dflt HT HE Hd l s HU false k)|reflexivity|reflexivity].
    - eapply (fine_loose (@RList V)); [exact H|exact (irange_key_loose a u dflt HT HE Hd l s HU mn mx i1 i2 rv)|reflexivity|reflexivity].
  Qed.
End All.

Lemma c122_keylist : forall (V K : Type) (a : answers V K) (u : calls V K) dflt s l o,
  TotalOrder (a_klt a) (a_keq a) -> EqCompat (by_key (a_key a) (a_klt a)) (a_eq a) -> 1 <= dflt ->
  skl_reach (a_key a) (a_klt a) (a_keq a) (a_vlt a) (a_eq a) dflt s -> kshows s l -> kop_ok o ->
  refills o l = false ->
  (forall m, kseen a o l m -> kreads a dflt u m) ->
  kas_without a dflt (kr_step (c_vlt u) (c_eq u) (c_klt u) (c_keq u) (c_key u) dflt) o s.
Proof.
  intros V K a u dflt s l o HT HE Hd Hs Hl Ho Hb HU.
  destruct (all_fine a u dflt HT HE Hd o l s (conj Hs Hl) Ho Hb HU) as (r & s1 & s2 & m & E1 & E2 & E3 & E4 & E5).
  exists r, s1, s2, m. auto.
Qed.

Lemma half_compat : EqCompat (by_key (fun v => v / 2) Nat.ltb) Nat.eqb.
Proof. intros x y E. apply Nat.eqb_eq in E. subst y. unfold by_key. rewrite Nat.ltb_irrefl. auto. Qed.
Lemma kreads_knosy m : kreads halves 2 (with_calls (@knosy)) m.
Proof.
  assert (Q : forall A (x : A), asks_and halves 2 m (knosy x) x).
  { intros A x s _ _. exists [KList LLen; KList (LGet 3); KBisectLeft 4]. split; [repeat constructor|reflexivity]. }
  unfold kreads, with_calls. cbn. repeat split; intros; apply Q.
Qed.
Lemma kreads_kwary m : kreads halves 2 (with_calls (@kwary)) m.
Proof.
  assert (Q : forall A (x : A), asks_and halves 2 m (kwary x) x).
  { intros A x s Hs _. exists []. split; [constructor|]. unfold kwary.
    destruct (kreach_inv (fun v => v / 2) Nat.ltb Nat.eqb Nat.ltb Nat.eqb 2 nat_total half_compat ltac:(auto) s Hs) as [(rows & _ & Hl) _].
    rewrite Hl. unfold contents. rewrite Nat.eqb_refl. reflexivity. }
  unfold kreads, with_calls. cbn. repeat split; intros; apply Q.
Qed.

Lemma c123_refuted : ~ (forall (V K : Type) (a : answers V K) (u : calls V K) dflt s l o,
  TotalOrder (a_klt a) (a_keq a) -> EqCompat (by_key (a_key a) (a_klt a)) (a_eq a) -> 1 <= dflt ->
  skl_reach (a_key a) (a_klt a) (a_keq a) (a_vlt a) (a_eq a) dflt s -> kshows s l -> kop_ok o ->
  (forall m, kreads a dflt u m) ->
  kas_without a dflt (kr_step (c_vlt u) (c_eq u) (c_klt u) (c_keq u) (c_key u) dflt) o s).
Proof.
  intros H.
  destruct (H nat nat halves (with_calls (@kwary)) 2 (skl_init 2) [] (KList (LUpdate [1])) nat_total half_compat ltac:(auto)
    ltac:(exists []; split; [constructor|reflexivity]) ltac:(apply kshows_iff; reflexivity) I kreads_kwary) as (r & s1 & s2 & m & E1 & _ & E2 & _).
  vm_compute in E1. vm_compute in E2. injection E1 as <- _. discriminate E2.
Qed.

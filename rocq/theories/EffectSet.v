(** * The list inside a SortedSet or SortedDict, under comparisons with effects *)
From Coq Require Import Permutation.
From Verif Require Import PyBase Model Spec History Reach BaseFacts SpecFacts SliceFacts IndexFacts Shape CoreFacts VtFacts
  KeyFacts ListSim ListFacts FaultFacts FaultSpec FaultHist ListClass ClassSpec ClassFacts ModelSet SetSpec WildSpec WildClass
  ModelEffect EffectSpec EffectFacts EffectHist EffectPure ModelEffectSet.
Local Unset Implicit Arguments.

Section PlainEffect.
  Context {W V K : Type}.
  Variable eqb : V -> V -> bool.
  Variable srt : sorting W.
  Hypothesis Hs : permutes srt.
  Variable lt : V -> V -> M W bool.
  Variable dflt : nat.
  Hypothesis Hd : 1 <= dflt.
  Variable w0 : W.
  Definition ER (s : W * core V V) (l : list V) : Prop := FrameL (snd s) /\ contents (snd s) = l.
  Definition lt_may (e : exn) : Prop := (exists x y, may_raise (lt x y) e) \/ e = IndexError.
  Notation eq := (fun x y : V => ret (eqb x y) : M W bool).
  Notation T := (e_plain (K:=K) srt lt eqb dflt w0).

  Lemma raises_lt e : e_raises lt eq e -> exists x y, may_raise (lt x y) e.
  Proof. intros [H|(x & y & w & w' & H)]; [exact H|discriminate]. Qed.
  (** Operations of which nothing but their being queries is needed are taken as raising. *)
  Definition est (o : lop V) (s : W * core V V) : out V * (W * core V V) :=
    match o with
    | LContains _ | LBisectLeft _ | LBisectRight _ | LCount _ | LIndex _ _ _ | LIRange _ _ _ _ _ | LCompare _ _ | LDiscard _ => (RExn IndexError, s)
    | _ => e_step srt lt eq dflt o s
    end.
  Lemma est_ok o s l : ER s l -> lop_ok o -> exists r s' l', est o s = (r, s') /\
    loose (total2 eqb) lt_may o l r l' /\ (update_fine o r -> ER s' l').
  Proof.
    intros [HF <-] Ho. destruct s as [w c]. cbn [snd] in *.
    pose proof (e_step_went srt lt eq dflt Hs Hd o w c HF Ho) as HW. unfold went, l_good in HW. destruct HW as [HE HN].
    assert (HX : lt_may IndexError) by (right; reflexivity).
    assert (HR : forall e, e_raises lt eq e -> lt_may e) by (intros e H; left; apply raises_lt, H).
    assert (HQ : forall doc, quiet lt_may doc (RExn IndexError) (contents c) (contents c)).
    { intros doc. split; [reflexivity|]. intros e [= <-]. left. exact HX. }
    unfold est. destruct o;
      first [ eexists (RExn IndexError), (w, c), (contents c); split; [reflexivity|]; split;
              [cbn [loose]; solve [split; [apply HQ|right; eauto] | right; eauto] | intros _; split; [exact HF|reflexivity]]
            | idtac ];
      match goal with |- exists r s' l', ?e = (r, s') /\ _ => exists (fst e), (snd e), (contents (snd (snd e))) end;
      (split; [apply surjective_pairing|]; split; [|intros H; split; [apply HN, H|reflexivity]]);
      first [ exact (loose_raised _ _ (fun _ _ => Err OutOfFuel) _ _ _ _ HR HE) | idtac ].
    cbn [eff loose] in *. destruct HE as [[H1 (a & x & b & H2 & H3 & H4)]|(e & H1 & H2 & H3)].
    - left. left. split; [exact H1|]. exists a, x, b. split; [exact H2|]. split; [exact H3|].
      destruct H4 as (w1 & w2 & H4). injection H4 as H4 _. unfold total2. rewrite H4. reflexivity.
    - destruct H3 as [H3|[->| ->]].
      + left. right. exists e. auto.
      + left. right. exists IndexError. auto.
      + right. auto.
  Qed.
  Lemma e_plain_wild : WildOK T eqb lt_may ER.
  Proof.
    assert (HF : forall f s l, ER s l -> WildClass.query (K:=K) f -> exists r s', l_fwd T f s = (r, s') /\ ER s' l).
    { intros f [w c] l [HF <-] Hq. cbn [l_fwd e_plain].
      assert (HG : forall o, lop_ok o ->
        (forall r l', eff (fun x y => may_hold (eq x y)) (e_raises lt eq) o (contents c) r l' -> l' = contents c) -> (forall r, update_fine o r) ->
        exists r s', e_step srt lt eq dflt o (w, c) = (r, s') /\ ER s' (contents c)).
      { intros o Ho He Hu. destruct (e_step_went srt lt eq dflt Hs Hd o w c HF Ho) as [H1 H2].
        eexists _, _. split; [apply surjective_pairing|]. split; [apply H2, Hu|]. exact (He _ _ H1). }
      destruct f; try contradiction; cbn [fwd_op];
        first [ eexists _, _; split; [reflexivity|split; [exact HF|reflexivity]]
              | apply HG; [exact I| |intros; exact I]; intros r l' H; cbn [eff loose] in H; first [apply H | unfold exact_ref in H; cbn [sp_step] in H; congruence] ]. }
    assert (HU : forall it w (c : core V V), FrameL c -> contents c = [] ->
      (exists s' l', e_update srt lt it (w, c) = (Ok tt, s') /\ ER s' l' /\ Permutation l' it) \/
      (exists e s', e_update srt lt it (w, c) = (Err e, s') /\ lt_may e /\ ER s' [])).
    { intros it w c HFr Hc. pose proof (l_update_post srt lt eq Hs it w c HFr) as H. unfold post in H.
      destruct (e_update srt lt it (w, c)) as [[[]|e] s'].
      - left. destruct H as (H1 & _ & H2). rewrite Hc in H2. exists s', (contents (snd s')). split; [reflexivity|]. split; [split; auto|exact H2].
      - right. destruct H as (H1 & _ & H2 & _). exists e, s'. split; [reflexivity|]. split; [left; apply raises_lt, H1|].
        split; [rewrite (H2 Hc); exact HFr|rewrite (H2 Hc); exact Hc]. }
    split; try exact HF.
    - intros it. cbn [ListClass.l_new e_plain]. unfold e_new, e_fresh. cbn [fst snd].
      destruct (HU it w0 (core_empty dflt)) as [(s' & l' & E & H1 & H2)|(e & s' & E & H1 & H2)]; [|reflexivity| |].
      + apply (frame_empty 0 dflt Hd).
      + left. rewrite E. eexists _, l'. split; [reflexivity|]. split; [exact H1|exact H2].
      + right. rewrite E. exists e. split; [reflexivity|exact H1].
    - intros v s l. apply (w_add_of T eqb _ _ est est_ok v s l eq_refl).
    - intros s l. apply (w_clear_of T eqb _ _ est est_ok s l eq_refl).
    - intros it [w c] [HFr Hc]. apply (HU it w c HFr Hc).
    - intros v s l. apply (w_remove_of T eqb _ _ est est_ok v s l eq_refl).
    - intros i s l. apply (w_pop_of T eqb _ _ est est_ok i s l eq_refl).
    - intros i s l. apply (w_get_of T eqb _ _ est est_ok i s l eq_refl).
    - intros i s l. apply (w_slice_of T eqb _ _ est est_ok i s l eq_refl).
    - intros i s l. apply (w_del_of T eqb _ _ est est_ok i s l eq_refl).
    - intros i s l. apply (w_del_slice_of T eqb _ _ est est_ok i s l eq_refl).
    - intros [w c] l [_ <-]. reflexivity.
    - intros [w c] l [HFr <-]. cbn [l_reversed e_plain]. unfold own, zoom. rewrite reversed_ok. reflexivity.
    - intros [w c] l [HFr <-]. cbn [l_len e_plain]. unfold own, zoom, length_of, bind, get, ret. cbn [snd].
      pose proof (co_len _ (framel_core _ HFr)) as HL. cbn [snd] in HL. rewrite HL. reflexivity.
    - intros n s l. apply (w_reset_of T eqb _ _ est est_ok n s l eq_refl).
  Qed.
End PlainEffect.

Section KeyedEffect.
  Context {W V K : Type}.
  Variable eqb : V -> V -> bool.
  Variable srt : sorting W.
  Hypothesis Hs : permutes srt.
  Variables klt keq : K -> K -> M W bool.
  Variable kf : V -> res K.
  Variable dflt : nat.
  Hypothesis Hd : 1 <= dflt.
  Variable w0 : W.
  Notation SKL := (skl V K).
  Definition EKR (s : W * SKL) (l : list V) : Prop := Frame (snd s) /\ contents (kc (snd s)) = l.
  Definition key_may (e : exn) : Prop := (exists x y, may_raise (klt x y) e) \/ (exists x y, may_raise (keq x y) e) \/ (exists v, kf v = Err e) \/ e = IndexError.
  Notation eq := (fun x y : V => ret (eqb x y) : M W bool).
  Notation key := (fun v => liftr (kf v) : M W K).
  Notation T := (e_keyed srt klt keq kf eqb dflt w0).
  Notation R := (ek_raises eq eq klt keq key).
  Notation VT := (ek_vt srt klt key).

  Lemma raises_key e : R e -> key_may e.
  Proof.
    unfold key_may. intros [[(x & y & w & w' & H)|(x & y & w & w' & H)]|[[H|H]|(v & w & w' & H)]]; [discriminate|discriminate|auto|auto|].
    right. right. left. exists v. unfold liftr in H. congruence.
  Qed.
  Lemma mapR_pairs (l : list V) : forall ks, mapR kf l = Ok ks -> forall k v, In (k, v) (combine ks l) -> kf v = Ok k.
  Proof.
    induction l as [|x l IH]; intros ks H k v Hi; cbn [mapR] in H; [injection H as <-; destruct Hi|].
    destruct (kf x) as [kx|e] eqn:E; [|discriminate]. cbn [rbind] in H. destruct (mapR kf l) as [ks'|e] eqn:E2; [|discriminate]. injection H as <-.
    destruct Hi as [Hi|Hi]; [congruence|]. exact (IH ks' eq_refl k v Hi).
  Qed.
  Lemma pairs_mapR (ps : list (K * V)) : (forall k v, In (k, v) ps -> kf v = Ok k) -> mapR kf (map snd ps) = Ok (map fst ps).
  Proof.
    induction ps as [|[k v] ps IH]; intros H; [reflexivity|]. cbn [map snd fst mapR]. rewrite (H k v (or_introl eq_refl)). cbn [rbind].
    rewrite IH; [reflexivity|]. intros k' v' H'. apply H. right. exact H'.
  Qed.
  Lemma combine_snd (l : list V) : forall ks, mapR kf l = Ok ks -> map snd (combine ks l) = l.
  Proof.
    induction l as [|x l IH]; intros ks H; [destruct ks; reflexivity|]. cbn [mapR] in H.
    destruct (kf x) as [kx|e]; [|discriminate]. cbn [rbind] in H. destruct (mapR kf l) as [ks'|e] eqn:E2; [|discriminate]. injection H as <-.
    cbn [combine map snd]. rewrite (IH ks' eq_refl). reflexivity.
  Qed.
  (** The key function is called again for values it answered for, so it does not raise. *)
  Lemma kp_update it w (s : SKL) : Frame s -> contents (kc s) = [] ->
    post (ek_update srt klt key it) (w, s)
      (fun _ s' => Frame (snd s') /\ Permutation (contents (kc (snd s'))) it) (fun e s' => R e /\ snd s' = s).
  Proof.
    intros HF Hc. pose proof (frame_load s HF) as Hld. destruct (frame_nil_state s HF Hc) as (ix & off & Es & HI).
    unfold post, ek_update, bind at 1, user, zoom, e_sorted_key, bind at 1. cbn [fst snd].
    pose proof (free_mapM (W:=W) kf it w) as E. unfold free1 in E. rewrite E. destruct (mapR kf it) as [ks|e] eqn:Ek.
    2:{ cbn [fst snd]. split; [|reflexivity]. right. right.
        destruct (mapR_Err _ _ _ Ek) as (v & _ & Hv). exists v, w, w. unfold liftr. rewrite Hv. reflexivity. }
    unfold bind. pose proof (Hs _ (fun p q => klt (fst p) (fst q)) (combine ks it) w) as HP.
    destruct (srt (K * V)%type (fun p q => klt (fst p) (fst q)) (combine ks it) w) as [[ps|e] w1]; cbn [fst snd] in *.
    2:{ split; [|reflexivity]. right. left. left. destruct HP as (x & y & HP). eauto. }
    cbn [ret]. rewrite Es. unfold own, zoom, get. cbn [fst snd kc maxes is_nil].
    assert (Hks : mapR kf (map snd ps) = Ok (map fst ps)).
    { apply pairs_mapR. intros k v Hi. apply (mapR_pairs it ks Ek k v). eapply Permutation_in; [exact HP|exact Hi]. }
    pose proof (fk_fill (W:=W) kf (map snd ps) (map fst ps) ix off 0 (load (kc s)) w1 Hks Hld) as HX. unfold free1 in HX. rewrite HX.
    destruct (skl_fill_ok kf (map snd ps) (map fst ps) ix off (load (kc s)) 0 Hks Hld) as (s' & E1 & H1 & H2 & _). rewrite E1. cbn [fst snd].
    split; [exact (shape_frame _ _ H1)|]. rewrite H2, <- (combine_snd it ks Ek). apply Permutation_map, HP.
  Qed.
  Definition kp_bad (_ : list V) (s : W * SKL) : Prop := contents (kc (snd s)) = [] /\ Frame (snd s).
  Lemma kp_refill s l : FrameW s -> vcont VT s = [] ->
    post (vt_update VT l) s (fun _ s' => FrameW s' /\ Permutation (vcont VT s') l) (fun e s' => R e /\ kp_bad l s').
  Proof.
    destruct s as [w c]. unfold FrameW, vcont. cbn. intros HF Hc.
    eapply post_imp; [apply (kp_update l w c HF Hc)| |]; cbv beta.
    - auto.
    - intros e s' [H1 H2]. split; [exact H1|]. unfold kp_bad. rewrite H2. auto.
  Qed.
  Definition kest (o : lop V) (s : W * SKL) : out V * (W * SKL) :=
    match o with
    | LContains _ | LBisectLeft _ | LBisectRight _ | LCount _ | LIndex _ _ _ | LIRange _ _ _ _ _ | LCompare _ _ | LDiscard _ => (RExn IndexError, s)
    | _ => ek_lstep srt eq eq klt keq key dflt o s
    end.
  Lemma kest_ok o s l : EKR s l -> lop_ok o -> exists r s' l', kest o s = (r, s') /\
    loose (total2 eqb) key_may o l r l' /\ (update_fine o r -> EKR s' l').
  Proof.
    intros [HF <-] Ho. destruct s as [w c]. cbn [snd] in *.
    pose proof (ek_lstep_went srt eq eq klt keq key dflt Hs Hd o w c HF Ho) as HW. unfold went, k_good in HW. destruct HW as [HE HN].
    assert (HX : key_may IndexError) by (do 3 right; reflexivity).
    pose proof raises_key as HR.
    assert (HQ : forall doc, quiet key_may doc (RExn IndexError) (contents (kc c)) (contents (kc c))).
    { intros doc. split; [reflexivity|]. intros e [= <-]. left. exact HX. }
    assert (HF2 : forall l1 r s', refilled VT FrameW R kp_bad l1 r s' -> or_raised key_may r (Permutation (contents (kc (snd s'))) l1) (contents (kc (snd s')) = []) /\ Frame (snd s')).
    { intros l1 r s' [(-> & H1 & H2)|(e & -> & H1 & H2 & H3)].
      - split; [left; auto|exact H2].
      - split; [right; exists e; auto|exact H3]. }
    pose proof (ek_vt_ok srt klt key) as HT.
    unfold kest. destruct o;
      first [ eexists (RExn IndexError), (w, c), (contents (kc c)); split; [reflexivity|]; split;
              [cbn [loose]; solve [split; [apply HQ|right; eauto] | right; eauto] | intros _; split; [exact HF|reflexivity]]
            | idtac ];
      match goal with |- exists r s' l', ?e = (r, s') /\ _ => exists (fst e), (snd e), (contents (kc (snd (snd e)))) end;
      (split; [apply surjective_pairing|]);
      first [ split; [exact (loose_raised _ _ (fun _ _ => Err OutOfFuel) _ _ _ _ HR HE)|intros H; split; [apply HN; exact H|reflexivity]] | idtac ].
    - split; [|intros H; split; [apply HN, H|reflexivity]].
      cbn [keff eff loose] in *. destruct HE as [[H1 (a & x & b & H2 & H3 & H4)]|(e & H1 & H2 & H3)].
      + left. left. split; [exact H1|]. exists a, x, b. split; [exact H2|]. split; [exact H3|].
        destruct H4 as (w1 & w2 & H4). injection H4 as H4 _. unfold total2. rewrite H4. reflexivity.
      + destruct H3 as [H3|[->| ->]].
        * left. right. exists e. auto.
        * left. right. exists IndexError. auto.
        * right. auto.
    - cbn [ek_lstep loose]. pose proof (delslice_went VT FrameW HT R kp_bad kp_refill sl (w, c) HF) as H. unfold went in H.
      change (vcont VT (w, c)) with (contents (kc c)) in H. destruct (sp_del_slice sl (contents (kc c))) as [l1|e].
      + destruct H as [_ H]. destruct (HF2 _ _ _ H) as [H1 H2]. split; [exact H1|]. intros _. split; [exact H2|reflexivity].
      + destruct H as [H1 H2]. rewrite H2. cbn [snd]. split; [auto|]. intros _. split; [exact HF|reflexivity].
    - cbn [ek_lstep loose]. pose proof (reset_went VT FrameW HT R kp_bad kp_refill ld (w, c) HF Ho) as H. unfold went in H.
      destruct (HF2 _ _ _ H) as [H1 H2]. split; [exact H1|]. intros _. split; [exact H2|reflexivity].
    - cbn [ek_lstep loose]. pose proof (imul_went VT FrameW HT R kp_bad kp_refill n (w, c) HF) as H. unfold went in H.
      destruct (HF2 _ _ _ H) as [H1 H2]. split; [exact H1|]. intros _. split; [exact H2|reflexivity].
  Qed.
  Lemma e_keyed_wild : WildOK T eqb key_may EKR.
  Proof.
    assert (HF : forall f s l, EKR s l -> WildClass.query (K:=K) f -> exists r s', l_fwd T f s = (r, s') /\ EKR s' l).
    { intros f [w c] l [HF <-] Hq. cbn [l_fwd e_keyed].
      assert (HG : forall o, kop_ok o ->
        (forall r l', keff (fun x y => may_hold (eq x y)) R o (contents (kc c)) r l' -> l' = contents (kc c)) -> (forall r, refill_fine o r) ->
        exists r s', ek_step srt eq eq klt keq key dflt o (w, c) = (r, s') /\ EKR s' (contents (kc c))).
      { intros o Ho He Hu. destruct (ek_step_went srt eq eq klt keq key dflt Hs Hd o w c HF Ho) as [H1 H2].
        eexists _, _. split; [apply surjective_pairing|]. split; [apply H2, Hu|]. exact (He _ _ H1). }
      destruct f; try contradiction; cbn [fwd_op];
        (apply HG; [exact I| |intros r0; destruct r0; exact I]; intros r0 l' H; cbn [keff eff loose] in H;
           first [apply H | unfold exact_ref in H; cbn [sp_step] in H; congruence]). }
    assert (HU : forall it w (c : SKL), Frame c -> contents (kc c) = [] ->
      (exists s' l', ek_update srt klt key it (w, c) = (Ok tt, s') /\ EKR s' l' /\ Permutation l' it) \/
      (exists e s', ek_update srt klt key it (w, c) = (Err e, s') /\ key_may e /\ EKR s' [])).
    { intros it w c HFr Hc. pose proof (kp_update it w c HFr Hc) as H. unfold post in H.
      destruct (ek_update srt klt key it (w, c)) as [[[]|e] s'].
      - left. destruct H as (H1 & H2). exists s', (contents (kc (snd s'))). split; [reflexivity|]. split; [split; auto|exact H2].
      - right. destruct H as (H1 & H2). exists e, s'. split; [reflexivity|]. split; [apply raises_key, H1|].
        split; [rewrite H2; exact HFr|rewrite H2; exact Hc]. }
    split; try exact HF.
    - intros it. cbn [ListClass.l_new e_keyed]. unfold ek_new, e_fresh. cbn [fst snd].
      destruct (HU it w0 (skl_empty dflt)) as [(s' & l' & E & H1 & H2)|(e & s' & E & H1 & H2)]; [|reflexivity| |].
      + apply (frame_empty 0 dflt Hd).
      + left. rewrite E. eexists _, l'. split; [reflexivity|]. split; [exact H1|exact H2].
      + right. rewrite E. exists e. split; [reflexivity|exact H1].
    - intros v s l. apply (w_add_of T eqb _ _ kest kest_ok v s l eq_refl).
    - intros s l. apply (w_clear_of T eqb _ _ kest kest_ok s l eq_refl).
    - intros it [w c] [HFr Hc]. apply (HU it w c HFr Hc).
    - intros v s l. apply (w_remove_of T eqb _ _ kest kest_ok v s l eq_refl).
    - intros i s l. apply (w_pop_of T eqb _ _ kest kest_ok i s l eq_refl).
    - intros i s l. apply (w_get_of T eqb _ _ kest kest_ok i s l eq_refl).
    - intros i s l. apply (w_slice_of T eqb _ _ kest kest_ok i s l eq_refl).
    - intros i s l. apply (w_del_of T eqb _ _ kest kest_ok i s l eq_refl).
    - intros i s l. apply (w_del_slice_of T eqb _ _ kest kest_ok i s l eq_refl).
    - intros [w c] l [_ H]. cbn [snd] in H. subst l. cbn [l_iter e_keyed]. unfold oncore, zoom. cbn [ek_vt vt_get vt_put]. destruct c; reflexivity.
    - intros [w c] l [HFr H]. cbn [snd] in H. subst l. cbn [l_reversed e_keyed]. unfold oncore, zoom. cbn [ek_vt vt_get vt_put snd fst]. rewrite reversed_ok.
      destruct c; reflexivity.
    - intros [w c] l [HFr H]. cbn [snd] in H. subst l. cbn [l_len e_keyed]. unfold oncore, zoom, length_of, bind, get, ret. cbn [ek_vt vt_get vt_put snd fst].
      pose proof (co_len _ (frame_core _ HFr)) as HL. cbn [snd] in HL. rewrite HL. destruct c; reflexivity.
    - intros n s l. apply (w_reset_of T eqb _ _ kest kest_ok n s l eq_refl).
  Qed.
End KeyedEffect.

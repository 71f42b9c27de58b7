(** * Lemmas for the property theorems about iterators over a SortedDict and its views *)
From Coq Require Import Permutation.
From Verif Require Import PyBase Model Spec BaseFacts SpecFacts History Reach ListClass ClassSpec ClassFacts ModelSet SetSpec SetFacts SetProps ModelDict DictSpec MapFacts DictFacts DictProps ModelHeap HeapFacts ModelKHeap ModelIter IterFacts IterSpec IterProps Concrete ModelViewIter ViewIterSpec HeapClass ViewIterFacts.
Local Unset Implicit Arguments.

Section Iter.
  Context {S1 S2 A B K : Type}.
  Variable T1 : hlist S1 A K.
  Variable T2 : listcls S2 A K.
  Variable R : S1 -> S2 -> Prop.
  Hypothesis HS : ClsSim T1 T2 R.
  Variables ltb eqb : A -> A -> bool.
  Variable veqb : B -> B -> bool.
  Variable fref : fwd A K -> list A -> out A * list A.
  Variable dflt : nat.
  Variable R2 : S2 -> list A -> Prop.
  Variable ld : S2 -> nat.
  Hypothesis HK : ClsOK T2 ltb eqb fref dflt R2 ld.
  Notation D1 := (sdict S1 A B).
  Notation map_t := (list (A * B)).
  Notation keys := (map (@fst A B)).
  Notation ls := (listing (B:=B) ltb).
  Notation rs := (ref_step ltb eqb veqb fref).
  Let HE : Equiv eqb := k_equiv _ _ _ _ _ _ _ HK.
  Let HW : SWO ltb := k_swo _ _ _ _ _ _ _ HK.

  Definition Inv (s : D1) (d : map_t) : Prop :=
    d_items s = d /\ exists t, drel R s t /\ DInv ltb eqb R2 t.
  Notation hp s := (hl_heap T1 (d_list s)).
  Notation rw s := (hl_rows T1 (d_list s)).
  Notation calm := (fun s s' : D1 => still T1 (d_list s) (d_list s')).

  Lemma inv_dk s d : Inv s d -> distinct_keys eqb d.
  Proof. intros (<- & t & [-> _] & _ & H). exact H. Qed.
  Lemma inv_keys s d : Inv s d -> concat (map (cell (hp s)) (rw s)) = keys (ls d).
  Proof.
    intros (<- & t & [E Hr] & HI). destruct (s_iter _ _ _ HS _ _ Hr) as (E2 & _ & _). rewrite (s_rows _ _ _ HS) in E2.
    destruct HI as [HI _]. rewrite (k_iter _ _ _ _ _ _ _ HK _ _ HI) in E2. cbn in E2. rewrite E. congruence.
  Qed.

  Definition after (o : dop A B K) (d : map_t) : map_t := match o with DOr _ | DROr _ | DCopy | DReduce _ => d | _ => snd (rs o d) end.
  Lemma reads_same o d : reads o = true -> snd (rs o d) = d.
  Proof. destruct o; try discriminate; intros _; reflexivity. Qed.
  Lemma reads_old o : reads (A:=A) (B:=B) (K:=K) o = true -> makes_new o = false.
  Proof. destruct o; try discriminate; reflexivity. Qed.
  Lemma inv_do o s d : Inv s d -> dop_ok eqb o -> exists s', v_do T1 eqb veqb o s = (fst (rs o d), s') /\ Inv s' (after o d) /\
    (moves eqb o d = false -> calm s s' /\ keys (ls (after o d)) = keys (ls d)).
  Proof.
    intros HI Ho. destruct (makes_new o) eqn:Em.
    - assert (E : v_do T1 eqb veqb o s = (fst (rs o d), s) /\ after o d = d); [|destruct E as [E1 E2]].
      + destruct HI as (<- & t & Hr & HI). destruct (sd_step_ok T2 ltb eqb veqb fref dflt R2 ld HK o t HI Ho) as (t' & E & _).
        pose proof (sd_make T1 T2 R HS eqb veqb o s t Em Hr) as E2. rewrite E in E2. cbn [fst] in E2. destruct Hr as [<- _] in E2.
        destruct o; try discriminate Em; cbn [v_do]; rewrite E2; (split; reflexivity).
      + exists s. rewrite E2. split; [exact E1|]. split; [exact HI|]. intros _. split; [apply still_refl|reflexivity].
    - assert (Ev : v_do T1 eqb veqb o s = sd_step T1 eqb veqb o s) by (destruct o; try discriminate Em; reflexivity).
      assert (Ea : after o d = snd (rs o d)) by (destruct o; try discriminate Em; reflexivity). rewrite Ev, Ea.
      assert (HM : exists s', sd_step T1 eqb veqb o s = (fst (rs o d), s') /\ Inv s' (snd (rs o d))).
      { destruct HI as (<- & t & Hr & HI). destruct (sd_step_ok T2 ltb eqb veqb fref dflt R2 ld HK o t HI Ho) as (t' & E & Ed & HI' & _).
        destruct (sd_changes T1 T2 R HS eqb veqb o Em s t Hr) as (E1 & E2 & _). rewrite E in *. cbn [fst snd] in *.
        destruct (sd_step T1 eqb veqb o s) as [r s']. cbn [fst snd] in *. exists s'. destruct Hr as [Hi _]. rewrite Hi in *. split; [congruence|].
        split; [destruct E2 as [E2 _]; congruence|]. exists t'. auto. }
      destruct HM as (s' & E & HI'). exists s'. split; [exact E|]. split; [exact HI'|]. intros Hm.
      destruct (reads o) eqn:Er.
      + split; [|rewrite reads_same by exact Er; reflexivity]. destruct HI as (<- & t & Hr & HI).
        destruct (sd_reads T1 T2 R HS eqb veqb o Er s t Hr) as (_ & _ & F). rewrite E in F. exact F.
      + assert (Hd : d_items s = d) by apply HI. clear Ev Ea HI HI' Ho. destruct o; try discriminate Em; try discriminate Er; try discriminate Hm; cbn [moves] in Hm; cbn [ref_step] in *.
        * destruct (lookup eqb k d) eqn:El; [|discriminate]. cbn [fst snd] in *. split.
          -- cbn [sd_step] in E. unfold dsee, sd_setitem, items_of, bind, get, ret in E. rewrite Hd, d_mem_lookup, El in E. cbn in E. injection E as <-.
             apply still_refl.
          -- rewrite (listing_present ltb eqb k v d) by congruence. rewrite map_map. apply map_ext. reflexivity.
        * destruct (lookup eqb k d) eqn:El; [discriminate|]. cbn [fst snd] in *. split; [|reflexivity].
          cbn [sd_step] in E. unfold dsee, sd_delitem, dict_delitem, items_of, bind, get, ret in E. rewrite Hd, d_mem_lookup, El in E. cbn in E. injection E as <-.
          apply still_refl.
        * destruct (lookup eqb k d) eqn:El; [discriminate|]. split; [|destruct default; reflexivity].
          cbn [sd_step] in E. unfold dsee, sd_pop, items_of, bind, get, ret in E. rewrite Hd, d_mem_lookup, El in E. destruct default; cbn in E; injection E as <-;
          apply still_refl.
        * destruct (lookup eqb k d) eqn:El; [|discriminate]. cbn [fst snd] in *. split; [|reflexivity].
          cbn [sd_step] in E. unfold dsee, sd_setdefault, sd_getitem, items_of, bind, get, ret in E. rewrite Hd, d_mem_lookup, El in E. cbn in E.
          unfold liftr in E. rewrite Hd, d_get_lookup, El in E. injection E as <-. apply still_refl.
        * destruct f; discriminate.
  Qed.

  (** ** Iterators *)
  Definition from_end (w : over) : bool := match w with KeysViewBack | ItemsViewBack | ValuesViewBack => true | _ => false end.
  Definition itrel (s : D1) (d : map_t) (x : viter) (y : vrit A) : Prop :=
    match y with
    | RNew w => x = VStart w /\ w <> Keys /\ w <> KeysBack
    | RLive w ks =>
        if from_end w then exists n, x = VBack w n /\ n <= length (ls d) /\ ks = rev (firstn n (keys (ls d)))
        else exists it, x = VRun w it /\ itval (hp s) (rw s) it ks /\ incl ks (keys (ls d))
    | RLost => True
    | REnded => x = VOver \/ x = VRun Keys [] \/ x = VRun KeysBack []
    end.
  Lemma itrel_calm s s' d d' x y : calm s s' -> keys (ls d') = keys (ls d) -> itrel s d x y -> itrel s' d' x y.
  Proof.
    intros [Hc1 Hc2] Hk. destruct y as [w|w ks| |]; cbn [itrel]; try (intros H; exact H).
    assert (Hl : length (ls d') = length (ls d)) by (rewrite <- (map_length fst), Hk, map_length; reflexivity).
    destruct (from_end w).
    - intros (n & -> & H1 & H2). exists n. rewrite Hk, Hl. auto.
    - intros (it & -> & H1 & H2). exists it. rewrite Hk, Hc1. split; [reflexivity|]. split; [|exact H2]. exact (itval_ext _ _ _ _ _ Hc2 H1).
  Qed.
  Lemma itrel_lose s s' d d' x y : itrel s d x y -> itrel s' d' x (lose y).
  Proof. destruct y; cbn; auto. Qed.
  Lemma nth_pos_keys d n : n < length (ls d) -> exists k v, nth_error (ls d) n = Some (k, v).
  Proof. intros H. destruct (nth_error (ls d) n) as [[k v]|] eqn:E; [eauto|]. apply nth_error_None in E. lia. Qed.
  Lemma concat_rev (l : list (list A)) : concat (map (@rev A) (rev l)) = rev (concat l).
  Proof. induction l as [|x l IH]; [reflexivity|]. cbn. rewrite map_app, concat_app, IH, rev_app_distr. cbn. rewrite app_nil_r. reflexivity. Qed.

  (** One step of an iterator that goes through the keys. *)
  Lemma run_ok w it ks s d : Inv s d -> from_end w = false -> itval (hp s) (rw s) it ks -> incl ks (keys (ls d)) ->
    exists x, v_run T1 eqb w it s = (fst (advance eqb w ks d), x, s) /\ itrel s d x (snd (advance eqb w ks d)).
  Proof.
    intros HI Hw Hit Hin. pose proof (next_ok (hp s) (rw s) it ks Hit) as Hn. unfold v_run. destruct ks as [|k t].
    - rewrite Hn. eexists. split; [reflexivity|]. destruct w; cbn; auto.
    - destruct Hn as (it' & -> & Hit'). cbn [advance fst snd].
      assert (Hk : exists v, lookup eqb k d = Some v).
      { assert (X : In k (keys (ls d))) by (apply Hin; left; reflexivity). apply in_map_iff in X. destruct X as ([k' v] & <- & X). exists v. cbn [fst].
        rewrite <- (lookup_listing ltb eqb HW HE k' d (inv_dk _ _ HI)). apply (lookup_self eqb HE (k', v) _ (listing_dk ltb eqb HW HE d (inv_dk _ _ HI)) X). }
      destruct Hk as (v & Hv). assert (Hd : d_items s = d) by apply HI. rewrite Hd.
      assert (Hrel : itrel s d (VRun w it') (RLive w t)).
      { cbn [itrel]. rewrite Hw. exists it'. split; [reflexivity|]. split; [exact Hit'|]. intros z Hz. apply Hin. right. exact Hz. }
      assert (Hy : v_yield eqb w k d = item eqb w k d).
      { unfold v_yield, item. rewrite d_get_lookup, Hv. destruct w; try discriminate Hw; reflexivity. }
      rewrite Hy. unfold item. rewrite Hv. destruct w; try discriminate Hw; (eexists; split; [reflexivity|exact Hrel]).
  Qed.
  Lemma back_ok w n s d : Inv s d -> from_end w = true -> n <= length (ls d) ->
    let ks := rev (firstn n (keys (ls d))) in
    exists x s', v_back T1 eqb w n s = (fst (advance eqb w ks d), x, s') /\ Inv s' d /\ calm s s' /\ itrel s' d x (snd (advance eqb w ks d)).
  Proof.
    intros HI Hw Hn. cbv zeta. destruct n as [|i].
    - exists VOver, s. split; [reflexivity|]. split; [exact HI|]. split; [apply still_refl|]. left. reflexivity.
    - destruct (nth_pos_keys d i Hn) as (k & v & Ei).
      assert (Ek : nth_error (keys (ls d)) i = Some k) by (rewrite nth_error_map, Ei; reflexivity).
      rewrite (firstn_nth _ _ _ Ek), rev_app_distr. cbn [rev app advance fst snd].
      assert (Hv : lookup eqb k d = Some v).
      { rewrite <- (lookup_listing ltb eqb HW HE k d (inv_dk _ _ HI)).
        apply (lookup_self eqb HE (k, v) _ (listing_dk ltb eqb HW HE d (inv_dk _ _ HI)) (nth_error_In _ _ Ei)). }
      assert (Ez : forall X (f : A * B -> X), getz (map f (ls d)) (Z.of_nat i) = Ok (f (k, v))).
      { intros X f. rewrite getz_nonneg by lia. rewrite Nat2Z.id. unfold getn. rewrite nth_error_map, Ei. reflexivity. }
      assert (X : forall o, reads o = true -> dop_ok eqb o -> (forall r, fst (rs o d) <> OExn r) -> sd_step T1 eqb veqb o s = v_at T1 eqb w i s ->
        fst (rs o d) = item eqb w k d -> exists x s', v_back T1 eqb w (Datatypes.S i) s = (VOut (item eqb w k d), x, s') /\ Inv s' d /\ calm s s' /\
          itrel s' d x (RLive w (rev (firstn i (keys (ls d)))))).
      { intros o Hr Ho Hx Es Ey. destruct (inv_do o s d HI Ho) as (s' & E & HI' & Hc).
        assert (Hm : moves eqb o d = false) by (destruct o as [| | | | | | | | | | | | | | | | | | | | | | | | | | | | | | | | | | | f]; try discriminate Hr; try reflexivity; destruct f; try discriminate Hr; reflexivity).
        assert (Ea : after o d = d) by (pose proof (reads_same o d Hr); destruct o; try discriminate Hr; assumption).
        destruct (Hc Hm) as [Hc' _]. rewrite Ea in HI'. assert (Ev : v_do T1 eqb veqb o s = sd_step T1 eqb veqb o s) by (destruct o; try discriminate Hr; reflexivity).
        exists (VBack w i), s'. cbn [v_back]. rewrite <- Es, <- Ev, E, Ey. split.
        - rewrite Ey in Hx. destruct (item eqb w k d); try reflexivity. destruct (Hx e eq_refl).
        - split; [exact HI'|]. split; [exact Hc'|]. cbn [itrel]. rewrite Hw. exists i. split; [reflexivity|]. split; [lia|reflexivity]. }
      pose proof (Ez _ (fun p => p)) as E0. rewrite map_id in E0. pose proof (Ez _ fst) as E1. pose proof (Ez _ snd) as E2.
      destruct w; try discriminate Hw.
      + apply (X (DKeyAt (Z.of_nat i))); try reflexivity; cbn [ref_step fst]; rewrite E1; [intros r; discriminate|reflexivity].
      + apply (X (DItemAt (Z.of_nat i))); try reflexivity; cbn [ref_step fst]; rewrite E0; [intros r; discriminate|]. cbn. rewrite Hv. reflexivity.
      + apply (X (DValueAt (Z.of_nat i))); try reflexivity; cbn [ref_step fst]; rewrite E2; [intros r; discriminate|]. cbn. rewrite Hv. reflexivity.
  Qed.
  Lemma start_ok w s d : Inv s d -> w <> Keys -> w <> KeysBack ->
    exists x s', v_next T1 eqb (VStart w) s = (fst (advance eqb w (start ltb w d) d), x, s') /\ Inv s' d /\ calm s s' /\
      itrel s' d x (snd (advance eqb w (start ltb w d) d)).
  Proof.
    intros HI H1 H2. destruct (from_end w) eqn:Hw.
    - assert (E : v_next T1 eqb (VStart w) s = v_back T1 eqb w (length (d_items s)) s) by (destruct w; try discriminate Hw; reflexivity).
      assert (E2 : start ltb w d = rev (firstn (length (d_items s)) (keys (ls d)))).
      { assert (Hd : d_items s = d) by apply HI. rewrite Hd, <- (listing_length ltb HW d), <- (map_length fst), firstn_all.
        destruct w; try discriminate Hw; reflexivity. }
      rewrite E, E2. apply back_ok; [exact HI|exact Hw|]. assert (Hd : d_items s = d) by apply HI. rewrite Hd, (listing_length ltb HW d). lia.
    - assert (E : v_next T1 eqb (VStart w) s = v_run T1 eqb w keys_iter s) by (destruct w; try discriminate Hw; reflexivity).
      assert (E2 : start ltb w d = keys (ls d)) by (destruct w; try discriminate Hw; try congruence; reflexivity).
      rewrite E, E2. destruct (run_ok w keys_iter (keys (ls d)) s d HI Hw) as (x & Ex & Hx).
      + rewrite <- (inv_keys s d HI). apply iter_val.
      + apply incl_refl.
      + exists x, s. split; [exact Ex|]. split; [exact HI|]. split; [apply still_refl|exact Hx].
  Qed.
  Lemma made_ok w s d : Inv s d -> itrel s d (v_make T1 w s) (match w with Keys | KeysBack => RLive w (start ltb w d) | _ => RNew w end).
  Proof.
    intros HI. destruct w; cbn [v_make itrel from_end]; try (split; [reflexivity|split; discriminate]).
    - exists keys_iter. split; [reflexivity|]. split; [|apply incl_refl]. unfold start. cbn [backwards]. rewrite <- (inv_keys s d HI). apply iter_val.
    - eexists. split; [reflexivity|]. unfold start. cbn [backwards]. split.
      + rewrite <- (inv_keys s d HI), <- concat_rev. apply reversed_val.
      + intros k Hk. apply in_rev. exact Hk.
  Qed.

  (** ** Histories *)
  Definition wrel (s : D1 * list viter) (r : map_t * list (vrit A)) : Prop := Inv (fst s) (fst r) /\ Forall2 (itrel (fst s) (fst r)) (snd s) (snd r).
  Lemma Forall2_imp {X Y} (P Q : X -> Y -> Prop) l m : (forall x y, P x y -> Q x y) -> Forall2 P l m -> Forall2 Q l m.
  Proof. intros H HF. induction HF; constructor; auto. Qed.
  Lemma Forall2_lose s s' d d' l m : Forall2 (itrel s d) l m -> Forall2 (itrel s' d') l (map lose m).
  Proof. intros HF. induction HF; constructor; auto. eapply itrel_lose. eassumption. Qed.
  Lemma Forall2_nth {X Y} (P : X -> Y -> Prop) l m j : Forall2 P l m ->
    match nth_error l j, nth_error m j with Some x, Some y => P x y | None, None => True | _, _ => False end.
  Proof. intros HF. revert j. induction HF; intros [|j]; cbn; auto. apply IHHF. Qed.
  Lemma Forall2_set (P : viter -> vrit A -> Prop) l m j x y : Forall2 P l m -> P x y -> j < length l -> Forall2 P (set_viter l j x) (firstn j m ++ y :: skipn (Datatypes.S j) m).
  Proof.
    intros HF HP. revert j. induction HF as [|a b l m Hab HF IH]; intros [|j] Hj; cbn in *; try lia; [constructor; assumption|].
    constructor; [assumption|]. apply IH. lia.
  Qed.
  Lemma set_same (l : list viter) j x : nth_error l j = Some x -> set_viter l j x = l.
  Proof. revert j. induction l as [|y l IH]; intros [|j] H; cbn in *; try discriminate; [congruence|]. rewrite IH; auto. Qed.

  Lemma Forall2_set_lost (P : viter -> vrit A -> Prop) l m j x : Forall2 P l m -> nth_error m j = Some RLost -> (forall x, P x RLost) -> Forall2 P (set_viter l j x) m.
  Proof.
    intros HF. revert j. induction HF as [|a b l m Hab HF IH]; intros [|j] Hj HP; cbn in *; try discriminate.
    - injection Hj as ->. constructor; auto.
    - constructor; auto.
  Qed.
  (** Whatever an iterator is at, a step leaves the dict as it is and its list still. *)
  Lemma next_calm x s d : Inv s d -> exists r x' s', v_next T1 eqb x s = (r, x', s') /\ Inv s' d /\ calm s s'.
  Proof.
    intros HI. assert (HR : forall w it, exists r x' s', v_run T1 eqb w it s = (r, x', s') /\ Inv s' d /\ calm s s').
    { intros w it. unfold v_run. destruct (next (hp s) (rw s) it) as [[[k|]|e] it'].
      - destruct (v_yield eqb w k (d_items s)); eexists _, _, s; (split; [reflexivity|split; [exact HI|apply still_refl]]).
      - eexists _, _, s. split; [reflexivity|split; [exact HI|apply still_refl]].
      - eexists _, _, s. split; [reflexivity|split; [exact HI|apply still_refl]]. }
    assert (HB : forall w n, exists r x' s', v_back T1 eqb w n s = (r, x', s') /\ Inv s' d /\ calm s s').
    { intros w n. destruct n as [|i]; [eexists _, _, s; split; [reflexivity|split; [exact HI|apply still_refl]]|]. cbn [v_back].
      assert (X : forall o, sd_step T1 eqb veqb o s = v_at T1 eqb w i s -> reads o = true -> dop_ok eqb o -> moves eqb o d = false ->
        exists r x' s', match v_at T1 eqb w i s with (OExn e, s0) => (VOut (OExn e), VOver, s0) | (r, s0) => (VOut r, VBack w i, s0) end = (r, x', s') /\ Inv s' d /\ calm s s').
      { intros o Es Hr Ho Hm. destruct (inv_do o s d HI Ho) as (s' & E & HI' & Hc).
        assert (Ea : after o d = d) by (pose proof (reads_same o d Hr); destruct o; try discriminate Hr; assumption).
        destruct (Hc Hm) as [Hc' _]. rewrite Ea in HI'. assert (Ev : v_do T1 eqb veqb o s = sd_step T1 eqb veqb o s) by (destruct o; try discriminate Hr; reflexivity).
        rewrite <- Es, <- Ev, E. destruct (fst (rs o d)); eexists _, _, s'; (split; [reflexivity|split; [exact HI'|exact Hc']]). }
      destruct w; first [apply (X (DItemAt (Z.of_nat i))); reflexivity|apply (X (DValueAt (Z.of_nat i))); reflexivity|apply (X (DKeyAt (Z.of_nat i))); reflexivity]. }
    destruct x as [w|w it|w n|]; cbn [v_next]; auto.
    - destruct w; auto.
    - eexists _, _, s. split; [reflexivity|split; [exact HI|apply still_refl]].
  Qed.

  Lemma vstep_ok o s r : wrel s r -> vop_ok eqb o -> exists out s', vi_step T1 eqb veqb o s = (out, s') /\
    match fst (vr_step ltb eqb veqb fref o r) with Some e => out = e | None => True end /\ wrel s' (snd (vr_step ltb eqb veqb fref o r)).
  Proof.
    destruct s as [s its], r as [d rits]. intros [HI HF] Ho. cbn [fst snd] in *. destruct o as [o|w|j]; cbn [vi_step vr_step].
    - destruct (inv_do o s d HI Ho) as (s' & -> & HI' & Hc). eexists _, _. split; [reflexivity|].
      assert (Ea : match o with DOr _ | DROr _ | DCopy | DReduce _ => d | _ => snd (rs o d) end = after o d) by reflexivity.
      destruct (rs o d) as [out d'] eqn:Er. cbn [fst snd] in *. split; [reflexivity|]. cbn [snd]. rewrite Ea. split; [exact HI'|]. cbn [fst snd].
      destruct (moves eqb o d); [eapply Forall2_lose; exact HF|]. destruct (Hc eq_refl) as [Hc1 Hc2].
      eapply Forall2_imp; [|exact HF]. intros x y. apply itrel_calm; assumption.
    - eexists _, _. split; [reflexivity|]. split; [reflexivity|]. split; [exact HI|]. cbn [fst snd]. apply Forall2_app; [exact HF|].
      constructor; [|constructor]. apply made_ok, HI.
    - pose proof (Forall2_nth _ _ _ j HF) as Hj. unfold getn. destruct (nth_error its j) as [x|] eqn:Ex, (nth_error rits j) as [y|] eqn:Ey; try contradiction.
      + assert (Hl : j < length its) by (apply nth_error_Some; congruence).
        assert (HX : forall (p : vout A B * vrit A), (exists x' s', v_next T1 eqb x s = (fst p, x', s') /\ Inv s' d /\ calm s s' /\ itrel s' d x' (snd p)) ->
          exists out s', (let '(r, x0, d0) := v_next T1 eqb x s in (r, (d0, set_viter its j x0))) = (out, s') /\
            out = fst p /\ wrel s' (d, firstn j rits ++ snd p :: skipn (Datatypes.S j) rits)).
        { intros p (x' & s' & E & HI' & Hc & Hx). rewrite E. eexists _, _. split; [reflexivity|]. split; [reflexivity|]. split; [exact HI'|]. cbn [fst snd].
          apply Forall2_set; [|exact Hx|exact Hl]. eapply Forall2_imp; [|exact HF]. intros a b. apply itrel_calm; [exact Hc|reflexivity]. }
        destruct y as [w|w ks| |]; cbn [itrel] in Hj.
        * destruct Hj as (-> & H1 & H2). specialize (HX (advance eqb w (start ltb w d) d) (start_ok w s d HI H1 H2)).
          destruct (advance eqb w (start ltb w d) d) as [r0 y0]. exact HX.
        * assert (HY : exists x' s', v_next T1 eqb x s = (fst (advance eqb w ks d), x', s') /\ Inv s' d /\ calm s s' /\ itrel s' d x' (snd (advance eqb w ks d))).
          { destruct (from_end w) eqn:Hw.
            - destruct Hj as (n & -> & Hn & ->). exact (back_ok w n s d HI Hw Hn).
            - destruct Hj as (it & -> & Hit & Hin). destruct (run_ok w it ks s d HI Hw Hit Hin) as (x' & E & Hx). exists x', s.
              split; [exact E|]. split; [exact HI|]. split; [apply still_refl|exact Hx]. }
          specialize (HX _ HY). destruct (advance eqb w ks d) as [r0 y0]. exact HX.
        * destruct (next_calm x s d HI) as (r0 & x' & s' & E & HI' & Hc). rewrite E. eexists _, _. split; [reflexivity|]. split; [exact I|].
          split; [exact HI'|]. cbn [fst snd]. apply Forall2_set_lost; [|exact Ey|intros; exact I].
          eapply Forall2_imp; [|exact HF]. intros a b. apply itrel_calm; [exact Hc|reflexivity].
        * assert (E : v_next T1 eqb x s = (VStop, x, s)) by (destruct Hj as [->|[->| ->]]; reflexivity). rewrite E. eexists _, _.
          split; [reflexivity|]. split; [reflexivity|]. rewrite (set_same its j x Ex). split; assumption.
      + eexists _, _. split; [reflexivity|]. split; [reflexivity|]. split; assumption.
  Qed.
  Lemma vrun_ok ops : forall s r, wrel s r -> Forall (vop_ok eqb) ops ->
    agree (fst (vi_run T1 eqb veqb ops s)) (fst (vr_run ltb eqb veqb fref ops r)) /\
    wrel (snd (vi_run T1 eqb veqb ops s)) (snd (vr_run ltb eqb veqb fref ops r)).
  Proof.
    unfold vi_run, vr_run. induction ops as [|o ops IH]; intros s r Hr Ho; [split; [constructor|exact Hr]|]. inversion Ho as [|? ? H1 H2]; subst.
    cbn [run]. destruct (vstep_ok o s r Hr H1) as (x & s' & E & Hx & Hr'). rewrite E. destruct (vr_step ltb eqb veqb fref o r) as [e r'] eqn:Er.
    cbn [fst snd] in *. specialize (IH s' r' Hr' H2).
    destruct (run (vi_step T1 eqb veqb) ops s') as [xs s2], (run (vr_step ltb eqb veqb fref) ops r') as [es r2]. cbn [fst snd] in *.
    split; [constructor; [exact Hx|apply IH]|apply IH].
  Qed.
  Lemma new_inv a s0 : sd_new T1 eqb a = Ok s0 -> Inv s0 (merge eqb [] (pairs_of a)).
  Proof.
    intros E. pose proof (sd_new_rel T1 T2 R HS eqb veqb a) as H. destruct (new_ok T2 ltb eqb fref dflt R2 ld HK a) as (t & Et & Ed & HI & _).
    rewrite E, Et in H. split; [destruct H as [H _]; congruence|]. exists t. auto.
  Qed.
End Iter.

Lemma c91_view_iterators : forall S A B K (T : hlist S A K) ltb eqb (veqb : B -> B -> bool) fref dflt a ops s0,
  heap_class T ltb eqb fref dflt -> Forall (vop_ok eqb) ops -> sd_new T eqb a = Ok s0 ->
  agree (fst (vi_run T eqb veqb ops (s0, []))) (fst (vr_run ltb eqb veqb fref ops (merge eqb [] (pairs_of a), []))).
Proof.
  intros S A B K T ltb eqb veqb fref dflt a ops s0 HT Ho E. destruct (heap_class_sim T ltb eqb fref dflt HT) as (S2 & T2 & Q & HC & HS). cls HC HK.
  eapply (vrun_ok T T2 Q HS ltb eqb veqb fref dflt _ _ HK ops); [|exact Ho]. split; [|constructor].
  exact (new_inv T T2 Q HS ltb eqb veqb fref dflt _ _ HK a s0 E).
Qed.

(** ** After changes *)
Section Changed.
  Context {S1 S2 A B K : Type}.
  Variable T1 : hlist S1 A K.
  Variable T2 : listcls S2 A K.
  Variable R : S1 -> S2 -> Prop.
  Hypothesis HS : ClsSim T1 T2 R.
  Variables ltb eqb : A -> A -> bool.
  Variable veqb : B -> B -> bool.
  Variable fref : fwd A K -> list A -> out A * list A.
  Variable dflt : nat.
  Variable R2 : S2 -> list A -> Prop.
  Variable ld : S2 -> nat.
  Hypothesis HK : ClsOK T2 ltb eqb fref dflt R2 ld.
  Let HE : Equiv eqb := k_equiv _ _ _ _ _ _ _ HK.
  Let HW : SWO ltb := k_swo _ _ _ _ _ _ _ HK.
  Notation D1 := (sdict S1 A B).
  Notation Inv := (Inv R ltb eqb R2).

  Definition shape (w : over) (x : viter) : Prop :=
    match x with
    | VStart w' => w' = w /\ w <> Keys /\ w <> KeysBack
    | VRun w' it => w' = w /\ from_end w = false /\ Forall whole it
    | VBack w' _ => w' = w /\ from_end w = true
    | VOver => True
    end.
  Lemma run_shape w it (s : D1) d : Inv s d -> from_end w = false -> Forall whole it ->
    exists r x, v_run T1 eqb w it s = (r, x, s) /\ shape w x /\ may_yield eqb w d r.
  Proof.
    intros HI Hw Hit. unfold v_run. destruct (next_total (hl_heap T1 (d_list s)) (hl_rows T1 (d_list s)) it Hit) as (v & it' & -> & Hit').
    assert (Hd : d_items s = d) by apply HI. pose proof (inv_dk R ltb eqb R2 s d HI) as Hdk.
    assert (Hrun : shape w (VRun w it')) by (cbn; auto).
    destruct v as [k|].
    - rewrite Hd. unfold v_yield. rewrite d_get_lookup. destruct (lookup eqb k d) as [v|] eqn:El.
      + assert (Hm : maps eqb d k v) by (apply (lookup_In eqb HE k v d Hdk); exact El).
        destruct w; try discriminate Hw; eexists _, _; (split; [reflexivity|]); (split; [exact Hrun|]); cbn; eauto.
      + destruct w; try discriminate Hw; eexists _, _; (split; [reflexivity|]); (split; [first [exact Hrun|exact I]|]); cbn; auto.
    - eexists _, _. split; [reflexivity|]. split; [destruct w; first [exact Hrun|exact I]|]. destruct w; exact I.
  Qed.
  Lemma at_end X (l : list X) i : getz l (Z.of_nat i) = match nth_error l i with Some x => Ok x | None => Err IndexError end.
  Proof. rewrite getz_nonneg by lia. rewrite Nat2Z.id. reflexivity. Qed.
  Lemma listing_in d p : In p (listing (B:=B) ltb d) -> In p d.
  Proof. intros H. eapply Permutation_in; [apply (listing_perm ltb HW)|exact H]. Qed.
  Lemma back_shape w n (s : D1) d : Inv s d -> from_end w = true ->
    exists r x s', v_back T1 eqb w n s = (r, x, s') /\ Inv s' d /\ shape w x /\ may_yield eqb w d r.
  Proof.
    intros HI Hw. destruct n as [|i]; [exists VStop, VOver, s; split; [reflexivity|]; split; [exact HI|]; split; [exact I|destruct w; exact I]|].
    cbn [v_back].
    assert (X : forall o, sd_step T1 eqb veqb o s = v_at T1 eqb w i s -> reads o = true -> dop_ok eqb o ->
      may_yield eqb w d (VOut (fst (ref_step ltb eqb veqb fref o d))) ->
      exists r x s', match v_at T1 eqb w i s with (OExn e, s0) => (VOut (OExn e), VOver, s0) | (r, s0) => (VOut r, VBack w i, s0) end = (r, x, s') /\
        Inv s' d /\ shape w x /\ may_yield eqb w d r).
    { intros o Es Hr Ho Hy. destruct (inv_do T1 T2 R HS ltb eqb veqb fref dflt R2 ld HK o s d HI Ho) as (s' & E & HI' & _).
      assert (Ea : after ltb eqb veqb fref o d = d) by (pose proof (reads_same ltb eqb veqb fref o d Hr); destruct o; try discriminate Hr; assumption).
      rewrite Ea in HI'. assert (Ev : v_do T1 eqb veqb o s = sd_step T1 eqb veqb o s) by (destruct o; try discriminate Hr; reflexivity).
      rewrite <- Es, <- Ev, E. destruct (fst (ref_step ltb eqb veqb fref o d)); eexists _, _, s'; (split; [reflexivity|]); (split; [exact HI'|]);
        (split; [first [exact I|split; [reflexivity|exact Hw]]|exact Hy]). }
    destruct w; try discriminate Hw;
      [apply (X (DKeyAt (Z.of_nat i)))|apply (X (DItemAt (Z.of_nat i)))|apply (X (DValueAt (Z.of_nat i)))]; try reflexivity;
      cbn [ref_step fst]; rewrite at_end, ?nth_error_map; destruct (nth_error (listing ltb d) i) as [[k v]|] eqn:Ei; cbn; try reflexivity;
      assert (Hm : maps eqb d k v) by (exists k; split; [apply listing_in, (nth_error_In _ _ Ei)|apply HE]); [exists v; exact Hm|exact Hm|exists k; exact Hm].
  Qed.
  Lemma next_shape w x (s : D1) d : Inv s d -> shape w x ->
    exists r x' s', v_next T1 eqb x s = (r, x', s') /\ Inv s' d /\ shape w x' /\ may_yield eqb w d r.
  Proof.
    intros HI Hx. assert (HR : forall it, from_end w = false -> Forall whole it -> exists r x' s', v_run T1 eqb w it s = (r, x', s') /\ Inv s' d /\ shape w x' /\ may_yield eqb w d r).
    { intros it Hw Hit. destruct (run_shape w it s d HI Hw Hit) as (r & x' & E & H). exists r, x', s. auto. }
    destruct x as [w'|w' it|w' n|]; cbn [shape v_next] in *.
    - destruct Hx as (-> & H1 & H2). destruct w; try congruence; try (apply back_shape; [exact HI|reflexivity]); apply HR; try reflexivity; repeat constructor.
    - destruct Hx as (-> & H1 & H2). auto.
    - destruct Hx as (-> & H1). apply back_shape; assumption.
    - exists VStop, VOver, s. split; [reflexivity|]. split; [exact HI|]. split; [exact I|destruct w; exact I].
  Qed.
  Lemma make_shape w (s : D1) : shape w (v_make T1 w s).
  Proof. destruct w; cbn; repeat split; try discriminate; repeat constructor. Qed.
  Lemma Forall2_shape_set ws l j x w : Forall2 shape ws l -> nth_error ws j = Some w -> shape w x -> Forall2 shape ws (set_viter l j x).
  Proof. intros HF. revert j. induction HF as [|a b ws l Hab HF IH]; intros [|j] Hj Hx; cbn in *; try discriminate; [injection Hj as ->|]; constructor; auto. Qed.
  Lemma step_shape o s its ws d : Inv s d -> Forall2 shape ws its -> vop_ok eqb o ->
    exists r s' its' d', vi_step T1 eqb veqb o (s, its) = (r, (s', its')) /\ Inv s' d' /\ Forall2 shape (ws ++ makes [o]) its'.
  Proof.
    intros HI HF Ho. destruct o as [o|w|j]; cbn [vi_step makes flat_map]; cbn [app]; rewrite ?app_nil_r.
    - destruct (inv_do T1 T2 R HS ltb eqb veqb fref dflt R2 ld HK o s d HI Ho) as (s' & -> & HI' & _). eexists _, _, _, _. split; [reflexivity|]. split; eassumption.
    - eexists _, _, _, _. split; [reflexivity|]. split; [exact HI|]. apply Forall2_app; [exact HF|]. constructor; [apply make_shape|constructor].
    - pose proof (Forall2_nth _ _ _ j HF) as Hj. unfold getn. destruct (nth_error its j) as [x|], (nth_error ws j) as [w|] eqn:Ew; try contradiction.
      + destruct (next_shape w x s d HI Hj) as (r & x' & s' & -> & HI' & Hx & _). eexists _, _, _, _. split; [reflexivity|]. split; [exact HI'|].
        eapply Forall2_shape_set; eassumption.
      + eexists _, _, _, _. split; [reflexivity|]. split; eassumption.
  Qed.
  Lemma run_shapes ops : forall s its ws d, Inv s d -> Forall2 shape ws its -> Forall (vop_ok eqb) ops ->
    exists d', Inv (fst (snd (vi_run T1 eqb veqb ops (s, its)))) d' /\ Forall2 shape (ws ++ makes ops) (snd (snd (vi_run T1 eqb veqb ops (s, its)))).
  Proof.
    unfold vi_run. induction ops as [|o ops IH]; intros s its ws d HI HF Ho; [exists d; cbn; rewrite app_nil_r; auto|].
    apply Forall_cons_iff in Ho as [H1 H2]. destruct (step_shape o s its ws d HI HF H1) as (r & s' & its' & d' & E & HI' & HF').
    cbn [run]. rewrite E. destruct (IH s' its' _ d' HI' HF' H2) as (d2 & H). rewrite <- app_assoc in H.
    replace (makes (o :: ops)) with (makes [o] ++ makes ops) by (unfold makes; cbn; rewrite app_nil_r; reflexivity).
    destruct (run (vi_step T1 eqb veqb) ops (s', its')) as [xs sf]. exists d2. exact H.
  Qed.
End Changed.

Lemma c91_after_changes : forall S A B K (T : hlist S A K) ltb eqb (veqb : B -> B -> bool) fref dflt a ops s0 outs s its j w,
  heap_class T ltb eqb fref dflt -> Forall (vop_ok eqb) ops -> sd_new T eqb a = Ok s0 ->
  vi_run T eqb veqb ops (s0, []) = (outs, (s, its)) -> nth_error (makes ops) j = Some w ->
  may_yield eqb w (d_items s) (fst (vi_step T eqb veqb (VNext j) (s, its))) /\
  d_items (fst (snd (vi_step T eqb veqb (VNext j) (s, its)))) = d_items s.
Proof.
  intros S A B K T ltb eqb veqb fref dflt a ops s0 outs s its j w HT Ho E Er Hj.
  destruct (heap_class_sim T ltb eqb fref dflt HT) as (S2 & T2 & Q & HC & HS). cls HC HK.
  pose proof (new_inv T T2 Q HS ltb eqb veqb fref dflt _ _ HK a s0 E) as HI.
  destruct (run_shapes T T2 Q HS ltb eqb veqb fref dflt _ _ HK ops s0 [] [] _ HI ltac:(constructor) Ho) as (d & HI' & HF). rewrite Er in HI', HF. cbn [fst snd app] in *.
  pose proof (Forall2_nth _ _ _ j HF) as H. rewrite Hj in H. cbn [vi_step]. unfold getn. destruct (nth_error its j) as [x|]; [|contradiction].
  destruct (next_shape T T2 Q HS ltb eqb veqb fref dflt _ _ HK w x s d HI' H) as (r & x' & s' & -> & HI2 & _ & Hy). cbn [fst snd].
  assert (Hd : d_items s = d) by apply HI'. assert (Hd2 : d_items s' = d) by apply HI2. rewrite Hd2, Hd. auto.
Qed.

(** ** Iterators that have ended *)
Section Ended.
  Context {S A B K : Type}.
  Variable T : hlist S A K.
  Variables eqb : A -> A -> bool.
  Variable veqb : B -> B -> bool.
  Notation D := (sdict S A B).
  Definition gone (x : viter) : Prop := match x with VOver => True | VRun _ it => it = [] | _ => False end.
  Definition ends (r : vout A B) : Prop := match r with VStop | VOut (OExn _) => True | _ => False end.

  Lemma next_end {V} (h : heap V) rs it it' : next h rs it = (Ok None, it') -> it' = [].
  Proof.
    induction it as [|x t IH]; cbn [next]; intros E; [injection E as <-; reflexivity|].
    destruct (seg_next h rs x) as [[[v|]|e] y]; try discriminate. apply IH, E.
  Qed.
  Lemma gone_next x (s : D) : gone x -> exists x', v_next T eqb x s = (VStop, x', s) /\ gone x'.
  Proof.
    destruct x as [w|w it|w n|]; cbn [gone]; intros H; try contradiction.
    - subst it. cbn [v_next]. unfold v_run. cbn [next]. destruct w; eexists; (split; [reflexivity|]); reflexivity || exact I.
    - eexists. split; [reflexivity|exact I].
  Qed.
  Lemma ends_gone w x (s : D) : shape w x -> may_yield eqb w (d_items s) (fst (fst (v_next T eqb x s))) -> ends (fst (fst (v_next T eqb x s))) ->
    gone (snd (fst (v_next T eqb x s))).
  Proof.
    intros Hx.
    assert (HR : forall it, may_yield eqb w (d_items s) (fst (fst (v_run T eqb w it s))) -> ends (fst (fst (v_run T eqb w it s))) -> gone (snd (fst (v_run T eqb w it s)))).
    { intros it. unfold v_run. destruct (next (hl_heap T (d_list s)) (hl_rows T (d_list s)) it) as [[[k|]|e] it'] eqn:E.
      - destruct (v_yield eqb w k (d_items s)); cbn [fst snd ends gone]; try contradiction. intros _ _. exact I.
      - apply next_end in E. subst it'. intros _ _. destruct w; cbn [fst snd gone]; reflexivity || exact I.
      - cbn [fst snd]. destruct w; cbn [may_yield gone]; intros H _; try contradiction; exact I. }
    assert (HB : forall n, ends (fst (fst (v_back T eqb w n s))) -> gone (snd (fst (v_back T eqb w n s)))).
    { intros [|i]; cbn [v_back]; [intros _; exact I|]. destruct (v_at T eqb w i s) as [r s']. destruct r; cbn [fst snd ends gone]; try contradiction. intros _. exact I. }
    destruct x as [w'|w' it|w' n|]; cbn [shape] in Hx; cbn [v_next].
    - destruct Hx as (-> & _). destruct w; intros H1 H2; try (apply HR; assumption); apply HB; exact H2.
    - destruct Hx as (-> & _). apply HR.
    - destruct Hx as (-> & _). intros _. apply HB.
    - intros _ _. exact I.
  Qed.
  Lemma nth_set_same l j (x y : viter) : nth_error l j = Some x -> nth_error (set_viter l j y) j = Some y.
  Proof. revert j. induction l as [|z l IH]; intros [|j] E; cbn in *; try discriminate; [reflexivity|apply IH, E]. Qed.
  Lemma nth_set_other l i j (y : viter) : i <> j -> nth_error (set_viter l i y) j = nth_error l j.
  Proof. revert i j. induction l as [|z l IH]; intros [|i] [|j] E; cbn; try reflexivity; [lia|apply IH; lia]. Qed.
  Definition gone_at j (its : list viter) : Prop := exists x, nth_error its j = Some x /\ gone x.
  Lemma gone_step o s its j : gone_at j its -> gone_at j (snd (snd (vi_step T eqb veqb o (s, its)))).
  Proof.
    intros (x & Ej & Hg). unfold gone_at. destruct o as [o|w|i]; cbn [vi_step].
    - destruct (v_do T eqb veqb o s) as [r d]. exists x. auto.
    - exists x. cbn [snd]. rewrite nth_error_app1 by (apply nth_error_Some; congruence). auto.
    - unfold getn. destruct (nth_error its i) as [y|] eqn:Ei; [|exists x; auto].
      destruct (Nat.eq_dec i j) as [->|Hn].
      + rewrite Ej in Ei. injection Ei as <-. destruct (gone_next x s Hg) as (x' & -> & Hg'). exists x'. cbn [snd]. rewrite (nth_set_same _ _ _ _ Ej). auto.
      + destruct (v_next T eqb y s) as [[r x'] s']. cbn [snd]. rewrite nth_set_other by exact Hn. exists x. auto.
  Qed.
  Lemma gone_run j ops : forall s its, gone_at j its -> gone_at j (snd (snd (vi_run T eqb veqb ops (s, its)))).
  Proof.
    induction ops as [|o ops IH]; intros s its H; [exact H|]. unfold vi_run in *. cbn [run].
    pose proof (gone_step o s its j H) as G. destruct (vi_step T eqb veqb o (s, its)) as [r [s' its']]. cbn [snd] in G.
    specialize (IH s' its' G). destruct (run (vi_step T eqb veqb) ops (s', its')) as [rs st]. exact IH.
  Qed.
  Lemma gone_stop j s its : gone_at j its -> fst (vi_step T eqb veqb (VNext j) (s, its)) = VStop.
  Proof. intros (x & Ej & Hg). cbn [vi_step]. unfold getn. rewrite Ej. destruct (gone_next x s Hg) as (x' & -> & _). reflexivity. Qed.
End Ended.
Lemma c91_ended : forall S A B K (T : hlist S A K) ltb eqb (veqb : B -> B -> bool) fref dflt a ops s0 outs st j w r st' later,
  heap_class T ltb eqb fref dflt -> Forall (vop_ok eqb) ops -> sd_new T eqb a = Ok s0 ->
  vi_run T eqb veqb ops (s0, []) = (outs, st) -> nth_error (makes ops) j = Some w ->
  vi_step T eqb veqb (VNext j) st = (r, st') -> match r with VStop | VOut (OExn _) => True | _ => False end ->
  fst (vi_step T eqb veqb (VNext j) (snd (vi_run T eqb veqb later st'))) = VStop.
Proof.
  intros S A B K T ltb eqb veqb fref dflt a ops s0 outs [s its] j w r [s' its'] later HT Ho E Er Hj En Hr.
  assert (G : gone_at j its').
  { destruct (c91_after_changes _ _ _ _ T ltb eqb veqb fref dflt a ops s0 outs s its j w HT Ho E Er Hj) as [Hy _].
    destruct (heap_class_sim T ltb eqb fref dflt HT) as (S2 & T2 & Q & HC & HS). cls HC HK.
    pose proof (new_inv T T2 Q HS ltb eqb veqb fref dflt _ _ HK a s0 E) as HI.
    destruct (run_shapes T T2 Q HS ltb eqb veqb fref dflt _ _ HK ops s0 [] [] _ HI ltac:(constructor) Ho) as (d & HI' & HF). rewrite Er in HI', HF. cbn [fst snd app] in *.
    pose proof (Forall2_nth _ _ _ j HF) as H. rewrite Hj in H. cbn [vi_step] in En, Hy. unfold getn in En, Hy. destruct (nth_error its j) as [x|] eqn:Ex; [|contradiction].
    pose proof (ends_gone T eqb w x s H) as G. destruct (v_next T eqb x s) as [[r1 x1] s1]. cbn [fst snd] in *. injection En as -> -> <-.
    exists x1. split; [exact (nth_set_same _ _ _ _ Ex)|]. apply G; [exact Hy|exact Hr]. }
  pose proof (gone_run T eqb veqb j later s' its' G) as G2. destruct (snd (vi_run T eqb veqb later (s', its'))) as [s2 its2]. apply gone_stop, G2.
Qed.

(** ** Claims that fail *)
Definition nh n := hplain (K:=nat) (total2 Nat.ltb) (total2 Nat.eqb) n.
Lemma nh_class n : 1 <= n -> heap_class (nh n) Nat.ltb Nat.eqb (fwd_plain Nat.ltb Nat.eqb) n.
Proof. apply hclass_plain, nat_total. Qed.
Definition nh_new n (l : list (nat * nat)) : sdict (heap nat * hsl nat) nat nat :=
  match sd_new (nh n) Nat.eqb (APairs l) with Ok s => s | Err _ => mksd [] ([], mkhsl [] [] [] 0 0 n) end.
(** Four keys in one internal list, which [update] splits. *)
Definition again_pre : list (vop nat nat nat) := [VDo (DSet 2 12); VDo (DSet 3 13)].
Definition again_ops : list (vop nat nat nat) :=
  [VMake Keys; VNext 0; VNext 0; VNext 0; VDo (DUpdate (APairs [(1, 21)])); VNext 0; VNext 0].
(** Four keys in two internal lists, the first of which [update] fills up. *)
Definition past_pre : list (vop nat nat nat) := [VDo (DDel 2)].
Definition past_ops : list (vop nat nat nat) := [VMake ItemsView; VNext 0; VDo (DUpdate (APairs [(0, 20)])); VNext 0; VNext 0; VNext 0].
(** Iterators of views of a dict that is emptied. *)
Definition gone_ops : list (vop nat nat nat) := [VMake ItemsView; VMake KeysViewBack; VNext 0; VNext 1; VDo DClear; VNext 0; VNext 1].

Lemma c92_repeats : ~ (forall S A B K (T : hlist S A K) ltb eqb (veqb : B -> B -> bool) fref dflt a pre ops s0 j,
  heap_class T ltb eqb fref dflt -> Forall (vop_ok eqb) (pre ++ ops) -> sd_new T eqb a = Ok s0 -> makes pre = [] ->
  keys_stay (ref_step ltb eqb veqb fref) ops (fst (snd (vr_run ltb eqb veqb fref pre (merge eqb [] (pairs_of a), [])))) ->
  distinct eqb (keys_yielded j ops (skipn (length pre) (fst (vi_run T eqb veqb (pre ++ ops) (s0, [])))))).
Proof.
  intros H. specialize (H _ _ _ _ (nh 2) Nat.ltb Nat.eqb Nat.eqb _ 2 (APairs [(0, 10); (1, 11)]) again_pre again_ops (nh_new 2 [(0, 10); (1, 11)]) 0 (nh_class 2 ltac:(lia))
    ltac:(repeat constructor) ltac:(reflexivity) ltac:(reflexivity) ltac:(vm_compute; auto)).
  replace (keys_yielded _ _ _) with [0; 1; 2; 3; 2] in H by (vm_compute; reflexivity).
  destruct H as (_ & _ & H & _). specialize (H 2 ltac:(right; left; reflexivity)). discriminate H.
Qed.
Lemma c92_skips : ~ (forall S A B K (T : hlist S A K) ltb eqb (veqb : B -> B -> bool) fref dflt a pre ops s0 j i k,
  heap_class T ltb eqb fref dflt -> Forall (vop_ok eqb) (pre ++ ops) -> sd_new T eqb a = Ok s0 -> makes pre = [] ->
  keys_stay (ref_step ltb eqb veqb fref) ops (fst (snd (vr_run ltb eqb veqb fref pre (merge eqb [] (pairs_of a), [])))) ->
  has_key eqb (fst (snd (vr_run ltb eqb veqb fref pre (merge eqb [] (pairs_of a), [])))) k ->
  nth_error (pre ++ ops) i = Some (VNext j) -> nth_error (fst (vi_run T eqb veqb (pre ++ ops) (s0, []))) i = Some VStop ->
  member eqb k (keys_yielded j ops (skipn (length pre) (fst (vi_run T eqb veqb (pre ++ ops) (s0, [])))))).
Proof.
  intros H. specialize (H _ _ _ _ (nh 3) Nat.ltb Nat.eqb Nat.eqb _ 3 (APairs [(0, 10); (1, 11); (2, 12); (3, 13); (4, 14)]) past_pre past_ops
    (nh_new 3 [(0, 10); (1, 11); (2, 12); (3, 13); (4, 14)]) 0 6 3 (nh_class 3 ltac:(lia))
    ltac:(repeat constructor) ltac:(reflexivity) ltac:(reflexivity) ltac:(vm_compute; auto)
    ltac:(exists 13, 3; split; [vm_compute; auto|reflexivity]) ltac:(reflexivity) ltac:(vm_compute; reflexivity)).
  replace (keys_yielded _ _ _) with [0; 1; 4] in H by (vm_compute; reflexivity).
  destruct H as (y & [<-|[<-|[<-|[]]]] & H); discriminate H.
Qed.
Lemma c92_key_error : ~ (forall S A B K (T : hlist S A K) ltb eqb (veqb : B -> B -> bool) fref dflt a ops s0,
  heap_class T ltb eqb fref dflt -> Forall (vop_ok eqb) ops -> sd_new T eqb a = Ok s0 ->
  ~ In KeyError (next_raised ops (fst (vi_run T eqb veqb ops (s0, []))))).
Proof.
  intros H. apply (H _ _ _ _ (nh 2) Nat.ltb Nat.eqb Nat.eqb _ 2 (APairs [(0, 10); (1, 11)]) gone_ops (nh_new 2 [(0, 10); (1, 11)]) (nh_class 2 ltac:(lia))
    ltac:(repeat constructor) ltac:(reflexivity)). vm_compute. auto.
Qed.
Lemma c92_index_error : ~ (forall S A B K (T : hlist S A K) ltb eqb (veqb : B -> B -> bool) fref dflt a ops s0,
  heap_class T ltb eqb fref dflt -> Forall (vop_ok eqb) ops -> sd_new T eqb a = Ok s0 ->
  ~ In IndexError (next_raised ops (fst (vi_run T eqb veqb ops (s0, []))))).
Proof.
  intros H. apply (H _ _ _ _ (nh 2) Nat.ltb Nat.eqb Nat.eqb _ 2 (APairs [(0, 10); (1, 11)]) gone_ops (nh_new 2 [(0, 10); (1, 11)]) (nh_class 2 ltac:(lia))
    ltac:(repeat constructor) ltac:(reflexivity)). vm_compute. auto.
Qed.

(** * Raising and inconsistent comparisons (proofs)

    Nothing here assumes that comparisons are total, transitive, or even
    deterministic between values: every lemma holds for arbitrary partial
    comparison, equality and key functions. *)
From Verif Require Import PyBase Model Spec History BaseFacts SpecFacts SliceFacts IndexFacts
  Shape CoreFacts VtFacts KeyFacts KeyLook ListSim ListFacts HistFacts.
From Coq Require Import Sorting.Permutation Sorting.Sorted.
Local Unset Implicit Arguments.

(** ** Inherited methods that rebuild the list *)
Section VtGen.
  Context {S V K : Type}.
  Variable T : vtable S V K.
  Variable Inv : S -> Prop.
  Hypothesis HT : VtOK T Inv.
  (** Exceptions that a comparison or key function can raise. *)
  Variable Raised : exn -> Prop.

  (** [_update] of an empty container: all values, or nothing and an exception
      raised by a comparison. *)
  Definition RefillGen : Prop := forall it s, Inv s -> vcont T s = [] ->
    exists r s', vt_update T it s = (r, s') /\ Inv s' /\ load (vt_get T s') = load (vt_get T s) /\
      ((r = Ok tt /\ Permutation (vcont T s') it) \/
       (exists e, r = Err e /\ Raised e /\ vcont T s' = [])).
  Hypothesis HU : RefillGen.

  Lemma delitem_slice_gen s sl : Inv s ->
    exists r s', delitem_slice T sl s = (r, s') /\ Inv s' /\ load (vt_get T s') = load (vt_get T s) /\
      ((exists l', sp_del_slice sl (vcont T s) = Ok l' /\ r = Ok tt /\ Permutation (vcont T s') l') \/
       (sp_del_slice sl (vcont T s) = Err ValueError /\ r = Err ValueError /\ s' = s) \/
       (exists e l', r = Err e /\ Raised e /\ vcont T s' = [] /\ sp_del_slice sl (vcont T s) = Ok l')).
  Proof.
    intros HI. pose proof (vo_core _ _ HT _ HI) as HC. pose proof (vlen T Inv HT _ HI) as Hl.
    unfold delitem_slice, sp_del_slice. rewrite (bind_ok _ _ _ _ _ (oncore_get T Inv HT s)). rewrite <- Hl.
    destruct (slice_indices sl (len (vt_get T s))) as [[[start stop] step]|e] eqn:Es;
      [|eexists _, s; split; [reflexivity|]; split; [exact HI|]; split; [reflexivity|];
        right; left; apply slice_indices_Err in Es as [-> _]; repeat split; reflexivity].
    rewrite (bind_lift _ _ _ _ eq_refl). cbv zeta. cbn [rbind].
    destruct (slice_indices_Ok _ _ _ _ _ Es) as (Hs0 & Hpos & Hneg).
    (* the deletion loop *)
    assert (Loop0 : exists s' l',
      forM (delitem_int T) (if (0 <? step)%Z then rev (rangez start stop step) else rangez start stop step) s = (Ok tt, s') /\
      Ok (drop_positions (rangez start stop step) 0 (vcont T s)) = Ok l' /\
      Inv s' /\ vcont T s' = l' /\ load (vt_get T s') = load (vt_get T s)).
    { assert (HB : Forall (fun i => 0 <= i < Z.of_nat (length (vcont T s)))%Z (rangez start stop step)).
      { apply Forall_forall. intros i Hi. destruct (rangez_bound _ _ _ _ Hs0 Hi) as [B1 B2].
        rewrite <- Hl. destruct (Z.lt_trichotomy step 0) as [Hn|[Hn|Hn]]; [|lia|].
        - specialize (B2 Hn). specialize (Hneg Hn). lia.
        - specialize (B1 Hn). specialize (Hpos Hn). lia. }
      destruct (Z.ltb_spec 0 step) as [Hp|Hn].
      - destruct (del_loop T Inv HT (rev (rangez start stop step)) (rangez_asc _ _ _ Hp) s HI) as (s' & H1 & H2 & H3 & H4).
        + apply Forall_rev. exact HB.
        + eexists s', _. split; [exact H1|]. split; [reflexivity|]. split; [exact H2|].
          split; [|exact H4]. rewrite H3. apply drop_ext. intros i _. apply existsb_eqb_perm.
          intros x. symmetry. apply in_rev.
      - destruct (del_loop T Inv HT (rangez start stop step) (rangez_desc start stop step ltac:(lia)) s HI HB) as (s' & H1 & H2 & H3 & H4).
        eexists s', _. split; [exact H1|]. split; [reflexivity|]. auto. }
    assert (Loop : exists r s',
      forM (delitem_int T) (if (0 <? step)%Z then rev (rangez start stop step) else rangez start stop step) s = (r, s') /\
      Inv s' /\ load (vt_get T s') = load (vt_get T s) /\
      ((exists l', Ok (drop_positions (rangez start stop step) 0 (vcont T s)) = Ok l' /\ r = Ok tt /\ Permutation (vcont T s') l') \/
       (Ok (drop_positions (rangez start stop step) 0 (vcont T s)) = Err ValueError /\ r = Err ValueError /\ s' = s) \/
       (exists e l', r = Err e /\ Raised e /\ vcont T s' = [] /\ Ok (drop_positions (rangez start stop step) 0 (vcont T s)) = Ok l'))).
    { destruct Loop0 as (s' & l' & H1 & H2 & H3 & H4 & H5). exists (Ok tt), s'. split; [exact H1|].
      split; [exact H3|]. split; [exact H5|]. left. exists l'. split; [exact H2|]. split; [reflexivity|].
      rewrite H4. reflexivity. }
    destruct ((step =? 1) && (start <? stop))%Z eqn:E1; [|exact Loop].
    apply andb_true_iff in E1 as [Ea Eb]. apply Z.eqb_eq in Ea. apply Z.ltb_lt in Eb. subst step.
    specialize (Hpos ltac:(lia)).
    destruct ((start =? 0) && (stop =? Z.of_nat (len (vt_get T s))))%Z eqn:E2.
    { apply andb_true_iff in E2 as [Ec Ed]. apply Z.eqb_eq in Ec, Ed.
      destruct (vo_clear _ _ HT s HI) as (s' & H1 & H2 & H3 & H4).
      exists (Ok tt), s'. split; [exact H1|]. split; [exact H2|]. split; [exact H4|]. left. exists [].
      split; [|rewrite H3; auto]. f_equal. rewrite drop_range by lia. subst. cbn [Z.to_nat firstn app].
      rewrite Nat2Z.id, Hl, skipn_all. reflexivity. }
    destruct (Z.leb_spec (Z.of_nat (len (vt_get T s))) (8 * (stop - start))) as [Hbig|_]; [|exact Loop].
    destruct (getitem_slice_ok _ (mkslice None (Some start) None) HC) as (c1 & G1 & T1).
    destruct (oncore_ok T Inv HT _ s _ _ HI G1 T1) as (s1 & Hs1 & HI1 & Hc1 & Hls1 & Hld1).
    unfold sp_slice in Hs1. fold (vcont T s) in Hs1. rewrite <- Hl in Hs1.
    rewrite slice_indices_to in Hs1 by lia. cbn [rbind] in Hs1.
    rewrite mapR_getz_rangez in Hs1 by lia. cbn [Z.to_nat] in Hs1.
    rewrite (bind_ok _ _ _ _ _ Hs1).
    assert (V1 : slicen (vcont T s) 0 (Z.to_nat start) = firstn (Z.to_nat start) (vcont T s)).
    { unfold slicen. cbn. rewrite Nat.sub_0_r. reflexivity. }
    rewrite V1.
    assert (More : exists s2, (if (stop <? Z.of_nat (len (vt_get T s)))%Z
                 then more <- oncore T (getitem_slice (mkslice (Some stop) None None));;
                      ret (firstn (Z.to_nat start) (vcont T s) ++ more)
                 else ret (firstn (Z.to_nat start) (vcont T s))) s1 =
               (Ok (firstn (Z.to_nat start) (vcont T s) ++ skipn (Z.to_nat stop) (vcont T s)), s2) /\
               Inv s2 /\ load (vt_get T s2) = load (vt_get T s)).
    { destruct (Z.ltb_spec stop (Z.of_nat (len (vt_get T s)))) as [Hlt|Hge].
      - destruct (getitem_slice_ok _ (mkslice (Some stop) None None) (vo_core _ _ HT _ HI1)) as (c2 & G2 & T2).
        destruct (oncore_ok T Inv HT _ s1 _ _ HI1 G2 T2) as (s2 & Hs2 & HI2 & Hc2 & Hls2 & Hld2).
        unfold sp_slice in Hs2. fold (vcont T s1) in Hs2. rewrite Hc1, <- Hl in Hs2.
        rewrite slice_indices_from in Hs2 by lia. cbn [rbind] in Hs2.
        rewrite mapR_getz_rangez in Hs2 by lia.
        rewrite (bind_ok _ _ _ _ _ Hs2). exists s2. split; [|split; [exact HI2|congruence]].
        unfold ret. f_equal. f_equal. f_equal. unfold slicen. apply firstn_all2.
        rewrite skipn_length. lia.
      - exists s1. rewrite skipn_all2 by lia. rewrite app_nil_r. auto. }
    destruct More as (s2 & Hm & HI2 & Hld2). rewrite (bind_ok _ _ _ _ _ Hm).
    destruct (vo_clear _ _ HT s2 HI2) as (s3 & H1 & H2 & H3 & H4). rewrite (bind_ok _ _ _ _ _ H1).
    destruct (HU (firstn (Z.to_nat start) (vcont T s) ++ skipn (Z.to_nat stop) (vcont T s)) s3 H2 H3)
      as (r & s4 & H5 & H6 & H7 & H8).
    exists r, s4. split; [exact H5|]. split; [exact H6|]. split; [congruence|].
    destruct H8 as [[-> H8]|(e & -> & Hr & H8)].
    - left. eexists. split; [reflexivity|]. split; [reflexivity|]. rewrite H8, drop_range by lia. reflexivity.
    - right. right. eexists e, _. repeat split; auto.
  Qed.

  Lemma reset_gen ld s : Inv s -> 1 <= ld ->
    exists r s', reset T ld s = (r, s') /\ Inv s' /\ load (vt_get T s') = ld /\
      ((r = Ok tt /\ Permutation (vcont T s') (vcont T s)) \/
       (exists e, r = Err e /\ Raised e /\ vcont T s' = [])).
  Proof.
    intros HI Hld. unfold reset. rewrite (bind_ok _ _ _ _ _ (oncore_get T Inv HT s)). cbv zeta.
    destruct (vo_clear _ _ HT s HI) as (s1 & H1 & H2 & H3 & H4). rewrite (bind_ok _ _ _ _ _ H1).
    unfold bind at 1, oncore, zoom, modify.
    set (s2 := vt_put T (set_load ld (vt_get T s1)) s1).
    assert (HI2 : Inv s2) by (apply (vo_load _ _ HT); assumption).
    assert (Hc2 : vcont T s2 = []) by (unfold vcont, s2; rewrite (vo_get_put _ _ HT); exact H3).
    destruct (HU (contents (vt_get T s)) s2 HI2 Hc2) as (r & s3 & H5 & H6 & H7 & H8).
    exists r, s3. split; [exact H5|]. split; [exact H6|]. split; [|exact H8].
    rewrite H7. unfold s2. rewrite (vo_get_put _ _ HT). reflexivity.
  Qed.

  Lemma imul_gen n s : Inv s ->
    exists r s', imul T n s = (r, s') /\ Inv s' /\ load (vt_get T s') = load (vt_get T s) /\
      ((r = Ok tt /\ Permutation (vcont T s') (sp_mul n (vcont T s))) \/
       (exists e, r = Err e /\ Raised e /\ vcont T s' = [])).
  Proof.
    intros HI. unfold imul. rewrite (bind_ok _ _ _ _ _ (oncore_get T Inv HT s)). cbv zeta.
    destruct (vo_clear _ _ HT s HI) as (s1 & H1 & H2 & H3 & H4). rewrite (bind_ok _ _ _ _ _ H1).
    destruct (HU (list_mul (contents (vt_get T s)) n) s1 H2 H3) as (r & s3 & H5 & H6 & H7 & H8).
    exists r, s3. split; [exact H5|]. split; [exact H6|]. split; [congruence|exact H8].
  Qed.
End VtGen.

(** ** Where exceptions of sorting come from *)
Lemma rbind_Err {A B} (m : res A) (k : A -> res B) e :
  rbind m k = Err e -> m = Err e \/ exists a, m = Ok a /\ k a = Err e.
Proof. destruct m; simpl; intros H; [right; eauto | left; congruence]. Qed.

Lemma mapR_Err {A B} (f : A -> res B) l e : mapR f l = Err e -> exists x, In x l /\ f x = Err e.
Proof.
  induction l as [|a t IH]; simpl; [discriminate|]. intros H.
  destruct (rbind_Err _ _ _ H) as [E|(b & E & H1)]; [eauto|].
  destruct (rbind_Err _ _ _ H1) as [E'|(b' & E' & H2)]; [|discriminate].
  destruct (IH E') as (x & Hx & Ex). eauto.
Qed.

Lemma sort_ins_Err {A} (lt : A -> A -> res bool) x l e : sort_ins lt x l = Err e ->
  exists y, In y l /\ lt x y = Err e.
Proof.
  induction l as [|a t IH]; simpl; [discriminate|]. intros H.
  destruct (rbind_Err _ _ _ H) as [E|(b & E & H1)]; [eauto|]. destruct b; [discriminate|].
  destruct (rbind_Err _ _ _ H1) as [E'|(b' & E' & H2)]; [|discriminate].
  destruct (IH E') as (y & Hy & Ey). eauto.
Qed.
Lemma sort_acc_Err {A} (lt : A -> A -> res bool) l e : forall acc, sort_acc lt acc l = Err e ->
  exists x y, lt x y = Err e.
Proof.
  induction l as [|a t IH]; simpl; [discriminate|]. intros acc H.
  destruct (rbind_Err _ _ _ H) as [E|(b & E & H1)]; [|eauto].
  destruct (sort_ins_Err _ _ _ _ E) as (y & _ & Ey). eauto.
Qed.
Lemma py_sorted_Err {A} (lt : A -> A -> res bool) l e : py_sorted lt l = Err e -> exists x y, lt x y = Err e.
Proof. apply sort_acc_Err. Qed.

Lemma py_sorted_key_Err {V K} (klt : K -> K -> res bool) (kf : V -> res K) l e :
  py_sorted_key klt kf l = Err e -> (exists v, kf v = Err e) \/ (exists x y, klt x y = Err e).
Proof.
  intros H. unfold py_sorted_key in H. destruct (rbind_Err _ _ _ H) as [E|(ks & E & H1)].
  - destruct (mapR_Err _ _ _ E) as (x & _ & Ex). eauto.
  - destruct (rbind_Err _ _ _ H1) as [E'|(b' & E' & H2)]; [|discriminate].
    destruct (py_sorted_Err _ _ _ E') as (x & y & Exy). eauto.
Qed.

(** ** SortedKeyList *)
Section KeyGen.
  Context {V K : Type}.
  Variable eq : V -> V -> res bool.
  Variables klt keq : K -> K -> res bool.
  Variable kf : V -> res K.
  Notation SKL := (skl V K).
  Notation Shape := (Shape kf).
  Notation T := (skl_vt klt kf).

  (** Exceptions raised by the key function or by [<] on keys. *)
  Definition KRaised (e : exn) : Prop := (exists v, kf v = Err e) \/ (exists x y, klt x y = Err e).
  (** The same, or by [==] on keys or values. *)
  Definition KRaised' (e : exn) : Prop :=
    KRaised e \/ (exists x y, keq x y = Err e) \/ (exists x y, eq x y = Err e).

  Lemma skl_adds_err values : forall s, Shape s ->
    exists r s' vs ws, forM (skl_add klt kf) values s = (r, s') /\ Shape s' /\ load (kc s') = load (kc s) /\
      Permutation (contents (kc s')) (contents (kc s) ++ vs) /\ values = vs ++ ws /\
      ((r = Ok tt /\ ws = []) \/ (exists e, r = Err e /\ KRaised e)).
  Proof.
    induction values as [|v t IH]; intros s Hs.
    - exists (Ok tt), s, [], []. simpl. rewrite app_nil_r. repeat split; auto.
    - cbn [forM].
      destruct (skl_add_gen kf klt v s Hs) as [(e & E & Hr)|(s1 & k & l1 & l2 & k1 & k2 & E & H1 & H2 & _ & H4 & H5 & _)].
      + rewrite (bind_err _ _ _ _ _ E). exists (Err e), s, [], (v :: t). rewrite app_nil_r.
        repeat split; auto. right. exists e. split; [reflexivity|]. unfold KRaised.
        destruct Hr as [Hr|(k & y & _ & Hr)]; eauto.
      + rewrite (bind_ok _ _ _ _ _ E).
        destruct (IH s1 H1) as (r & s' & vs & ws & E2 & G1 & G2 & G3 & G4 & G5).
        exists r, s', (v :: vs), ws. split; [exact E2|]. split; [exact G1|]. split; [congruence|].
        split; [|split; [simpl; congruence|exact G5]].
        rewrite G3, H5, H4. rewrite <- !app_assoc. simpl. apply Permutation_app_head.
        rewrite <- Permutation_middle. reflexivity.
  Qed.

  (** [update]: what can happen.  The third case is the damaged state. *)
  Lemma skl_update_gen it s : Shape s ->
    exists r s', skl_update klt kf it s = (r, s') /\ load (kc s') = load (kc s) /\
    ((r = Ok tt /\ Shape s' /\ Permutation (contents (kc s')) (contents (kc s) ++ it)) \/
     (exists e, r = Err e /\ KRaised e /\ s' = s) \/
     (exists e values, r = Err e /\ KRaised e /\ Permutation values it /\ contents (kc s) <> [] /\
        len (kc s) <= length it * 4 /\ s' = on_kc (fun c => set_lists (lists c ++ [values]) c) s) \/
     (exists e vs ws, r = Err e /\ KRaised e /\ Shape s' /\ length it * 4 < len (kc s) /\
        Permutation (contents (kc s')) (contents (kc s) ++ vs) /\ Permutation (vs ++ ws) it)).
  Proof.
    intros HS. pose proof HS as (rows & H0 & Hlen). unfold skl_update.
    destruct (py_sorted_key klt kf it) as [values|e] eqn:Esort.
    2:{ exists (Err e), s. split; [reflexivity|]. split; [reflexivity|]. right. left. exists e.
        repeat split. eapply py_sorted_key_Err; eauto. }
    destruct (py_sorted_key_Ok _ _ _ _ Esort) as [Hp (ks & Hk)].
    rewrite (bind_lift _ _ _ _ eq_refl). rewrite bind_get.
    assert (Hld : 1 <= load (kc s)) by apply (sh_load _ _ _ H0).
    destruct (is_nil (maxes (kc s))) eqn:Hnil.
    { assert (rows = []) by (eapply shape_nil; eauto). subst rows.
      assert (Hc : contents (kc s) = []) by (unfold contents; rewrite (sh_lists _ _ _ H0); reflexivity).
      destruct (shape_nil_state kf s HS Hc) as (ix & off & Es & _). rewrite Es.
      destruct (skl_fill_ok kf values _ ix off (load (kc s)) 0 Hk Hld) as (s' & H1 & H2 & H3 & H4).
      exists (Ok tt), s'. split; [exact H1|]. split; [exact H4|]. left. split; [reflexivity|]. split; [exact H2|].
      rewrite H3. exact Hp. }
    rewrite (Permutation_length Hp).
    destruct (Nat.leb_spec (len (kc s)) (length it * 4)) as [Hb|Hb].
    - unfold bind at 1, modify at 1. rewrite bind_get.
      destruct (py_sorted_key klt kf (concat (lists (kc (on_kc (fun c => set_lists (lists c ++ [values]) c) s))))) as [all|e] eqn:Eall.
      2:{ eexists (Err e), _. split; [reflexivity|]. split; [reflexivity|]. right. right. left. exists e, values.
          split; [reflexivity|]. split; [eapply py_sorted_key_Err; eauto|]. split; [exact Hp|].
          split; [|split; [exact Hb|reflexivity]].
          intros Hc. pose proof (shape0_contents_nil kf s rows H0 Hc) as ->.
          rewrite (sh_maxes _ _ _ H0) in Hnil. discriminate. }
      destruct (py_sorted_key_Ok _ _ _ _ Eall) as [Hp2 (ks2 & Hk2)].
      rewrite (bind_lift _ _ _ _ eq_refl). unfold bind at 1, skl_clear, modify. ev.
      destruct (skl_fill_ok kf all _ [] (offset (kc s)) (load (kc s)) 0 Hk2 Hld) as (s' & H1 & H2 & H3 & H4).
      exists (Ok tt), s'. split; [exact H1|]. split; [exact H4|]. left. split; [reflexivity|]. split; [exact H2|].
      rewrite H3, Hp2. cbn. rewrite concat_app. cbn [concat]. rewrite app_nil_r.
      apply Permutation_app_head. exact Hp.
    - destruct (skl_adds_err values s HS) as (r & s' & vs & ws & E & G1 & G2 & G3 & G4 & G5).
      exists r, s'. split; [exact E|]. split; [exact G2|].
      destruct G5 as [[-> ->]|(e & -> & Hr)].
      + left. split; [reflexivity|]. split; [exact G1|]. rewrite G3. apply Permutation_app_head.
        rewrite app_nil_r in G4. rewrite <- G4. exact Hp.
      + right. right. right. exists e, vs, ws. split; [reflexivity|]. split; [exact Hr|]. split; [exact G1|].
        split; [exact Hb|]. split; [exact G3|]. rewrite <- G4. exact Hp.
  Qed.

  Lemma skl_refill_gen : RefillGen T Shape KRaised.
  Proof.
    intros it s HS Hc. destruct (skl_update_gen it s HS) as (r & s' & E & Hld & H).
    exists r, s'. split; [exact E|].
    destruct H as [(-> & H1 & H2)|[(e & -> & Hr & ->)|[(e & values & -> & _ & _ & H & _)|(e & vs & ws & -> & Hr & H1 & H & _)]]].
    - split; [exact H1|]. split; [exact Hld|]. left. split; [reflexivity|].
      change (vcont T s') with (contents (kc s')). change (vcont T s) with (contents (kc s)) in Hc.
      rewrite Hc in H2. exact H2.
    - split; [exact HS|]. split; [exact Hld|]. right. exists e. auto.
    - contradict H. exact Hc.
    - exfalso. destruct HS as (rows & _ & Hl). change (contents (kc s) = []) in Hc.
      rewrite Hc in Hl. simpl in Hl. lia.
  Qed.

  (** ** Lookups *)
  Lemma bisect_left_gen a k : bisect_left klt a k = bs (fun y => notR (klt y k)) a.
  Proof. apply bisect_left_bs. Qed.

  Lemma bs_left_Err a k e : bisect_left klt a k = Err e -> KRaised e.
  Proof.
    rewrite bisect_left_bs. intros H. destruct (bs_Err _ _ _ H) as (y & _ & Hy). right.
    exists y, k. unfold notR in Hy. destruct (rbind_Err _ _ _ Hy) as [E|(b & _ & E)]; [exact E|discriminate].
  Qed.
  Lemma bs_right_Err a k e : bisect_right klt a k = Err e -> KRaised e.
  Proof.
    rewrite bisect_right_bs. intros H. destruct (bs_Err _ _ _ H) as (y & _ & Hy). right. eauto.
  Qed.

  Lemma scan_Err key v l e : scan eq keq kf key v l = Err e -> KRaised' e.
  Proof.
    induction l as [|x t IH]; simpl; [discriminate|]. intros H.
    destruct (rbind_Err _ _ _ H) as [E|(k & E & H1)]; [left; left; eauto|].
    destruct (rbind_Err _ _ _ H1) as [E1|(b & E1 & H2)]; [right; left; eauto|].
    destruct (negb b); [discriminate|].
    destruct (rbind_Err _ _ _ H2) as [E2|(f & E2 & H3)]; [right; right; eauto|].
    destruct f; [discriminate|].
    destruct (rbind_Err _ _ _ H3) as [E3|(g & E3 & H4)]; [auto|discriminate].
  Qed.
  Lemma scan_Some key v l d : scan eq keq kf key v l = Ok (Some d) ->
    exists a x b, l = a ++ x :: b /\ length a = d /\ eq x v = Ok true.
  Proof.
    revert d. induction l as [|x t IH]; intros d; simpl; [discriminate|]. intros H.
    destruct (rbind_Ok _ _ _ H) as (k & E & H1).
    destruct (rbind_Ok _ _ _ H1) as (b & E1 & H2).
    destruct (negb b); [discriminate|].
    destruct (rbind_Ok _ _ _ H2) as (f & E2 & H3).
    destruct f; [injection H3 as <-; exists [], x, t; auto|].
    destruct (rbind_Ok _ _ _ H3) as (g & E3 & H4). destruct g as [d'|]; [|discriminate].
    injection H4 as <-. destruct (IH d' E3) as (a & y & c & -> & Ha & He).
    exists (x :: a), y, c. simpl. auto.
  Qed.
  Lemma cscan_Err key v l e : forall n, cscan eq keq kf key v n l = Err e -> KRaised' e.
  Proof.
    induction l as [|x t IH]; simpl; [discriminate|]. intros n H.
    destruct (rbind_Err _ _ _ H) as [E|(k & E & H1)]; [left; left; eauto|].
    destruct (rbind_Err _ _ _ H1) as [E1|(b & E1 & H2)]; [right; left; eauto|].
    destruct (negb b); [discriminate|].
    destruct (rbind_Err _ _ _ H2) as [E2|(f & E2 & H3)]; [right; right; eauto|]. eauto.
  Qed.
  Lemma iscan_Err key v start stop l e : forall j, iscan eq keq kf key v start stop j l = Err e ->
    KRaised' e \/ e = ValueError.
  Proof.
    induction l as [|x t IH]; simpl; intros j H; [right; congruence|].
    destruct (rbind_Err _ _ _ H) as [E|(k & E & H1)]; [left; left; left; eauto|].
    destruct (rbind_Err _ _ _ H1) as [E1|(b & E1 & H2)]; [left; right; left; eauto|].
    destruct (negb b); [right; congruence|].
    destruct (rbind_Err _ _ _ H2) as [E2|(f & E2 & H3)]; [left; right; right; eauto|].
    destruct f; [|eauto]. destruct ((start <=? Z.of_nat j)%Z && (Z.of_nat j <=? stop)%Z)%bool; [discriminate|].
    destruct (stop <? Z.of_nat j)%Z; [right; congruence|eauto].
  Qed.

  Lemma shape_search_left k s pos : Shape s -> bisect_left klt (maxes (kc s)) k = Ok pos ->
    pos <> length (maxes (kc s)) ->
    exists ks l, getn (keys s) pos = Ok ks /\ getn (lists (kc s)) pos = Ok l /\ length ks = length l /\
      forall idx, bisect_left klt ks k = Ok idx -> exists j, Locate (lists (kc s)) pos idx j.
  Proof.
    intros (rows & H0 & _) H Hn. rewrite bisect_left_bs in H.
    destruct (search_gen kf _ s rows pos H0 H Hn) as (ks & l & G1 & G2 & G3 & G4).
    exists ks, l. repeat split; auto. intros idx Hi. rewrite bisect_left_bs in Hi. eauto.
  Qed.
  Lemma shape_search_right k s pos : Shape s -> bisect_right klt (maxes (kc s)) k = Ok pos ->
    pos <> length (maxes (kc s)) ->
    exists ks l, getn (keys s) pos = Ok ks /\ getn (lists (kc s)) pos = Ok l /\ length ks = length l /\
      forall idx, bisect_right klt ks k = Ok idx -> exists j, Locate (lists (kc s)) pos idx j.
  Proof.
    intros (rows & H0 & _) H Hn. rewrite bisect_right_bs in H.
    destruct (search_gen kf _ s rows pos H0 H Hn) as (ks & l & G1 & G2 & G3 & G4).
    exists ks, l. repeat split; auto. intros idx Hi. rewrite bisect_right_bs in Hi. eauto.
  Qed.

  Lemma skl_find_gen v s : Shape s ->
    (exists e, skl_find eq klt keq kf v s = (Err e, s) /\ KRaised' e) \/
    skl_find eq klt keq kf v s = (Ok None, s) \/
    (exists p i a x b, skl_find eq klt keq kf v s = (Ok (Some (p, i)), s) /\ eq x v = Ok true /\
       contents (kc s) = a ++ x :: b /\ Locate (lists (kc s)) p i (length a)).
  Proof.
    intros HS. unfold skl_find. rewrite bind_get.
    destruct (is_nil (maxes (kc s))); [right; left; reflexivity|].
    destruct (kf v) as [k|e] eqn:Ek; [rewrite (bind_lift _ _ _ _ eq_refl)|left; exists e; split; [reflexivity|left; left; eauto]].
    destruct (bisect_left klt (maxes (kc s)) k) as [pos|e] eqn:Ep;
      [rewrite (bind_lift _ _ _ _ eq_refl)|left; exists e; split; [reflexivity|left; eapply bs_left_Err; eauto]].
    destruct (Nat.eqb_spec pos (length (maxes (kc s)))) as [_|Hn]; [right; left; reflexivity|].
    destruct (shape_search_left k s pos HS Ep Hn) as (ks & l & G1 & G2 & G3 & G4).
    rewrite (bind_lift _ _ _ _ G1).
    destruct (bisect_left klt ks k) as [idx|e] eqn:Ei;
      [rewrite (bind_lift _ _ _ _ eq_refl)|left; exists e; split; [reflexivity|left; eapply bs_left_Err; eauto]].
    destruct (G4 idx eq_refl) as [j HL]. destruct HS as (rows & H0 & Hlen). rewrite G3.
    destruct (scan_loop_ok eq keq kf s rows k v H0 (scan_fuel s) pos idx j l HL G2 (scan_fuel_ok kf s rows j H0))
      as [(e & E1 & E2)|[[E1 E2]|(d & p' & i' & E1 & E2 & HL')]]; unfold liftr; rewrite E2.
    - left. exists e. split; [reflexivity|]. eapply scan_Err; eauto.
    - right. left. reflexivity.
    - right. right. destruct (scan_Some _ _ _ _ E1) as (a & x & b & E & Ha & Hx).
      exists p', i', (firstn j (contents (kc s)) ++ a), x, b. split; [reflexivity|]. split; [exact Hx|].
      destruct HL as (X & lx & Y & EX & HX & Hi & Hj).
      assert (Hj' : j <= length (contents (kc s))).
      { unfold contents. rewrite EX, concat_app, app_length. simpl. rewrite app_length. lia. }
      split.
      + rewrite <- app_assoc, <- E. symmetry. apply firstn_skipn.
      + rewrite app_length, firstn_length, Ha. replace (Nat.min j (length (contents (kc s)))) with j by lia. exact HL'.
  Qed.

  Lemma skl_contains_gen v s : Shape s -> exists r, skl_contains eq klt keq kf v s = (r, s) /\
    forall e, r = Err e -> KRaised' e.
  Proof.
    intros HS. unfold skl_contains.
    destruct (skl_find_gen v s HS) as [(e & E & Hr)|[E|(p & i & a & x & b & E & _)]].
    - rewrite (bind_err _ _ _ _ _ E). exists (Err e). split; [reflexivity|]. congruence.
    - rewrite (bind_ok _ _ _ _ _ E). eexists. split; [reflexivity|]. discriminate.
    - rewrite (bind_ok _ _ _ _ _ E). eexists. split; [reflexivity|]. discriminate.
  Qed.

  (** [discard] and [remove]: unchanged on exceptions, otherwise at most one
      value that compared equal is gone. *)
  Lemma skl_discard_gen v s : Shape s ->
    (exists e, skl_discard eq klt keq kf v s = (Err e, s) /\ KRaised' e) \/
    skl_discard eq klt keq kf v s = (Ok tt, s) \/
    (exists s' a x b, skl_discard eq klt keq kf v s = (Ok tt, s') /\ Shape s' /\ load (kc s') = load (kc s) /\
       contents (kc s) = a ++ x :: b /\ contents (kc s') = a ++ b /\ eq x v = Ok true).
  Proof.
    intros HS. unfold skl_discard.
    destruct (skl_find_gen v s HS) as [(e & E & Hr)|[E|(p & i & a & x & b & E & Hx & Hc & HL)]].
    - rewrite (bind_err _ _ _ _ _ E). left. eauto.
    - rewrite (bind_ok _ _ _ _ _ E). right. left. reflexivity.
    - rewrite (bind_ok _ _ _ _ _ E). right. right. cbn [fst snd].
      destruct (vo_delete _ _ (skl_vt_ok klt kf) s a x b p i HS Hc HL) as (s' & H1 & H2 & H3 & H4).
      exists s', a, x, b. repeat split; auto.
  Qed.
  Lemma skl_remove_gen v s : Shape s ->
    (exists e, skl_remove eq klt keq kf v s = (Err e, s) /\ (KRaised' e \/ e = ValueError)) \/
    (exists s' a x b, skl_remove eq klt keq kf v s = (Ok tt, s') /\ Shape s' /\ load (kc s') = load (kc s) /\
       contents (kc s) = a ++ x :: b /\ contents (kc s') = a ++ b /\ eq x v = Ok true).
  Proof.
    intros HS. unfold skl_remove.
    destruct (skl_find_gen v s HS) as [(e & E & Hr)|[E|(p & i & a & x & b & E & Hx & Hc & HL)]].
    - rewrite (bind_err _ _ _ _ _ E). left. eauto.
    - rewrite (bind_ok _ _ _ _ _ E). left. exists ValueError. split; [reflexivity|auto].
    - rewrite (bind_ok _ _ _ _ _ E). right. cbn [fst snd].
      destruct (vo_delete _ _ (skl_vt_ok klt kf) s a x b p i HS Hc HL) as (s' & H1 & H2 & H3 & H4).
      exists s', a, x, b. repeat split; auto.
  Qed.

  (** Queries: at most the positional index is rebuilt, and exceptions come from
      comparisons, equality or the key function (or are documented). *)
  Lemma bisect_key_left_gen k s : Shape s ->
    exists r s', skl_bisect_key_left klt kf k s = (r, s') /\ ktouch s s' /\ forall e, r = Err e -> KRaised e.
  Proof.
    intros HS. pose proof (ktouch_refl kf s HS) as HR. unfold skl_bisect_key_left. rewrite bind_get.
    destruct (is_nil (maxes (kc s))); [eexists _, s; repeat split; auto; try apply HR; discriminate|].
    destruct (bisect_left klt (maxes (kc s)) k) as [pos|e] eqn:Ep;
      [rewrite (bind_lift _ _ _ _ eq_refl)|exists (Err e), s; split; [reflexivity|split; [exact HR|]]; intros e' [= <-]; eapply bs_left_Err; eauto].
    destruct (Nat.eqb_spec pos (length (maxes (kc s)))) as [_|Hn]; [eexists _, s; repeat split; auto; try apply HR; discriminate|].
    destruct (shape_search_left k s pos HS Ep Hn) as (ks & l & G1 & G2 & G3 & G4).
    rewrite (bind_lift _ _ _ _ G1).
    destruct (bisect_left klt ks k) as [idx|e] eqn:Ei;
      [rewrite (bind_lift _ _ _ _ eq_refl)|exists (Err e), s; split; [reflexivity|split; [exact HR|]]; intros e' [= <-]; eapply bs_left_Err; eauto].
    destruct (G4 idx eq_refl) as [j HL].
    destruct (kloc_ok klt kf s pos idx j HS (locate_bnd _ _ _ _ HL)) as (s' & E & Ht).
    exists (Ok j), s'. split; [exact E|]. split; [exact Ht|]. discriminate.
  Qed.
  Lemma bisect_key_right_gen k s : Shape s ->
    exists r s', skl_bisect_key_right klt kf k s = (r, s') /\ ktouch s s' /\ forall e, r = Err e -> KRaised e.
  Proof.
    intros HS. pose proof (ktouch_refl kf s HS) as HR. unfold skl_bisect_key_right. rewrite bind_get.
    destruct (is_nil (maxes (kc s))); [eexists _, s; repeat split; auto; try apply HR; discriminate|].
    destruct (bisect_right klt (maxes (kc s)) k) as [pos|e] eqn:Ep;
      [rewrite (bind_lift _ _ _ _ eq_refl)|exists (Err e), s; split; [reflexivity|split; [exact HR|]]; intros e' [= <-]; eapply bs_right_Err; eauto].
    destruct (Nat.eqb_spec pos (length (maxes (kc s)))) as [_|Hn]; [eexists _, s; repeat split; auto; try apply HR; discriminate|].
    destruct (shape_search_right k s pos HS Ep Hn) as (ks & l & G1 & G2 & G3 & G4).
    rewrite (bind_lift _ _ _ _ G1).
    destruct (bisect_right klt ks k) as [idx|e] eqn:Ei;
      [rewrite (bind_lift _ _ _ _ eq_refl)|exists (Err e), s; split; [reflexivity|split; [exact HR|]]; intros e' [= <-]; eapply bs_right_Err; eauto].
    destruct (G4 idx eq_refl) as [j HL].
    destruct (kloc_ok klt kf s pos idx j HS (locate_bnd _ _ _ _ HL)) as (s' & E & Ht).
    exists (Ok j), s'. split; [exact E|]. split; [exact Ht|]. discriminate.
  Qed.
  Lemma skl_bisect_left_gen v s : Shape s ->
    exists r s', skl_bisect_left klt kf v s = (r, s') /\ ktouch s s' /\ forall e, r = Err e -> KRaised e.
  Proof.
    intros HS. unfold skl_bisect_left. destruct (kf v) as [k|e] eqn:Ek.
    - rewrite (bind_lift _ _ _ _ eq_refl). apply bisect_key_left_gen. exact HS.
    - exists (Err e), s. split; [reflexivity|]. split; [eapply ktouch_refl; eauto|]. intros e' [= <-]. left. eauto.
  Qed.
  Lemma skl_bisect_right_gen v s : Shape s ->
    exists r s', skl_bisect_right klt kf v s = (r, s') /\ ktouch s s' /\ forall e, r = Err e -> KRaised e.
  Proof.
    intros HS. unfold skl_bisect_right. destruct (kf v) as [k|e] eqn:Ek.
    - rewrite (bind_lift _ _ _ _ eq_refl). apply bisect_key_right_gen. exact HS.
    - exists (Err e), s. split; [reflexivity|]. split; [eapply ktouch_refl; eauto|]. intros e' [= <-]. left. eauto.
  Qed.

  Lemma skl_count_gen v s : Shape s ->
    exists r, skl_count eq klt keq kf v s = (r, s) /\ forall e, r = Err e -> KRaised' e.
  Proof.
    intros HS. unfold skl_count. rewrite bind_get.
    destruct (is_nil (maxes (kc s))); [eexists; split; [reflexivity|discriminate]|].
    destruct (kf v) as [k|e] eqn:Ek; [rewrite (bind_lift _ _ _ _ eq_refl)|
      exists (Err e); split; [reflexivity|intros e' [= <-]; left; left; eauto]].
    destruct (bisect_left klt (maxes (kc s)) k) as [pos|e] eqn:Ep;
      [rewrite (bind_lift _ _ _ _ eq_refl)|exists (Err e); split; [reflexivity|]; intros e' [= <-]; left; eapply bs_left_Err; eauto].
    destruct (Nat.eqb_spec pos (length (maxes (kc s)))) as [_|Hn]; [eexists; split; [reflexivity|discriminate]|].
    destruct (shape_search_left k s pos HS Ep Hn) as (ks & l & G1 & G2 & G3 & G4).
    rewrite (bind_lift _ _ _ _ G1).
    destruct (bisect_left klt ks k) as [idx|e] eqn:Ei;
      [rewrite (bind_lift _ _ _ _ eq_refl)|exists (Err e); split; [reflexivity|]; intros e' [= <-]; left; eapply bs_left_Err; eauto].
    destruct (G4 idx eq_refl) as [j HL]. destruct HS as (rows & H0 & Hlen). rewrite G3.
    unfold liftr. rewrite (count_loop_ok eq keq kf s rows k v H0 (scan_fuel s) pos idx j l 0 HL G2 (scan_fuel_ok kf s rows j H0)).
    eexists. split; [reflexivity|]. intros e. apply cscan_Err.
  Qed.

  Lemma skl_index_gen v start stop s : Shape s ->
    exists r s', skl_index eq klt keq kf v start stop s = (r, s') /\ ktouch s s' /\
      forall e, r = Err e -> KRaised' e \/ e = ValueError.
  Proof.
    intros HS. pose proof (ktouch_refl kf s HS) as HR. unfold skl_index. rewrite bind_get.
    assert (VE : exists r s', (@raise SKL nat ValueError) s = (r, s') /\ ktouch s s' /\
      forall e, r = Err e -> KRaised' e \/ e = ValueError).
    { exists (Err ValueError), s. split; [reflexivity|]. split; [exact HR|]. intros e [= <-]. auto. }
    destruct (len (kc s) =? 0); [exact VE|]. cbv zeta.
    destruct (index_stop stop (Z.of_nat (len (kc s))) <=? index_start start (Z.of_nat (len (kc s))))%Z; [exact VE|].
    destruct (kf v) as [k|e] eqn:Ek; [rewrite (bind_lift _ _ _ _ eq_refl)|
      exists (Err e), s; split; [reflexivity|]; split; [exact HR|]; intros e' [= <-]; left; left; left; eauto].
    destruct (bisect_left klt (maxes (kc s)) k) as [pos|e] eqn:Ep;
      [rewrite (bind_lift _ _ _ _ eq_refl)|exists (Err e), s; split; [reflexivity|]; split; [exact HR|]; intros e' [= <-]; left; left; eapply bs_left_Err; eauto].
    destruct (Nat.eqb_spec pos (length (maxes (kc s)))) as [_|Hn]; [exact VE|].
    destruct (shape_search_left k s pos HS Ep Hn) as (ks & l & G1 & G2 & G3 & G4).
    rewrite (bind_lift _ _ _ _ G1).
    destruct (bisect_left klt ks k) as [idx|e] eqn:Ei;
      [rewrite (bind_lift _ _ _ _ eq_refl)|exists (Err e), s; split; [reflexivity|]; split; [exact HR|]; intros e' [= <-]; left; left; eapply bs_left_Err; eauto].
    destruct (G4 idx eq_refl) as [j HL]. pose proof HS as (rows & H0 & Hlen). rewrite G3.
    destruct (index_loop_ok eq klt keq kf rows k v (index_start start (Z.of_nat (len (kc s))))
       (index_stop stop (Z.of_nat (len (kc s))) - 1) (scan_fuel s) s pos idx j l HS H0 HL G2 (scan_fuel_ok kf s rows j H0))
      as (s' & E & Ht).
    eexists _, s'. split; [exact E|]. split; [exact Ht|]. intros e. apply iscan_Err.
  Qed.

  Lemma bnd_end_gen s rows : Shape0 kf s rows -> is_nil (maxes (kc s)) = false ->
    exists l ks, getn (keys s) (length (maxes (kc s)) - 1) = Ok ks /\
      getn (lists (kc s)) (length (maxes (kc s)) - 1) = Ok l /\ length ks = length l /\
      Bnd (lists (kc s)) (length (maxes (kc s)) - 1) (length l) (length (contents (kc s))).
  Proof.
    intros H En. rewrite (sh_maxes _ _ _ H) in *. rewrite map_length.
    destruct rows as [|r0 rows0]; [discriminate|].
    destruct (exists_last (l := r0 :: rows0)) as (R & r & E); [discriminate|]. rewrite E in H |- *.
    exists (r_l r), (r_k r). rewrite app_length. cbn [length].
    replace (length R + 1 - 1) with (length R) by lia.
    split; [rewrite (sh_keys _ _ _ H); apply getn_mid|].
    split; [rewrite (sh_lists _ _ _ H); apply getn_mid|].
    assert (Hr : row_ok kf r).
    { pose proof (sh_rows _ _ _ H) as HR. rewrite Forall_app in HR. destruct HR as [_ HR]. inversion HR; assumption. }
    split; [apply (row_ok_len _ _ Hr)|].
    exists (map r_l R), (r_l r), []. split; [rewrite (sh_lists _ _ _ H), map_app; reflexivity|].
    split; [apply map_length|]. split; [lia|].
    unfold contents. rewrite (sh_lists _ _ _ H), map_app, concat_app. cbn. rewrite app_nil_r, app_length. reflexivity.
  Qed.

  Lemma irange_key_gen mn mx imin imax reverse s : Shape s ->
    exists r, skl_irange_key klt mn mx imin imax reverse s = (r, s) /\ forall e, r = Err e -> KRaised e.
  Proof.
    intros HS. unfold skl_irange_key. rewrite bind_get. cbv zeta.
    destruct (is_nil (maxes (kc s))) eqn:Hnil; [eexists; split; [reflexivity|discriminate]|].
    pose proof HS as (rows & H0 & Hlen).
    destruct (bnd_end_gen s rows H0 Hnil) as (le & kse & Ge1 & Ge2 & Ge3 & HBe).
    assert (Hmn : (exists e, (match mn with
             | None => ret (Some (0, 0))
             | Some m =>
                 min_pos <- liftr ((if imin then bisect_left klt else bisect_right klt) (maxes (kc s)) m) ;;
                 if min_pos =? length (maxes (kc s)) then ret None
                 else
                   l <- liftr (getn (keys s) min_pos) ;;
                   min_idx <- liftr ((if imin then bisect_left klt else bisect_right klt) l m) ;;
                   ret (Some (min_pos, min_idx))
             end) s = (Err e, s) /\ KRaised e) \/
       (exists o, (match mn with
             | None => ret (Some (0, 0))
             | Some m =>
                 min_pos <- liftr ((if imin then bisect_left klt else bisect_right klt) (maxes (kc s)) m) ;;
                 if min_pos =? length (maxes (kc s)) then ret None
                 else
                   l <- liftr (getn (keys s) min_pos) ;;
                   min_idx <- liftr ((if imin then bisect_left klt else bisect_right klt) l m) ;;
                   ret (Some (min_pos, min_idx))
             end) s = (Ok o, s) /\
          match o with None => True | Some (p, i) => exists j, Bnd (lists (kc s)) p i j end)).
    { destruct mn as [m|].
      2:{ right. exists (Some (0, 0)). split; [reflexivity|]. exists 0.
          rewrite (sh_lists _ _ _ H0). rewrite (sh_maxes _ _ _ H0) in Hnil.
          destruct rows as [|r rows]; [discriminate|]. exists [], (r_l r), (map r_l rows). simpl. repeat split; lia. }
      destruct imin.
      - destruct (bisect_left klt (maxes (kc s)) m) as [pos|e] eqn:Ep;
          [rewrite (bind_lift _ _ _ _ eq_refl)|left; exists e; split; [reflexivity|]; eapply bs_left_Err; eauto].
        destruct (Nat.eqb_spec pos (length (maxes (kc s)))) as [_|Hn]; [right; exists None; split; auto|].
        destruct (shape_search_left m s pos HS Ep Hn) as (ks & l & G1 & G2 & G3 & G4).
        rewrite (bind_lift _ _ _ _ G1).
        destruct (bisect_left klt ks m) as [idx|e] eqn:Ei;
          [rewrite (bind_lift _ _ _ _ eq_refl)|left; exists e; split; [reflexivity|]; eapply bs_left_Err; eauto].
        destruct (G4 idx eq_refl) as [j HL]. right. exists (Some (pos, idx)). split; [reflexivity|].
        exists j. apply locate_bnd; exact HL.
      - destruct (bisect_right klt (maxes (kc s)) m) as [pos|e] eqn:Ep;
          [rewrite (bind_lift _ _ _ _ eq_refl)|left; exists e; split; [reflexivity|]; eapply bs_right_Err; eauto].
        destruct (Nat.eqb_spec pos (length (maxes (kc s)))) as [_|Hn]; [right; exists None; split; auto|].
        destruct (shape_search_right m s pos HS Ep Hn) as (ks & l & G1 & G2 & G3 & G4).
        rewrite (bind_lift _ _ _ _ G1).
        destruct (bisect_right klt ks m) as [idx|e] eqn:Ei;
          [rewrite (bind_lift _ _ _ _ eq_refl)|left; exists e; split; [reflexivity|]; eapply bs_right_Err; eauto].
        destruct (G4 idx eq_refl) as [j HL]. right. exists (Some (pos, idx)). split; [reflexivity|].
        exists j. apply locate_bnd; exact HL. }
    destruct Hmn as [(e & E & Hr)|(o & E & Ho)].
    { rewrite (bind_err _ _ _ _ _ E). exists (Err e). split; [reflexivity|]. intros e' [= <-]. exact Hr. }
    rewrite (bind_ok _ _ _ _ _ E). destruct o as [[p i]|]; [|eexists; split; [reflexivity|discriminate]].
    destruct Ho as [j HB].
    assert (Fin : forall m : M SKL (nat * nat),
       (exists e, m s = (Err e, s) /\ KRaised e) \/
       (exists q, m s = (Ok q, s) /\ exists j', Bnd (lists (kc s)) (fst q) (snd q) j') ->
       exists r, (x <- m ;; liftr (islice_pairs (lists (kc s)) p i (fst x) (snd x) reverse)) s = (r, s) /\
         forall e, r = Err e -> KRaised e).
    { intros m [(e & Em & Hr)|(q & Em & j' & HB')].
      - rewrite (bind_err _ _ _ _ _ Em). exists (Err e). split; [reflexivity|]. intros e' [= <-]. exact Hr.
      - rewrite (bind_ok _ _ _ _ _ Em). unfold liftr. rewrite (islice_pairs_ok _ _ _ _ _ _ _ reverse HB HB').
        eexists. split; [reflexivity|]. discriminate. }
    apply Fin. clear Fin.
    destruct mx as [m|].
    2:{ right. rewrite (bind_lift _ _ _ _ Ge1). eexists. split; [reflexivity|]. cbn [fst snd]. rewrite Ge3. eauto. }
    destruct imax.
    - destruct (bisect_right klt (maxes (kc s)) m) as [pos|e] eqn:Ep;
        [rewrite (bind_lift _ _ _ _ eq_refl)|left; exists e; split; [reflexivity|]; eapply bs_right_Err; eauto].
      destruct (Nat.eqb_spec pos (length (maxes (kc s)))) as [->|Hn].
      { right. rewrite (bind_lift _ _ _ _ Ge1). eexists. split; [reflexivity|]. cbn [fst snd]. rewrite Ge3. eauto. }
      destruct (shape_search_right m s pos HS Ep Hn) as (ks & l & G1 & G2 & G3 & G4).
      rewrite (bind_lift _ _ _ _ G1).
      destruct (bisect_right klt ks m) as [idx|e] eqn:Ei;
        [rewrite (bind_lift _ _ _ _ eq_refl)|left; exists e; split; [reflexivity|]; eapply bs_right_Err; eauto].
      destruct (G4 idx eq_refl) as [j' HL]. right. eexists. split; [reflexivity|]. cbn [fst snd].
      exists j'. apply locate_bnd; exact HL.
    - destruct (bisect_left klt (maxes (kc s)) m) as [pos|e] eqn:Ep;
        [rewrite (bind_lift _ _ _ _ eq_refl)|left; exists e; split; [reflexivity|]; eapply bs_left_Err; eauto].
      destruct (Nat.eqb_spec pos (length (maxes (kc s)))) as [->|Hn].
      { right. rewrite (bind_lift _ _ _ _ Ge1). eexists. split; [reflexivity|]. cbn [fst snd]. rewrite Ge3. eauto. }
      destruct (shape_search_left m s pos HS Ep Hn) as (ks & l & G1 & G2 & G3 & G4).
      rewrite (bind_lift _ _ _ _ G1).
      destruct (bisect_left klt ks m) as [idx|e] eqn:Ei;
        [rewrite (bind_lift _ _ _ _ eq_refl)|left; exists e; split; [reflexivity|]; eapply bs_left_Err; eauto].
      destruct (G4 idx eq_refl) as [j' HL]. right. eexists. split; [reflexivity|]. cbn [fst snd].
      exists j'. apply locate_bnd; exact HL.
  Qed.

  Lemma irange_gen mn mx imin imax reverse s : Shape s ->
    exists r, skl_irange klt kf mn mx imin imax reverse s = (r, s) /\ forall e, r = Err e -> KRaised e.
  Proof.
    intros HS. unfold skl_irange.
    assert (KO : forall o e, key_opt kf o = Err e -> KRaised e).
    { intros [v|] e; simpl; [|discriminate]. intros H. destruct (rbind_Err _ _ _ H) as [E|(k & _ & E)]; [left; eauto|discriminate]. }
    destruct (key_opt kf mn) as [a|e] eqn:E1; [rewrite (bind_lift _ _ _ _ eq_refl)|
      exists (Err e); split; [reflexivity|]; intros e' [= <-]; eauto].
    destruct (key_opt kf mx) as [b|e] eqn:E2; [rewrite (bind_lift _ _ _ _ eq_refl)|
      exists (Err e); split; [reflexivity|]; intros e' [= <-]; eauto].
    apply irange_key_gen. exact HS.
  Qed.

  Lemma skl_new_gen dflt l : 1 <= dflt ->
    (exists s, skl_new klt kf dflt l = Ok s /\ Shape s /\ load (kc s) = dflt /\ Permutation (contents (kc s)) l) \/
    (exists e, skl_new klt kf dflt l = Err e /\ KRaised e).
  Proof.
    intros Hd. unfold skl_new.
    destruct (skl_refill_gen l (skl_empty dflt)) as (r & s' & E & H1 & H2 & H3).
    - apply shape_empty. exact Hd.
    - reflexivity.
    - cbn [skl_vt vt_update] in E. rewrite E.
      destruct H3 as [[-> H3]|(e & -> & Hr & _)].
      + left. exists s'. split; [reflexivity|]. split; [exact H1|]. split; [exact H2|exact H3].
      + right. exists e. auto.
  Qed.
End KeyGen.

(** ** SortedList *)
Section ListGen.
  Context {V : Type}.
  Variables lt eq : V -> V -> res bool.
  Notation SL := (core V V).
  Notation T := (sl_vt lt).

  Definition LRaised (e : exn) : Prop := exists x y, lt x y = Err e.
  Definition LRaised' (e : exn) : Prop := LRaised e \/ exists x y, eq x y = Err e.

  Lemma kraised_l e : KRaised lt ident e -> LRaised e.
  Proof. intros [(v & H)|H]; [discriminate|exact H]. Qed.

  Lemma sl_adds_err values (c : SL) : LShape c ->
    exists r c' vs ws, forM (sl_add lt) values c = (r, c') /\ LShape c' /\ load c' = load c /\
      Permutation (contents c') (contents c ++ vs) /\ values = vs ++ ws /\
      ((r = Ok tt /\ ws = []) \/ (exists e, r = Err e /\ LRaised e)).
  Proof.
    intros HS. destruct (skl_adds_err lt ident values (embed c) HS) as (r & s' & vs & ws & E & H1 & H2 & H3 & H4 & H5).
    pose proof (sim_adds lt values c) as S. unfold SimAt in S. rewrite E in S. injection S as S1 S2.
    exists r, (snd (forM (sl_add lt) values c)), vs, ws. rewrite S2 in H1, H2, H3. cbn [kc embed] in H2, H3.
    split; [rewrite S1; apply surjective_pairing|]. repeat split; auto.
    destruct H5 as [H5|(e & -> & Hr)]; [auto|]. right. exists e. split; [reflexivity|]. apply kraised_l. exact Hr.
  Qed.

  Lemma sl_update_gen it (c : SL) : LShape c ->
    exists r c', sl_update lt it c = (r, c') /\ load c' = load c /\
    ((r = Ok tt /\ LShape c' /\ Permutation (contents c') (contents c ++ it)) \/
     (exists e, r = Err e /\ LRaised e /\ c' = c) \/
     (exists e values, r = Err e /\ LRaised e /\ Permutation values it /\ contents c <> [] /\
        len c <= length it * 4 /\ c' = set_lists (lists c ++ [values]) c) \/
     (exists e vs ws, r = Err e /\ LRaised e /\ LShape c' /\ length it * 4 < len c /\
        Permutation (contents c') (contents c ++ vs) /\ Permutation (vs ++ ws) it)).
  Proof.
    intros HS. unfold sl_update.
    destruct (py_sorted lt it) as [values|e] eqn:Esort.
    2:{ exists (Err e), c. split; [reflexivity|]. split; [reflexivity|]. right. left. exists e.
        repeat split. eapply py_sorted_Err; eauto. }
    pose proof (py_sorted_perm _ _ _ Esort) as Hp.
    rewrite (bind_lift _ _ _ _ eq_refl). rewrite bind_get.
    assert (Hld : 1 <= load c) by (apply lshape_load; exact HS).
    destruct (is_nil (maxes c)) eqn:Hnil.
    { destruct (lshape_nil_state c HS Hnil) as (ix & off & Es).
      assert (Hc : contents c = []) by (rewrite Es; reflexivity).
      destruct (sl_fill_ok values ix off (load c) 0 Hld) as (s' & H1 & H2 & H3 & H4).
      rewrite <- Es in H1. exists (Ok tt), s'. split; [exact H1|]. split; [exact H4|].
      left. split; [reflexivity|]. split; [exact H2|]. rewrite H3, Hc. exact Hp. }
    rewrite (Permutation_length Hp).
    destruct (Nat.leb_spec (len c) (length it * 4)) as [Hb|Hb].
    - unfold bind at 1, modify at 1. rewrite bind_get.
      destruct (py_sorted lt (concat (lists (set_lists (lists c ++ [values]) c)))) as [all|e] eqn:Eall.
      2:{ eexists (Err e), _. split; [reflexivity|]. split; [reflexivity|]. right. right. left. exists e, values.
          split; [reflexivity|]. split; [eapply py_sorted_Err; eauto|]. split; [exact Hp|].
          split; [|split; [exact Hb|reflexivity]].
          intros Hc. destruct HS as (rows & H0 & _).
          pose proof (shape0_contents_nil ident (embed c) rows H0 Hc) as ->.
          pose proof (sh_maxes _ _ _ H0) as Em. cbn [kc embed map] in Em. rewrite Em in Hnil. discriminate. }
      pose proof (py_sorted_perm _ _ _ Eall) as Hp2.
      rewrite (bind_lift _ _ _ _ eq_refl). unfold bind at 1, sl_clear, modify. ev.
      destruct (sl_fill_ok all [] 0 (load c) 0 Hld) as (s' & H1 & H2 & H3 & H4).
      exists (Ok tt), s'. split; [exact H1|]. split; [exact H4|]. left. split; [reflexivity|]. split; [exact H2|].
      rewrite H3, Hp2. cbn. rewrite concat_app. cbn [concat]. rewrite app_nil_r.
      apply Permutation_app_head. exact Hp.
    - destruct (sl_adds_err values c HS) as (r & s' & vs & ws & E & G1 & G2 & G3 & G4 & G5).
      exists r, s'. split; [exact E|]. split; [exact G2|].
      destruct G5 as [[-> ->]|(e & -> & Hr)].
      + left. split; [reflexivity|]. split; [exact G1|]. rewrite G3. apply Permutation_app_head.
        rewrite app_nil_r in G4. rewrite <- G4. exact Hp.
      + right. right. right. exists e, vs, ws. split; [reflexivity|]. split; [exact Hr|]. split; [exact G1|].
        split; [exact Hb|]. split; [exact G3|]. rewrite <- G4. exact Hp.
  Qed.

  Lemma sl_refill_gen : RefillGen T LShape LRaised.
  Proof.
    intros it s HS Hc. destruct (sl_update_gen it s HS) as (r & s' & E & Hld & H).
    exists r, s'. split; [exact E|]. change (contents s = []) in Hc.
    destruct H as [(-> & H1 & H2)|[(e & -> & Hr & ->)|[(e & values & -> & _ & _ & H & _)|(e & vs & ws & -> & Hr & H1 & H & _)]]].
    - split; [exact H1|]. split; [exact Hld|]. left. split; [reflexivity|].
      change (vcont T s') with (contents s'). rewrite Hc in H2. exact H2.
    - split; [exact HS|]. split; [exact Hld|]. right. exists e. auto.
    - contradict H. exact Hc.
    - exfalso. pose proof (co_len _ (lshape_core s HS)) as Hl. rewrite Hc in Hl. simpl in Hl. lia.
  Qed.

  Lemma lbs_left_Err a k e : bisect_left lt a k = Err e -> LRaised e.
  Proof. intros H. apply kraised_l. eapply bs_left_Err; eauto. Qed.
  Lemma lbs_right_Err a k e : bisect_right lt a k = Err e -> LRaised e.
  Proof. intros H. apply kraised_l. eapply bs_right_Err; eauto. Qed.

  Lemma lsearch_left_gen v (c : SL) pos : LShape c -> bisect_left lt (maxes c) v = Ok pos ->
    pos <> length (maxes c) ->
    exists l, getn (lists c) pos = Ok l /\
      forall idx, bisect_left lt l v = Ok idx -> exists j, Locate (lists c) pos idx j.
  Proof.
    intros HS E Hn. destruct (shape_search_left lt ident v (embed c) pos HS E Hn) as (ks & l & G1 & G2 & G3 & G4).
    cbn [keys embed kc] in *. exists ks. auto.
  Qed.
  Lemma lsearch_right_gen v (c : SL) pos : LShape c -> bisect_right lt (maxes c) v = Ok pos ->
    pos <> length (maxes c) ->
    exists l, getn (lists c) pos = Ok l /\
      forall idx, bisect_right lt l v = Ok idx -> exists j, Locate (lists c) pos idx j.
  Proof.
    intros HS E Hn. destruct (shape_search_right lt ident v (embed c) pos HS E Hn) as (ks & l & G1 & G2 & G3 & G4).
    cbn [keys embed kc] in *. exists ks. auto.
  Qed.

  (** The common prefix of [__contains__], [discard] and [remove]. *)
  Lemma lfind_gen v (c : SL) : LShape c -> is_nil (maxes c) = false ->
    (exists e, bisect_left lt (maxes c) v = Err e /\ LRaised e) \/
    bisect_left lt (maxes c) v = Ok (length (maxes c)) \/
    (exists pos l, bisect_left lt (maxes c) v = Ok pos /\ (pos =? length (maxes c)) = false /\ getn (lists c) pos = Ok l /\
       ((exists e, bisect_left lt l v = Err e /\ LRaised e) \/
        (exists idx a x b, bisect_left lt l v = Ok idx /\ getn l idx = Ok x /\
           contents c = a ++ x :: b /\ Locate (lists c) pos idx (length a)))).
  Proof.
    intros HS Hnil.
    destruct (bisect_left lt (maxes c) v) as [pos|e] eqn:Ep; [|left; exists e; split; [reflexivity|eapply lbs_left_Err; eauto]].
    right. destruct (Nat.eqb_spec pos (length (maxes c))) as [->|Hn]; [left; reflexivity|].
    right. destruct (lsearch_left_gen v c pos HS Ep Hn) as (l & G1 & G2).
    exists pos, l. split; [reflexivity|]. split; [apply Nat.eqb_neq; exact Hn|]. split; [exact G1|].
    destruct (bisect_left lt l v) as [idx|e] eqn:Ei; [|left; exists e; split; [reflexivity|eapply lbs_left_Err; eauto]].
    right. destruct (G2 idx eq_refl) as [j HL].
    destruct (locate_split T c pos idx j HL) as (a & x & b & l' & E1 & E2 & E3 & E4).
    cbn [sl_vt vt_get] in E3. rewrite G1 in E3. injection E3 as <-.
    exists idx, a, x, b. split; [reflexivity|]. split; [exact E4|]. split; [exact E1|]. rewrite E2. exact HL.
  Qed.

  Lemma sl_contains_gen v (c : SL) : LShape c ->
    exists r, sl_contains lt eq v c = (r, c) /\ forall e, r = Err e -> LRaised' e.
  Proof.
    intros HS. unfold sl_contains. rewrite bind_get.
    destruct (is_nil (maxes c)) eqn:Hnil; [eexists; split; [reflexivity|discriminate]|].
    destruct (lfind_gen v c HS Hnil) as [(e & E & Hr)|[E|(pos & l & E & En & El & [(e & Ei & Hr)|(idx & a & x & b & Ei & Ex & _)])]].
    - rewrite E. exists (Err e). split; [reflexivity|]. intros e' [= <-]. left; exact Hr.
    - rewrite (bind_lift _ _ _ _ E), Nat.eqb_refl. eexists; split; [reflexivity|discriminate].
    - rewrite (bind_lift _ _ _ _ E), En, (bind_lift _ _ _ _ El), Ei.
      exists (Err e). split; [reflexivity|]. intros e' [= <-]. left; exact Hr.
    - rewrite (bind_lift _ _ _ _ E), En, (bind_lift _ _ _ _ El), (bind_lift _ _ _ _ Ei), (bind_lift _ _ _ _ Ex).
      exists (eq x v). split; [reflexivity|]. intros e H. right. eauto.
  Qed.

  Lemma sl_discard_gen v (c : SL) : LShape c ->
    (exists e, sl_discard lt eq v c = (Err e, c) /\ LRaised' e) \/
    sl_discard lt eq v c = (Ok tt, c) \/
    (exists c' a x b, sl_discard lt eq v c = (Ok tt, c') /\ LShape c' /\ load c' = load c /\
       contents c = a ++ x :: b /\ contents c' = a ++ b /\ eq x v = Ok true).
  Proof.
    intros HS. unfold sl_discard. rewrite bind_get.
    destruct (is_nil (maxes c)) eqn:Hnil; [right; left; reflexivity|].
    destruct (lfind_gen v c HS Hnil) as [(e & E & Hr)|[E|(pos & l & E & En & El & [(e & Ei & Hr)|(idx & a & x & b & Ei & Ex & Ec & HL)])]].
    - rewrite E. left. exists e. split; [reflexivity|]. left; exact Hr.
    - rewrite (bind_lift _ _ _ _ E), Nat.eqb_refl. right; left; reflexivity.
    - rewrite (bind_lift _ _ _ _ E), En, (bind_lift _ _ _ _ El), Ei.
      left. exists e. split; [reflexivity|]. left; exact Hr.
    - rewrite (bind_lift _ _ _ _ E), En, (bind_lift _ _ _ _ El), (bind_lift _ _ _ _ Ei), (bind_lift _ _ _ _ Ex).
      destruct (eq x v) as [[|]|e] eqn:Ee.
      + rewrite (bind_lift _ _ _ _ eq_refl).
        destruct (vo_delete _ _ (sl_vt_ok lt) c a x b pos idx HS Ec HL) as (s' & H1 & H2 & H3 & H4).
        right. right. exists s', a, x, b. repeat split; auto.
      + rewrite (bind_lift _ _ _ _ eq_refl). right; left; reflexivity.
      + left. exists e. split; [reflexivity|]. right. eauto.
  Qed.

  Lemma sl_remove_gen v (c : SL) : LShape c ->
    (exists e, sl_remove lt eq v c = (Err e, c) /\ (LRaised' e \/ e = ValueError)) \/
    (exists c' a x b, sl_remove lt eq v c = (Ok tt, c') /\ LShape c' /\ load c' = load c /\
       contents c = a ++ x :: b /\ contents c' = a ++ b /\ eq x v = Ok true).
  Proof.
    intros HS. unfold sl_remove. rewrite bind_get.
    destruct (is_nil (maxes c)) eqn:Hnil; [left; exists ValueError; split; [reflexivity|auto]|].
    destruct (lfind_gen v c HS Hnil) as [(e & E & Hr)|[E|(pos & l & E & En & El & [(e & Ei & Hr)|(idx & a & x & b & Ei & Ex & Ec & HL)])]].
    - rewrite E. left. exists e. split; [reflexivity|]. left; left; exact Hr.
    - rewrite (bind_lift _ _ _ _ E), Nat.eqb_refl. left; exists ValueError; split; [reflexivity|auto].
    - rewrite (bind_lift _ _ _ _ E), En, (bind_lift _ _ _ _ El), Ei.
      left. exists e. split; [reflexivity|]. left; left; exact Hr.
    - rewrite (bind_lift _ _ _ _ E), En, (bind_lift _ _ _ _ El), (bind_lift _ _ _ _ Ei), (bind_lift _ _ _ _ Ex).
      destruct (eq x v) as [[|]|e] eqn:Ee.
      + rewrite (bind_lift _ _ _ _ eq_refl).
        destruct (vo_delete _ _ (sl_vt_ok lt) c a x b pos idx HS Ec HL) as (s' & H1 & H2 & H3 & H4).
        right. exists s', a, x, b. repeat split; auto.
      + rewrite (bind_lift _ _ _ _ eq_refl). left; exists ValueError; split; [reflexivity|auto].
      + left. exists e. split; [reflexivity|]. left. right. eauto.
  Qed.

  Lemma sl_bisect_left_gen v (c : SL) : LShape c ->
    exists r c', sl_bisect_left lt v c = (r, c') /\ touch c c' /\ forall e, r = Err e -> LRaised e.
  Proof.
    intros HS. pose proof (lshape_core c HS) as HC. pose proof (touch_refl c HC) as HR.
    unfold sl_bisect_left. rewrite bind_get.
    destruct (is_nil (maxes c)); [eexists _, c; repeat split; auto; discriminate|].
    destruct (bisect_left lt (maxes c) v) as [pos|e] eqn:Ep;
      [rewrite (bind_lift _ _ _ _ eq_refl)|exists (Err e), c; split; [reflexivity|split; [exact HR|]]; intros e' [= <-]; eapply lbs_left_Err; eauto].
    destruct (Nat.eqb_spec pos (length (maxes c))) as [_|Hn]; [eexists _, c; repeat split; auto; discriminate|].
    destruct (lsearch_left_gen v c pos HS Ep Hn) as (l & G1 & G4).
    rewrite (bind_lift _ _ _ _ G1).
    destruct (bisect_left lt l v) as [idx|e] eqn:Ei;
      [rewrite (bind_lift _ _ _ _ eq_refl)|exists (Err e), c; split; [reflexivity|split; [exact HR|]]; intros e' [= <-]; eapply lbs_left_Err; eauto].
    destruct (G4 idx eq_refl) as [j HL].
    destruct (loc_ok c pos idx j HC (locate_bnd _ _ _ _ HL)) as (s' & E & Ht).
    exists (Ok j), s'. split; [exact E|]. split; [exact Ht|]. discriminate.
  Qed.
  Lemma sl_bisect_right_gen v (c : SL) : LShape c ->
    exists r c', sl_bisect_right lt v c = (r, c') /\ touch c c' /\ forall e, r = Err e -> LRaised e.
  Proof.
    intros HS. pose proof (lshape_core c HS) as HC. pose proof (touch_refl c HC) as HR.
    unfold sl_bisect_right. rewrite bind_get.
    destruct (is_nil (maxes c)); [eexists _, c; repeat split; auto; discriminate|].
    destruct (bisect_right lt (maxes c) v) as [pos|e] eqn:Ep;
      [rewrite (bind_lift _ _ _ _ eq_refl)|exists (Err e), c; split; [reflexivity|split; [exact HR|]]; intros e' [= <-]; eapply lbs_right_Err; eauto].
    destruct (Nat.eqb_spec pos (length (maxes c))) as [_|Hn]; [eexists _, c; repeat split; auto; discriminate|].
    destruct (lsearch_right_gen v c pos HS Ep Hn) as (l & G1 & G4).
    rewrite (bind_lift _ _ _ _ G1).
    destruct (bisect_right lt l v) as [idx|e] eqn:Ei;
      [rewrite (bind_lift _ _ _ _ eq_refl)|exists (Err e), c; split; [reflexivity|split; [exact HR|]]; intros e' [= <-]; eapply lbs_right_Err; eauto].
    destruct (G4 idx eq_refl) as [j HL].
    destruct (loc_ok c pos idx j HC (locate_bnd _ _ _ _ HL)) as (s' & E & Ht).
    exists (Ok j), s'. split; [exact E|]. split; [exact Ht|]. discriminate.
  Qed.

  (** [count] subtracts two ranks; with an inconsistent order Python would return
      a negative number where the model raises [Underflow]. *)
  Lemma sl_count_gen v (c : SL) : LShape c ->
    exists r c', sl_count lt v c = (r, c') /\ touch c c' /\ forall e, r = Err e -> LRaised e \/ e = Underflow.
  Proof.
    intros HS. pose proof (lshape_core c HS) as HC. pose proof (touch_refl c HC) as HR.
    assert (SU : forall a b (s : SL), touch c s -> exists r c', liftr (subc a b) s = (r, c') /\ touch c c' /\
              forall e, r = Err e -> LRaised e \/ e = Underflow).
    { intros a b s Hs. eexists _, s. split; [reflexivity|]. split; [exact Hs|]. unfold subc.
      destruct (b <=? a); [discriminate|]. intros e [= <-]. auto. }
    unfold sl_count. rewrite bind_get.
    destruct (is_nil (maxes c)); [eexists _, c; repeat split; auto; discriminate|].
    destruct (bisect_left lt (maxes c) v) as [pos|e] eqn:Ep;
      [rewrite (bind_lift _ _ _ _ eq_refl)|exists (Err e), c; split; [reflexivity|split; [exact HR|]]; intros e' [= <-]; left; eapply lbs_left_Err; eauto].
    destruct (Nat.eqb_spec pos (length (maxes c))) as [_|Hn]; [eexists _, c; repeat split; auto; discriminate|].
    destruct (lsearch_left_gen v c pos HS Ep Hn) as (l & G1 & G4).
    rewrite (bind_lift _ _ _ _ G1).
    destruct (bisect_left lt l v) as [idx|e] eqn:Ei;
      [rewrite (bind_lift _ _ _ _ eq_refl)|exists (Err e), c; split; [reflexivity|split; [exact HR|]]; intros e' [= <-]; left; eapply lbs_left_Err; eauto].
    destruct (G4 idx eq_refl) as [j HL].
    destruct (bisect_right lt (maxes c) v) as [pos2|e] eqn:Ep2;
      [rewrite (bind_lift _ _ _ _ eq_refl)|exists (Err e), c; split; [reflexivity|split; [exact HR|]]; intros e' [= <-]; left; eapply lbs_right_Err; eauto].
    destruct (Nat.eqb_spec pos2 (length (maxes c))) as [_|Hn2].
    { destruct (loc_ok c pos idx j HC (locate_bnd _ _ _ _ HL)) as (s' & E & Ht).
      rewrite (bind_ok _ _ _ _ _ E). apply SU. exact Ht. }
    destruct (lsearch_right_gen v c pos2 HS Ep2 Hn2) as (l2 & G12 & G42).
    rewrite (bind_lift _ _ _ _ G12).
    destruct (bisect_right lt l2 v) as [idx2|e] eqn:Ei2;
      [rewrite (bind_lift _ _ _ _ eq_refl)|exists (Err e), c; split; [reflexivity|split; [exact HR|]]; intros e' [= <-]; left; eapply lbs_right_Err; eauto].
    destruct (G42 idx2 eq_refl) as [j2 HL2].
    destruct (pos =? pos2); [apply SU; exact HR|].
    destruct (loc_ok c pos2 idx2 j2 HC (locate_bnd _ _ _ _ HL2)) as (s1 & E1 & Ht1).
    rewrite (bind_ok _ _ _ _ _ E1).
    assert (HB : Bnd (lists s1) pos idx j) by (rewrite (touch_lists _ _ Ht1); apply locate_bnd; exact HL).
    destruct (loc_ok s1 pos idx j (touch_ok _ _ Ht1 HC) HB) as (s2 & E2 & Ht2).
    rewrite (bind_ok _ _ _ _ _ E2). apply SU. eapply touch_trans; eauto.
  Qed.

  Lemma sl_index_gen v start stop (c : SL) : LShape c ->
    exists r c', sl_index lt eq v start stop c = (r, c') /\ touch c c' /\
      forall e, r = Err e -> LRaised' e \/ e = ValueError.
  Proof.
    intros HS. pose proof (lshape_core c HS) as HC. pose proof (touch_refl c HC) as HR.
    assert (VE : forall s : SL, touch c s -> exists r c', (@raise SL nat ValueError) s = (r, c') /\ touch c c' /\
      forall e, r = Err e -> LRaised' e \/ e = ValueError).
    { intros s Hs. exists (Err ValueError), s. split; [reflexivity|]. split; [exact Hs|]. intros e [= <-]. auto. }
    unfold sl_index. rewrite bind_get.
    destruct (len c =? 0); [apply VE; exact HR|]. cbv zeta.
    destruct (index_stop stop (Z.of_nat (len c)) <=? index_start start (Z.of_nat (len c)))%Z; [apply VE; exact HR|].
    destruct (bisect_left lt (maxes c) v) as [pos|e] eqn:Ep;
      [rewrite (bind_lift _ _ _ _ eq_refl)|exists (Err e), c; split; [reflexivity|split; [exact HR|]]; intros e' [= <-]; left; left; eapply lbs_left_Err; eauto].
    destruct (Nat.eqb_spec pos (length (maxes c))) as [_|Hn]; [apply VE; exact HR|].
    destruct (lsearch_left_gen v c pos HS Ep Hn) as (l & G1 & G4).
    rewrite (bind_lift _ _ _ _ G1).
    destruct (bisect_left lt l v) as [idx|e] eqn:Ei;
      [rewrite (bind_lift _ _ _ _ eq_refl)|exists (Err e), c; split; [reflexivity|split; [exact HR|]]; intros e' [= <-]; left; left; eapply lbs_left_Err; eauto].
    destruct (G4 idx eq_refl) as [j HL].
    destruct (locate_get _ _ _ _ HL) as (l' & E1 & E2 & Hi & Hj). rewrite G1 in E1. injection E1 as <-.
    destruct (getn_lt l idx Hi) as [x Ex]. rewrite (bind_lift _ _ _ _ Ex).
    destruct (eq x v) as [b|e] eqn:Ee;
      [rewrite (bind_lift _ _ _ _ eq_refl)|exists (Err e), c; split; [reflexivity|split; [exact HR|]]; intros e' [= <-]; left; right; eauto].
    destruct (negb b); [apply VE; exact HR|].
    destruct (loc_ok c pos idx j HC (locate_bnd _ _ _ _ HL)) as (s1 & El & Ht1).
    rewrite (bind_ok _ _ _ _ _ El).
    destruct (index_start start (Z.of_nat (len c)) <=? Z.of_nat j)%Z.
    { destruct (Z.of_nat j <=? index_stop stop (Z.of_nat (len c)) - 1)%Z; [|apply VE; exact Ht1].
      eexists _, s1. split; [reflexivity|]. split; [exact Ht1|]. discriminate. }
    destruct (sl_bisect_right_gen v s1 (lshape_touch _ _ HS Ht1)) as (r & s2 & E3 & Ht2 & Hr).
    destruct r as [right|e].
    2:{ rewrite (bind_err _ _ _ _ _ E3). exists (Err e), s2. split; [reflexivity|]. split; [eapply touch_trans; eauto|].
        intros e' [= <-]. left. left. eauto. }
    rewrite (bind_ok _ _ _ _ _ E3).
    destruct (index_start start (Z.of_nat (len c)) <=? Z.of_nat right - 1)%Z; [|apply VE; eapply touch_trans; eauto].
    eexists _, s2. split; [reflexivity|]. split; [eapply touch_trans; eauto|]. discriminate.
  Qed.

  Lemma sim_irange_gen mn mx imin imax reverse (c : SL) :
    SimAt c (sl_irange lt mn mx imin imax reverse) (skl_irange_key lt mn mx imin imax reverse).
  Proof.
    unfold SimAt, sl_irange, skl_irange_key. rewrite !bind_get. cbv zeta. cbn [embed kc keys].
    destruct (is_nil (maxes c)); [reflexivity|].
    match goal with |- bind ?m ?k (embed c) = (fst (bind ?m' ?k' c), _) =>
      set (m1 := m); set (m2 := m'); set (k1 := k); set (k2 := k') end.
    assert (Hm : m1 (embed c) = (fst (m2 c), embed c) /\ snd (m2 c) = c).
    { unfold m1, m2. destruct mn as [m|]; [|split; reflexivity]. unfold bind, liftr, ret.
      destruct ((if imin then bisect_left lt else bisect_right lt) (maxes c) m) as [p|e]; [|split; reflexivity].
      destruct (p =? length (maxes c)); [split; reflexivity|].
      destruct (getn (lists c) p) as [l|e]; [|split; reflexivity].
      destruct ((if imin then bisect_left lt else bisect_right lt) l m); split; reflexivity. }
    unfold bind at 1. destruct Hm as [Hm Hm']. rewrite Hm. unfold bind at 1 2.
    rewrite (surjective_pairing (m2 c)). rewrite Hm'. cbn [fst].
    destruct (fst (m2 c)) as [[[p i]|]|e]; [|reflexivity|reflexivity].
    unfold k1, k2. clear.
    match goal with |- bind ?m ?k (embed c) = (fst (bind ?m' ?k' c), _) =>
      set (m1 := m); set (m2 := m'); set (k1 := k); set (k2 := k') end.
    assert (Hm : m1 (embed c) = (fst (m2 c), embed c) /\ snd (m2 c) = c).
    { unfold m1, m2. unfold bind, liftr, ret. destruct mx as [m|].
      - destruct ((if imax then bisect_right lt else bisect_left lt) (maxes c) m) as [q|e]; [|split; reflexivity].
        destruct (q =? length (maxes c)).
        + destruct (getn (lists c) (q - 1)); split; reflexivity.
        + destruct (getn (lists c) q) as [l|e]; [|split; reflexivity].
          destruct ((if imax then bisect_right lt else bisect_left lt) l m); split; reflexivity.
      - destruct (getn (lists c) (length (maxes c) - 1)); split; reflexivity. }
    unfold bind at 1. destruct Hm as [Hm Hm']. rewrite Hm. unfold bind at 1 2.
    rewrite (surjective_pairing (m2 c)). rewrite Hm'. cbn [fst].
    destruct (fst (m2 c)) as [q|e]; reflexivity.
  Qed.

  Lemma sl_irange_gen mn mx imin imax reverse (c : SL) : LShape c ->
    exists r, sl_irange lt mn mx imin imax reverse c = (r, c) /\ forall e, r = Err e -> LRaised e.
  Proof.
    intros HS. destruct (irange_key_gen lt ident mn mx imin imax reverse (embed c) HS) as (r & E & Hr).
    pose proof (sim_irange_gen mn mx imin imax reverse c) as S. unfold SimAt in S. rewrite E in S. injection S as S1 S2.
    exists r. split.
    - rewrite (surjective_pairing (sl_irange lt mn mx imin imax reverse c)), <- S1, <- S2. reflexivity.
    - intros e He. apply kraised_l. auto.
  Qed.

  Lemma sl_new_gen dflt l : 1 <= dflt ->
    (exists c, sl_new lt dflt l = Ok c /\ LShape c /\ load c = dflt /\ Permutation (contents c) l) \/
    (exists e, sl_new lt dflt l = Err e /\ LRaised e).
  Proof.
    intros Hd. unfold sl_new.
    destruct (sl_refill_gen l (core_empty dflt)) as (r & s' & E & H1 & H2 & H3).
    - apply lshape_empty. exact Hd.
    - reflexivity.
    - cbn [sl_vt vt_update] in E. rewrite E.
      destruct H3 as [[-> H3]|(e & -> & Hr & _)].
      + left. exists s'. split; [reflexivity|]. split; [exact H1|]. split; [exact H2|exact H3].
      + right. exists e. auto.
  Qed.
End ListGen.

(** * Histories under arbitrary comparisons *)
From Verif Require Import PyBase Model Spec History BaseFacts SpecFacts SliceFacts IndexFacts Shape CoreFacts VtFacts
  KeyFacts KeyLook ListSim ListFacts HistFacts FaultFacts FaultSpec.
From Coq Require Import Sorting.Permutation.
Local Unset Implicit Arguments.

Section CompareGen.
  Context {V K : Type}.
  Variables lt eq : V -> V -> res bool.
  Lemma cmp_loop_Err op n m l e : forall o, cmp_loop lt eq op n m l o = Err e ->
    (exists x y, lt x y = Err e) \/ exists x y, eq x y = Err e.
  Proof.
    induction l as [|a l IH]; intros [|b o]; cbn [cmp_loop]; try discriminate.
    intros H. apply rbind_Err in H. destruct H as [H|(r & E & H)]; [eauto|].
    destruct r; [eapply IH; eauto|]. destruct op; cbn [cmp_elt] in H; eauto;
      apply rbind_Err in H; destruct H as [H|(? & ? & H)]; eauto; discriminate.
  Qed.
  Lemma compare_gen op other (c : core V K) :
    exists r, compare lt eq op other c = (r, c) /\
      forall e, r = Err e -> (exists x y, lt x y = Err e) \/ exists x y, eq x y = Err e.
  Proof.
    unfold compare. rewrite bind_get. cbv zeta.
    destruct (negb (len c =? length other) && _); [eexists; split; [reflexivity|discriminate]|].
    destruct (negb (len c =? length other) && _); [eexists; split; [reflexivity|discriminate]|].
    eexists; split; [reflexivity|]. intros e H. eapply cmp_loop_Err; eauto.
  Qed.
End CompareGen.

(** An exception leaves no trace. *)
Lemma loose_atomic {V} (eq : V -> V -> res bool) raised o l r l' e : loose eq raised o l r l' -> atomic o -> r = RExn e -> l' = l.
Proof.
  intros H Ha ->. destruct o; cbn [FaultSpec.loose atomic] in *; try contradiction;
    repeat match goal with
    | H : or_raised _ _ _ _ |- _ => destruct H as [[H _]|(? & _ & _ & H)]; [discriminate|]; exact H
    | H : quiet _ _ _ _ _ /\ _ |- _ => destruct H as [[H _] _]; exact H
    | H : _ \/ _ |- _ => destruct H as [H|[_ H]]
    end; try exact H; unfold exact_ref in H; cbn [sp_step] in H; try congruence.
  - destruct (sp_del i l); congruence.
  - destruct (getz l i), (sp_del i l); congruence.
Qed.

Section ListHistGen.
  Context {V : Type}.
  Variables lt eq : V -> V -> res bool.
  Variable dflt : nat.
  Hypothesis Hd : 1 <= dflt.
  Notation SL := (core V V).
  Notation step := (sl_step lt eq dflt).
  Notation raised := (LRaised' lt eq).
  Notation loose := (loose eq raised).

  Lemma new_step_gen (m : M SL SL) l c : m c = liftr (sl_new lt dflt l) c ->
    exists r c', @rebind SL V m c = (r, c') /\ (LShape c -> LShape c') /\
      or_raised raised r (Permutation (contents c') l) (c' = c).
  Proof.
    intros E. unfold rebind. rewrite E. unfold liftr.
    destruct (sl_new_gen lt dflt l Hd) as [(c' & E1 & H1 & H2 & H3)|(e & E1 & Hr)]; rewrite E1.
    - exists RUnit, c'. split; [reflexivity|]. split; [auto|]. left. auto.
    - exists (RExn e), c. split; [reflexivity|]. split; [auto|]. right. exists e. repeat split. left. exact Hr.
  Qed.

  Lemma or_raised_imp r (P Q P' Q' : Prop) : or_raised (V:=V) raised r P Q -> (P -> P') -> (Q -> Q') ->
    or_raised raised r P' Q'.
  Proof. intros [[H1 H2]|(e & H1 & H2 & H3)] HP HQ; [left; auto|right; exists e; auto]. Qed.

  Lemma sl_step_gen o (c : SL) : LShape c -> lop_ok o ->
    exists r c', step o c = (r, c') /\ loose o (contents c) r (contents c') /\
      (update_fine o r -> LShape c').
  Proof.
    intros Hs Hok. pose proof (lshape_core c Hs) as HC.
    pose proof (touch_refl c HC) as HR.
    assert (Q : forall A (inj : A -> out V) (m : M SL A) r c' (doc : exn -> Prop),
              (forall a e, inj a <> RExn e) -> m c = (r, c') -> touch c c' ->
              (forall e, r = Err e -> raised e \/ doc e) ->
              exists r' c'', observe inj m c = (r', c'') /\
                (quiet raised doc r' (contents c) (contents c'') /\ ((exists a, r' = inj a) \/ exists e, r' = RExn e)) /\
                LShape c'').
    { intros A inj m r c' doc Hinj E1 E2 He. exists (of_res inj r), c'. split; [apply obs_res; exact E1|].
      split; [split; [split|]|].
      - apply touch_contents; auto.
      - intros e. destruct r as [a|e']; cbn; [intros H; destruct (Hinj _ _ H)|intros [= <-]; auto].
      - destruct r as [a|e]; cbn; eauto.
      - eapply lshape_touch; eauto. }
    assert (X : forall A (inj : A -> out V) (m : M SL A) r c', m c = (r, c') -> touch c c' ->
              exact_ref o (of_res inj r) (contents c) (contents c) ->
              exists r' c'', observe inj m c = (r', c'') /\ exact_ref o r' (contents c) (contents c'') /\
                (update_fine o r' -> LShape c'')).
    { intros A inj m r c' E1 E2 E3. exists (of_res inj r), c'. split; [apply obs_res; exact E1|].
      rewrite (touch_contents _ _ E2). split; [exact E3|]. intros _. eapply lshape_touch; eauto. }
    assert (W : forall {P : out V -> SL -> Prop} {m : SL -> out V * SL},
              (exists r c', m c = (r, c') /\ P r c' /\ LShape c') ->
              exists r c', m c = (r, c') /\ P r c' /\ (update_fine o r -> LShape c')).
    { intros P m (r & c' & H1 & H2 & H3). exists r, c'. auto. }
    assert (UP : forall o' it, match o' with LUpdate i | LIAdd i => i = it | _ => False end ->
              exists r c', observe runit (sl_update lt it) c = (r, c') /\
                or_raised raised r (Permutation (contents c') (contents c ++ it))
                  (exists vs ws, Permutation (contents c') (contents c ++ vs) /\ Permutation (vs ++ ws) it) /\
                (update_fine o' r -> LShape c')).
    { intros o' it Ho.
      destruct (sl_update_gen lt it c Hs) as (r & c' & E & _ &
        [(-> & H1 & H2)|[(e & -> & Hr & ->)|[(e & values & -> & Hr & Hp & H1 & H2 & ->)|(e & vs & ws & -> & Hr & H1 & H2 & H3 & H4)]]]).
      - exists RUnit, c'. split; [exact (obs_ok _ _ _ _ _ E)|]. split; [left; auto|auto].
      - exists (RExn e), c. split; [exact (obs_err _ _ _ _ _ E)|]. split; [|auto].
        right. exists e. split; [reflexivity|]. split; [left; exact Hr|]. exists [], it. rewrite app_nil_r. auto.
      - eexists (RExn e), _. split; [exact (obs_err _ _ _ _ _ E)|]. split.
        + right. exists e. split; [reflexivity|]. split; [left; exact Hr|]. exists values, []. rewrite app_nil_r.
          split; [|exact Hp]. unfold contents. cbn [set_lists lists]. rewrite concat_app. cbn [concat]. rewrite app_nil_r. reflexivity.
        + destruct o'; simpl in Ho; try contradiction; intros [].
      - exists (RExn e), c'. split; [exact (obs_err _ _ _ _ _ E)|]. split; [|auto].
        right. exists e. split; [reflexivity|]. split; [left; exact Hr|]. exists vs, ws. auto. }
    assert (NW : forall l (P : Prop) (m : M SL SL), m c = liftr (sl_new lt dflt l) c ->
              exists r c', @rebind SL V m c = (r, c') /\
                or_raised raised r (Permutation (contents c') l) (contents c' = contents c) /\
                (P -> LShape c')).
    { intros l P m E. destruct (new_step_gen m l c E) as (r & c' & E1 & H1 & H2).
      exists r, c'. split; [exact E1|]. split; [|auto].
      apply (or_raised_imp _ _ _ _ _ H2); [auto|]. intros ->. reflexivity. }
    destruct o; cbn [sl_step FaultSpec.loose] in *.
    - destruct (sl_add_gen lt v c Hs) as [(e & E & y & H)|(c' & l1 & l2 & E & H1 & H2 & H3 & H4 & _)].
      + exists (RExn e), c. split; [exact (obs_err _ _ _ _ _ E)|]. split; [|auto].
        right. exists e. split; [reflexivity|]. split; [left; exists v, y; exact H|reflexivity].
      + exists RUnit, c'. split; [exact (obs_ok _ _ _ _ _ E)|]. split; [|auto].
        left. split; [reflexivity|]. rewrite H3, H4. symmetry. apply Permutation_middle.
    - exact (UP (LUpdate it) it eq_refl).
    - eexists RUnit, _. split; [reflexivity|]. split; [reflexivity|]. intros _. apply lshape_empty. apply lshape_load; exact Hs.
    - destruct (sl_discard_gen lt eq v c Hs) as [(e & E & H)|[E|(c' & a & x & b & E & H1 & H2 & H3)]].
      + exists (RExn e), c. split; [exact (obs_err _ _ _ _ _ E)|]. split; [|auto]. right. exists e. auto.
      + exists RUnit, c. split; [exact (obs_ok _ _ _ _ _ E)|]. split; [|auto]. left. auto.
      + exists RUnit, c'. split; [exact (obs_ok _ _ _ _ _ E)|]. split; [|auto]. left. split; [reflexivity|].
        right. exists a, x, b. exact H3.
    - destruct (sl_remove_gen lt eq v c Hs) as [(e & E & [H| ->])|(c' & a & x & b & E & H1 & H2 & H3)].
      + exists (RExn e), c. split; [exact (obs_err _ _ _ _ _ E)|]. split; [|auto]. left. right. exists e. auto.
      + exists (RExn ValueError), c. split; [exact (obs_err _ _ _ _ _ E)|]. split; [|auto]. right. auto.
      + exists RUnit, c'. split; [exact (obs_ok _ _ _ _ _ E)|]. split; [|auto]. left. left. split; [reflexivity|].
        exists a, x, b. exact H3.
    - destruct (sl_contains_gen lt eq v c Hs) as (r & E & H).
      apply W. apply (Q _ (@RBool V) _ r c); auto. discriminate.
    - destruct (getitem_int_ok c i HC) as (c' & E & H). exact (X _ _ _ _ _ E H eq_refl).
    - destruct (getitem_slice_ok c sl HC) as (c' & E & H). exact (X _ _ _ _ _ E H eq_refl).
    - unfold exact_ref. cbn [sp_step].
      destruct (delitem_int_ok _ _ (sl_vt_ok lt) c i Hs) as [(c' & l' & E & E1 & H1 & H2 & H3)|[E E1]];
        change (vcont (sl_vt lt) c) with (contents c) in E1; rewrite E1.
      + exists RUnit, c'. split; [exact (obs_ok _ _ _ _ _ E)|]. split; [|auto]. f_equal. exact H2.
      + eexists (RExn _), c. split; [exact (obs_err _ _ _ _ _ E)|]. auto.
    - destruct (delitem_slice_gen _ _ (sl_vt_ok lt) (LRaised lt) (sl_refill_gen lt) c sl Hs)
        as (r & c' & E & H1 & _ & [(l' & E1 & -> & H2)|[(E1 & -> & ->)|(e & l' & -> & Hr & H2 & E1)]]);
        change (vcont (sl_vt lt) c) with (contents c) in E1; rewrite E1.
      + exists RUnit, c'. split; [exact (obs_ok _ _ _ _ _ E)|]. split; [left; split; [reflexivity|exact H2]|auto].
      + exists (RExn ValueError), c. split; [exact (obs_err _ _ _ _ _ E)|]. auto.
      + exists (RExn e), c'. split; [exact (obs_err _ _ _ _ _ E)|]. split; [|auto].
        right. exists e. split; [reflexivity|]. split; [left; exact Hr|exact H2].
    - unfold exact_ref. cbn [sp_step].
      destruct (pop_ok _ _ (sl_vt_ok lt) c i Hs) as [(c' & v & l' & E & E1 & E2 & H1 & H2 & H3)|[E E1]];
        change (vcont (sl_vt lt) c) with (contents c) in *; rewrite E1.
      + rewrite E2. exists (RVal v), c'. split; [exact (obs_ok _ _ _ _ _ E)|]. split; [|auto]. f_equal. exact H2.
      + eexists (RExn _), c. split; [exact (obs_err _ _ _ _ _ E)|]. auto.
    - apply (X _ (@RNat V) length_of (Ok (len c)) c); auto. unfold exact_ref. cbn [of_res sp_step]. rewrite (co_len _ HC). reflexivity.
    - apply (X _ (@RList V) iter (Ok (contents c)) c); auto. reflexivity.
    - apply (X _ (@RList V) reversed _ c (reversed_ok c)); auto. reflexivity.
    - destruct (sl_bisect_left_gen lt v c Hs) as (r & c' & E & H & He).
      apply W. apply (Q _ (@RNat V) _ r c'); auto; [discriminate|]. intros e H'. left. left. auto.
    - destruct (sl_bisect_right_gen lt v c Hs) as (r & c' & E & H & He).
      apply W. apply (Q _ (@RNat V) _ r c'); auto; [discriminate|]. intros e H'. left. left. auto.
    - destruct (sl_count_gen lt v c Hs) as (r & c' & E & H & He).
      apply W. apply (Q _ (@RNat V) _ r c'); auto; [discriminate|]. intros e H'. destruct (He e H') as [G|G]; [left; left; exact G|right; exact G].
    - destruct (sl_index_gen lt eq v start stop c Hs) as (r & c' & E & H & He).
      apply W. apply (Q _ (@RNat V) _ r c'); auto. discriminate.
    - destruct (sl_irange_gen lt mn mx imin imax reverse c Hs) as (r & E & He).
      apply W. apply (Q _ (@RList V) _ r c); auto; [discriminate|]. intros e H'. left. left. auto.
    - destruct (islice_ok c start stop reverse HC) as (r & c' & E & H & E1).
      apply (X _ (@RList V) _ _ c' E H). unfold exact_ref. cbn [sp_step]. rewrite E1. reflexivity.
    - destruct (reset_gen _ _ (sl_vt_ok lt) (LRaised lt) (sl_refill_gen lt) ld c Hs Hok)
        as (r & c' & E & H1 & _ & [(-> & H2)|(e & -> & Hr & H2)]).
      + exists RUnit, c'. split; [exact (obs_ok _ _ _ _ _ E)|]. split; [left; split; [reflexivity|exact H2]|auto].
      + exists (RExn e), c'. split; [exact (obs_err _ _ _ _ _ E)|]. split; [|auto].
        right. exists e. split; [reflexivity|]. split; [left; exact Hr|exact H2].
    - exact (UP (LIAdd it) it eq_refl).
    - destruct (imul_gen _ _ (sl_vt_ok lt) (LRaised lt) (sl_refill_gen lt) n c Hs)
        as (r & c' & E & H1 & _ & [(-> & H2)|(e & -> & Hr & H2)]).
      + exists RUnit, c'. split; [exact (obs_ok _ _ _ _ _ E)|]. split; [left; split; [reflexivity|exact H2]|auto].
      + exists (RExn e), c'. split; [exact (obs_err _ _ _ _ _ E)|]. split; [|auto].
        right. exists e. split; [reflexivity|]. split; [left; exact Hr|exact H2].
    - exact (NW _ _ (sl_copy lt dflt) eq_refl).
    - exact (NW _ _ (sl_plus lt dflt it) eq_refl).
    - exact (NW _ _ (sl_mul lt dflt n) eq_refl).
    - exact (NW _ _ (sl_reduce lt dflt) eq_refl).
    - destruct (compare_gen lt eq op other c) as (r & E & He).
      apply W. apply (Q _ (@RBool V) _ r c); auto; [discriminate|]. intros e H'. left. exact (He e H').
    - exists (RExn NotImplementedError), c. split; [reflexivity|]. split; [reflexivity|auto].
  Qed.

  (** Every history in which no [update] or [+=] raises. *)
  Lemma sl_run_gen ops : forall c, LShape c -> Forall lop_ok ops ->
    Forall2 update_fine ops (fst (sl_run lt eq dflt ops c)) ->
    LShape (snd (sl_run lt eq dflt ops c)) /\
    loose_run eq raised ops (fst (sl_run lt eq dflt ops c)) (contents c) (contents (snd (sl_run lt eq dflt ops c))).
  Proof.
    unfold sl_run. induction ops as [|o ops IH]; intros c Hs Hok Hf; cbn [run] in *.
    - split; [exact Hs|reflexivity].
    - inversion Hok as [|? ? Ho Hos]; subst.
      destruct (sl_step_gen o c Hs Ho) as (r & c1 & E & HL & HS).
      rewrite E in *. specialize (IH c1).
      destruct (run step ops c1) as [rs c2]. cbn [fst snd] in *.
      inversion Hf as [|? ? ? ? Hf1 Hf2]; subst.
      destruct (IH (HS Hf1) Hos Hf2) as [H1 H2]. split; [exact H1|].
      cbn [loose_run]. exists (contents c1). auto.
  Qed.
End ListHistGen.

Section KeyHistGen.
  Context {V K : Type}.
  Variables vlt eq : V -> V -> res bool.
  Variables klt keq : K -> K -> res bool.
  Variable kf : V -> res K.
  Variable dflt : nat.
  Hypothesis Hd : 1 <= dflt.
  Notation SL := (skl V K).
  Notation step := (skl_step vlt eq klt keq kf dflt).
  Notation Shape := (Shape kf).
  Notation T := (skl_vt klt kf).
  Definition KRaised'' (e : exn) : Prop := KRaised' eq klt keq kf e \/ exists x y, vlt x y = Err e.
  Notation raised := KRaised''.
  Notation loose := (loose eq raised).

  Lemma kr1 e : KRaised klt kf e -> raised e.
  Proof. intros H. left. left. exact H. Qed.
  Lemma kr2 e : KRaised' eq klt keq kf e -> raised e.
  Proof. intros H. left. exact H. Qed.

  Lemma knew_step_gen (m : M SL SL) l c : m c = liftr (skl_new klt kf dflt l) c ->
    exists r c', @rebind SL V m c = (r, c') /\ (Shape c -> Shape c') /\
      or_raised raised r (Permutation (contents (kc c')) l) (c' = c).
  Proof.
    intros E. unfold rebind. rewrite E. unfold liftr.
    destruct (skl_new_gen klt kf dflt l Hd) as [(c' & E1 & H1 & H2 & H3)|(e & E1 & Hr)]; rewrite E1.
    - exists RUnit, c'. split; [reflexivity|]. split; [auto|]. left. auto.
    - exists (RExn e), c. split; [reflexivity|]. split; [auto|]. right. exists e. repeat split. exact (kr1 _ Hr).
  Qed.

  Lemma kor_raised_imp r (P Q P' Q' : Prop) : or_raised (V:=V) raised r P Q -> (P -> P') -> (Q -> Q') ->
    or_raised raised r P' Q'.
  Proof. intros [[H1 H2]|(e & H1 & H2 & H3)] HP HQ; [left; auto|right; exists e; auto]. Qed.

  Lemma skl_lstep_gen o (c : SL) : Shape c -> lop_ok o ->
    exists r c', skl_lstep vlt eq klt keq kf dflt o c = (r, c') /\ loose o (contents (kc c)) r (contents (kc c')) /\
      (update_fine o r -> Shape c').
  Proof.
    intros Hs Hok. pose proof (shape_core _ c Hs) as HC. pose proof (touch_refl _ HC) as HRc.
    pose proof (ktouch_refl kf c Hs) as HR.
    assert (Q : forall A (inj : A -> out V) (m : M SL A) r c' (doc : exn -> Prop),
              (forall a e, inj a <> RExn e) -> m c = (r, c') -> ktouch c c' ->
              (forall e, r = Err e -> raised e \/ doc e) ->
              exists r' c'', observe inj m c = (r', c'') /\
                (quiet raised doc r' (contents (kc c)) (contents (kc c'')) /\ ((exists a, r' = inj a) \/ exists e, r' = RExn e)) /\
                Shape c'').
    { intros A inj m r c' doc Hinj E1 E2 He. exists (of_res inj r), c'. split; [apply kobs_res; exact E1|].
      split; [split; [split|]|].
      - apply ktouch_contents; auto.
      - intros e. destruct r as [a|e']; cbn; [intros H; destruct (Hinj _ _ H)|intros [= <-]; auto].
      - destruct r as [a|e]; cbn; eauto.
      - eapply ktouch_shape; eauto. }
    assert (X : forall A (inj : A -> out V) (m : M SL A) r c', m c = (r, c') -> ktouch c c' ->
              exact_ref o (of_res inj r) (contents (kc c)) (contents (kc c)) ->
              exists r' c'', observe inj m c = (r', c'') /\ exact_ref o r' (contents (kc c)) (contents (kc c'')) /\
                (update_fine o r' -> Shape c'')).
    { intros A inj m r c' E1 E2 E3. exists (of_res inj r), c'. split; [apply kobs_res; exact E1|].
      rewrite (ktouch_contents _ _ E2). split; [exact E3|]. intros _. eapply ktouch_shape; eauto. }
    assert (XC : forall A (inj : A -> out V) (m : M (core V K) A) r c', m (kc c) = (r, c') -> touch (kc c) c' ->
              exact_ref o (of_res inj r) (contents (kc c)) (contents (kc c)) ->
              exists r' c'', observe inj (oncore T m) c = (r', c'') /\ exact_ref o r' (contents (kc c)) (contents (kc c'')) /\
                (update_fine o r' -> Shape c'')).
    { intros A inj m r c' E1 E2 E3. destruct (oncore_ktouch klt kf m c r c' E1 E2) as (s' & E & H).
      exact (X _ inj _ r s' E H E3). }
    assert (W : forall {P : out V -> SL -> Prop} {m : SL -> out V * SL},
              (exists r c', m c = (r, c') /\ P r c' /\ Shape c') ->
              exists r c', m c = (r, c') /\ P r c' /\ (update_fine o r -> Shape c')).
    { intros P m (r & c' & H1 & H2 & H3). exists r, c'. auto. }
    assert (UP : forall o' it, match o' with LUpdate i | LIAdd i => i = it | _ => False end ->
              exists r c', observe runit (skl_update klt kf it) c = (r, c') /\
                or_raised raised r (Permutation (contents (kc c')) (contents (kc c) ++ it))
                  (exists vs ws, Permutation (contents (kc c')) (contents (kc c) ++ vs) /\ Permutation (vs ++ ws) it) /\
                (update_fine o' r -> Shape c')).
    { intros o' it Ho.
      destruct (skl_update_gen klt kf it c Hs) as (r & c' & E & _ &
        [(-> & H1 & H2)|[(e & -> & Hr & ->)|[(e & values & -> & Hr & Hp & H1 & H2 & ->)|(e & vs & ws & -> & Hr & H1 & H2 & H3 & H4)]]]).
      - exists RUnit, c'. split; [exact (kobs_ok _ _ _ _ _ E)|]. split; [left; auto|auto].
      - exists (RExn e), c. split; [exact (kobs_err _ _ _ _ _ E)|]. split; [|auto].
        right. exists e. split; [reflexivity|]. split; [exact (kr1 _ Hr)|]. exists [], it. rewrite app_nil_r. auto.
      - eexists (RExn e), _. split; [exact (kobs_err _ _ _ _ _ E)|]. split.
        + right. exists e. split; [reflexivity|]. split; [exact (kr1 _ Hr)|]. exists values, []. rewrite app_nil_r.
          split; [|exact Hp]. unfold contents. cbn [kc on_kc set_lists lists]. rewrite concat_app. cbn [concat]. rewrite app_nil_r. reflexivity.
        + destruct o'; simpl in Ho; try contradiction; intros [].
      - exists (RExn e), c'. split; [exact (kobs_err _ _ _ _ _ E)|]. split; [|auto].
        right. exists e. split; [reflexivity|]. split; [exact (kr1 _ Hr)|]. exists vs, ws. auto. }
    assert (NW : forall l (P : Prop) (m : M SL SL), m c = liftr (skl_new klt kf dflt l) c ->
              exists r c', @rebind SL V m c = (r, c') /\
                or_raised raised r (Permutation (contents (kc c')) l) (contents (kc c') = contents (kc c)) /\
                (P -> Shape c')).
    { intros l P m E. destruct (knew_step_gen m l c E) as (r & c' & E1 & H1 & H2).
      exists r, c'. split; [exact E1|]. split; [|auto].
      apply (kor_raised_imp _ _ _ _ _ H2); [auto|]. intros ->. reflexivity. }
    destruct o; cbn [skl_lstep FaultSpec.loose] in *.
    - destruct (skl_add_gen kf klt v c Hs) as [(e & E & H)|(c' & k & l1 & l2 & k1 & k2 & E & H1 & H2 & _ & H3 & H4 & _)].
      + exists (RExn e), c. split; [exact (kobs_err _ _ _ _ _ E)|]. split; [|auto].
        right. exists e. split; [reflexivity|]. split; [apply kr1; destruct H as [H|(k & y & _ & H)]; [left|right]; eauto|reflexivity].
      + exists RUnit, c'. split; [exact (kobs_ok _ _ _ _ _ E)|]. split; [|auto].
        left. split; [reflexivity|]. rewrite H3, H4. symmetry. apply Permutation_middle.
    - exact (UP (LUpdate it) it eq_refl).
    - eexists RUnit, _. split; [reflexivity|]. split; [reflexivity|]. intros _. apply shape_empty. destruct Hs as (rows & H & _). exact (sh_load _ _ _ H).
    - destruct (skl_discard_gen eq klt keq kf v c Hs) as [(e & E & H)|[E|(c' & a & x & b & E & H1 & H2 & H3)]].
      + exists (RExn e), c. split; [exact (kobs_err _ _ _ _ _ E)|]. split; [|auto]. right. exists e. auto using kr2.
      + exists RUnit, c. split; [exact (kobs_ok _ _ _ _ _ E)|]. split; [|auto]. left. auto.
      + exists RUnit, c'. split; [exact (kobs_ok _ _ _ _ _ E)|]. split; [|auto]. left. split; [reflexivity|].
        right. exists a, x, b. exact H3.
    - destruct (skl_remove_gen eq klt keq kf v c Hs) as [(e & E & [H| ->])|(c' & a & x & b & E & H1 & H2 & H3)].
      + exists (RExn e), c. split; [exact (kobs_err _ _ _ _ _ E)|]. split; [|auto]. left. right. exists e. auto using kr2.
      + exists (RExn ValueError), c. split; [exact (kobs_err _ _ _ _ _ E)|]. split; [|auto]. right. auto.
      + exists RUnit, c'. split; [exact (kobs_ok _ _ _ _ _ E)|]. split; [|auto]. left. left. split; [reflexivity|].
        exists a, x, b. exact H3.
    - destruct (skl_contains_gen eq klt keq kf v c Hs) as (r & E & H).
      apply W. apply (Q _ (@RBool V) _ r c); auto; [discriminate|]. intros e H'. left. exact (kr2 _ (H e H')).
    - destruct (getitem_int_ok (kc c) i HC) as (c' & E & H). exact (XC _ _ _ _ _ E H eq_refl).
    - destruct (getitem_slice_ok (kc c) sl HC) as (c' & E & H). exact (XC _ _ _ _ _ E H eq_refl).
    - unfold exact_ref. cbn [sp_step].
      destruct (delitem_int_ok _ _ (skl_vt_ok klt kf) c i Hs) as [(c' & l' & E & E1 & H1 & H2 & H3)|[E E1]];
        change (vcont (skl_vt klt kf) c) with (contents (kc c)) in E1; rewrite E1.
      + exists RUnit, c'. split; [exact (kobs_ok _ _ _ _ _ E)|]. split; [|auto]. f_equal. exact H2.
      + eexists (RExn _), c. split; [exact (kobs_err _ _ _ _ _ E)|]. auto.
    - destruct (delitem_slice_gen _ _ (skl_vt_ok klt kf) (KRaised klt kf) (skl_refill_gen klt kf) c sl Hs)
        as (r & c' & E & H1 & _ & [(l' & E1 & -> & H2)|[(E1 & -> & ->)|(e & l' & -> & Hr & H2 & E1)]]);
        change (vcont (skl_vt klt kf) c) with (contents (kc c)) in E1; rewrite E1.
      + exists RUnit, c'. split; [exact (kobs_ok _ _ _ _ _ E)|]. split; [left; split; [reflexivity|exact H2]|auto].
      + exists (RExn ValueError), c. split; [exact (kobs_err _ _ _ _ _ E)|]. auto.
      + exists (RExn e), c'. split; [exact (kobs_err _ _ _ _ _ E)|]. split; [|auto].
        right. exists e. split; [reflexivity|]. split; [exact (kr1 _ Hr)|exact H2].
    - unfold exact_ref. cbn [sp_step].
      destruct (pop_ok _ _ (skl_vt_ok klt kf) c i Hs) as [(c' & v & l' & E & E1 & E2 & H1 & H2 & H3)|[E E1]];
        change (vcont (skl_vt klt kf) c) with (contents (kc c)) in *; rewrite E1.
      + rewrite E2. exists (RVal v), c'. split; [exact (kobs_ok _ _ _ _ _ E)|]. split; [|auto]. f_equal. exact H2.
      + eexists (RExn _), c. split; [exact (kobs_err _ _ _ _ _ E)|]. auto.
    - apply (XC _ (@RNat V) length_of (Ok (len (kc c))) (kc c)); auto. unfold exact_ref. cbn [of_res sp_step]. rewrite (co_len _ HC). reflexivity.
    - apply (XC _ (@RList V) iter (Ok (contents (kc c))) (kc c)); auto. reflexivity.
    - apply (XC _ (@RList V) reversed _ (kc c) (reversed_ok (kc c))); auto. reflexivity.
    - destruct (skl_bisect_left_gen klt kf v c Hs) as (r & c' & E & H & He).
      apply W. apply (Q _ (@RNat V) _ r c'); auto; [discriminate|]. intros e H'. left. exact (kr1 _ (He e H')).
    - destruct (skl_bisect_right_gen klt kf v c Hs) as (r & c' & E & H & He).
      apply W. apply (Q _ (@RNat V) _ r c'); auto; [discriminate|]. intros e H'. left. exact (kr1 _ (He e H')).
    - destruct (skl_count_gen eq klt keq kf v c Hs) as (r & E & He).
      apply W. apply (Q _ (@RNat V) _ r c); auto; [discriminate|]. intros e H'. left. exact (kr2 _ (He e H')).
    - destruct (skl_index_gen eq klt keq kf v start stop c Hs) as (r & c' & E & H & He).
      apply W. apply (Q _ (@RNat V) _ r c'); auto; [discriminate|].
      intros e H'. destruct (He e H') as [G|G]; [left; exact (kr2 _ G)|right; exact G].
    - destruct (irange_gen klt kf mn mx imin imax reverse c Hs) as (r & E & He).
      apply W. apply (Q _ (@RList V) _ r c); auto; [discriminate|]. intros e H'. left. exact (kr1 _ (He e H')).
    - destruct (islice_ok (kc c) start stop reverse HC) as (r & c' & E & H & E1).
      apply (XC _ (@RList V) _ _ c' E H). unfold exact_ref. cbn [sp_step]. rewrite E1. reflexivity.
    - destruct (reset_gen _ _ (skl_vt_ok klt kf) (KRaised klt kf) (skl_refill_gen klt kf) ld c Hs Hok)
        as (r & c' & E & H1 & _ & [(-> & H2)|(e & -> & Hr & H2)]).
      + exists RUnit, c'. split; [exact (kobs_ok _ _ _ _ _ E)|]. split; [left; split; [reflexivity|exact H2]|auto].
      + exists (RExn e), c'. split; [exact (kobs_err _ _ _ _ _ E)|]. split; [|auto].
        right. exists e. split; [reflexivity|]. split; [exact (kr1 _ Hr)|exact H2].
    - exact (UP (LIAdd it) it eq_refl).
    - destruct (imul_gen _ _ (skl_vt_ok klt kf) (KRaised klt kf) (skl_refill_gen klt kf) n c Hs)
        as (r & c' & E & H1 & _ & [(-> & H2)|(e & -> & Hr & H2)]).
      + exists RUnit, c'. split; [exact (kobs_ok _ _ _ _ _ E)|]. split; [left; split; [reflexivity|exact H2]|auto].
      + exists (RExn e), c'. split; [exact (kobs_err _ _ _ _ _ E)|]. split; [|auto].
        right. exists e. split; [reflexivity|]. split; [exact (kr1 _ Hr)|exact H2].
    - exact (NW _ _ (skl_copy klt kf dflt) eq_refl).
    - exact (NW _ _ (skl_plus klt kf dflt it) eq_refl).
    - exact (NW _ _ (skl_mul klt kf dflt n) eq_refl).
    - exact (NW _ _ (skl_reduce klt kf dflt) eq_refl).
    - destruct (compare_gen (K:=K) vlt eq op other (kc c)) as (r & E & He).
      destruct (oncore_ktouch klt kf _ c r (kc c) E HRc) as (s' & E' & H').
      apply W. apply (Q _ (@RBool V) _ r s'); auto; [discriminate|].
      intros e H. left. destruct (He e H) as [G|G]; [right; exact G|left; right; right; exact G].
    - exists (RExn NotImplementedError), c. split; [reflexivity|]. split; [reflexivity|auto].
  Qed.

  Lemma skl_step_gen o (c : SL) : Shape c -> kop_ok o ->
    exists r c', step o c = (r, c') /\ kloose eq raised o (contents (kc c)) r (contents (kc c')) /\
      (kupdate_fine o r -> Shape c').
  Proof.
    intros Hs Hok. pose proof (ktouch_refl kf c Hs) as HR.
    assert (Q : forall A (inj : A -> out V) (m : M SL A) r c',
              (forall a e, inj a <> RExn e) -> m c = (r, c') -> ktouch c c' ->
              (forall e, r = Err e -> KRaised klt kf e) ->
              exists r' c'', observe inj m c = (r', c'') /\
                (quiet raised (fun _ => False) r' (contents (kc c)) (contents (kc c'')) /\ ((exists a, r' = inj a) \/ exists e, r' = RExn e)) /\
                (True -> Shape c'')).
    { intros A inj m r c' Hinj E1 E2 He. exists (of_res inj r), c'. split; [apply kobs_res; exact E1|].
      split; [split; [split|]|].
      - apply ktouch_contents; auto.
      - intros e. destruct r as [a|e']; cbn; [intros H; destruct (Hinj _ _ H)|intros [= <-]; left; exact (kr1 _ (He _ eq_refl))].
      - destruct r as [a|e]; cbn; eauto.
      - intros _. eapply ktouch_shape; eauto. }
    destruct o; cbn [skl_step kloose kupdate_fine].
    - exact (skl_lstep_gen o c Hs Hok).
    - destruct (bisect_key_left_gen klt kf k c Hs) as (r & c' & E & H & He).
      apply (Q _ (@RNat V) _ r c'); auto. discriminate.
    - destruct (bisect_key_right_gen klt kf k c Hs) as (r & c' & E & H & He).
      apply (Q _ (@RNat V) _ r c'); auto. discriminate.
    - destruct (irange_key_gen klt kf mn mx imin imax reverse c Hs) as (r & E & He).
      apply (Q _ (@RList V) _ r c); auto. discriminate.
  Qed.

  Lemma skl_run_gen ops : forall c, Shape c -> Forall kop_ok ops ->
    Forall2 kupdate_fine ops (fst (skl_run vlt eq klt keq kf dflt ops c)) ->
    Shape (snd (skl_run vlt eq klt keq kf dflt ops c)) /\
    kloose_run eq raised ops (fst (skl_run vlt eq klt keq kf dflt ops c)) (contents (kc c))
      (contents (kc (snd (skl_run vlt eq klt keq kf dflt ops c)))).
  Proof.
    unfold skl_run. induction ops as [|o ops IH]; intros c Hs Hok Hf; cbn [run] in *.
    - split; [exact Hs|reflexivity].
    - inversion Hok as [|? ? Ho Hos]; subst.
      destruct (skl_step_gen o c Hs Ho) as (r & c1 & E & HL & HS).
      rewrite E in *. specialize (IH c1).
      destruct (run step ops c1) as [rs c2]. cbn [fst snd] in *.
      inversion Hf as [|? ? ? ? Hf1 Hf2]; subst.
      destruct (IH (HS Hf1) Hos Hf2) as [H1 H2]. split; [exact H1|].
      cbn [kloose_run]. exists (contents (kc c1)). auto.
  Qed.

  Lemma kloose_atomic o l r l' e : kloose eq raised o l r l' -> katomic (K:=K) o -> r = RExn e -> l' = l.
  Proof.
    intros H Ha E. destruct o; cbn [kloose katomic] in *; [|apply H..].
    revert H Ha E. apply loose_atomic.
  Qed.
End KeyHistGen.

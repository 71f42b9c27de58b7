(** * Proofs: programs with SortedSet objects and a total order (C84) *)
From Coq Require Import Permutation.
From Verif Require Import PyBase Model Spec History BaseFacts SpecFacts Reach ListClass ClassSpec ClassFacts ModelSet SetSpec HashFacts SetFacts
  SetProps ModelObj ObjSpec ObjFacts ObjProps.
Local Unset Implicit Arguments.

Lemma reads_plain : forall V K lt eq dflt, iter_reads (@plain V K lt eq dflt).
Proof. intros. intro s. reflexivity. Qed.
Lemma reads_keyed : forall V K eq klt keq kf dflt, iter_reads (@keyed V K eq klt keq kf dflt).
Proof. intros. intro s. destruct s. reflexivity. Qed.
Lemma reads_class : forall S V K (T : listcls S V K) ltb eqb fref dflt, list_class T ltb eqb fref dflt -> iter_reads T.
Proof. intros S V K T ltb eqb fref dflt H. destruct H; [apply reads_plain|apply reads_keyed]. Qed.

Section Sets.
  Context {S V K : Type}.
  Variable T : listcls S V K.
  Variables ltb eqb : V -> V -> bool.
  Variable fref : fwd V K -> list V -> out V * list V.
  Variable dflt : nat.
  Variable R : S -> list V -> Prop.
  Variable ld : S -> nat.
  Hypothesis HK : ClsOK T ltb eqb fref dflt R ld.
  Variable ord : nat -> list V -> list V.
  Hypothesis HO : any_order ord.
  Let HE : Equiv eqb := k_equiv _ _ _ _ _ _ _ HK.

  Definition good (p : list V * S) (l : list V) : Prop := SInv eqb R (mksset (fst p) (snd p) 0) l.
  Definition WInv (rw : rworld S V) (objs mine : list (list V)) : Prop :=
    Forall2 good (r_objs rw) objs /\ r_mine rw = mine /\ Forall (distinct eqb) mine.

  Lemma f2_look : forall A B (P : A -> B -> Prop) la lb i, Forall2 P la lb ->
    match nth_error la i with
    | Some a => exists b, nth_error lb i = Some b /\ P a b
    | None => nth_error lb i = None
    end.
  Proof.
    intros A B P la lb i F. revert i. induction F; intros [|i]; simpl; eauto. apply IHF.
  Qed.
  Lemma f2_put : forall A B (P : A -> B -> Prop) la lb i a b, Forall2 P la lb -> P a b -> Forall2 P (put la i a) (put lb i b).
  Proof. intros A B P la lb i a b F Hab. revert i. induction F; intros [|i]; simpl; constructor; auto. Qed.

  Lemma good_sinv : forall p l t, good p l <-> SInv eqb R (mksset (fst p) (snd p) t) l.
  Proof. intros. unfold good, SInv. simpl. tauto. Qed.
  Lemma good_of : forall s l, SInv eqb R s l -> good (s_set s, s_list s) l.
  Proof. intros s l H. unfold good. simpl. destruct s; simpl. exact H. Qed.

  Lemma eval_means : forall a rw objs mine, WInv rw objs mine ->
    exists x rw', r_eval T ord a rw = (x, rw') /\ stands objs mine a x /\ WInv rw' objs mine.
  Proof.
    intros a rw objs mine I. pose proof I as (I1 & I2 & I3). destruct a as [l|u|i]; simpl.
    - eexists _, _. eauto.
    - rewrite I2. destruct (nth_error mine u) as [m|]; eexists _, _; (split; [reflexivity|]); (split; [|split; [exact I1|split; auto]]); auto.
      exists (ord (r_tick rw) m). split; auto.
    - unfold r_on. pose proof (f2_look _ _ _ _ _ i I1) as L. destruct (nth_error (r_objs rw) i) as [p|] eqn:E.
      + destruct L as (l & L1 & L2). rewrite L1. unfold bind.
        rewrite (ss_iter_ok T ltb eqb fref dflt R ld HK (value rw p) l (proj1 (good_sinv p l _) L2)).
        eexists _, _. split; [reflexivity|]. split; [reflexivity|]. split; [|split; auto]. simpl.
        rewrite put_self; auto. rewrite E. destruct p; auto.
      + rewrite L. eexists _, _. split; [reflexivity|]. auto.
  Qed.
  Lemma eval_opt_means : forall a rw objs mine, WInv rw objs mine ->
    exists x rw', r_eval_opt T ord a rw = (x, rw') /\ stands_opt objs mine a x /\ WInv rw' objs mine.
  Proof.
    intros [a|] rw objs mine I; simpl.
    - destruct (eval_means a rw objs mine I) as (x & rw' & E & ST & I'). unfold bind. rewrite E.
      destruct x as [x|e]; eexists _, _; (split; [reflexivity|]); (split; [|exact I']); eexists; split; eauto.
    - eexists _, _. split; [reflexivity|]. auto.
  Qed.
  Lemma eval_all_means : forall args rw objs mine, WInv rw objs mine ->
    exists x rw', mapM (r_eval T ord) args rw = (x, rw') /\ stands_all objs mine args x /\ WInv rw' objs mine.
  Proof.
    induction args as [|a args IH]; intros rw objs mine I; simpl.
    - eexists _, _. split; [reflexivity|]. auto.
    - destruct (eval_means a rw objs mine I) as (x & rw' & E & ST & I'). unfold bind. rewrite E.
      destruct (IH rw' objs mine I') as (xs & rw2 & E2 & ST2 & I2).
      destruct x as [x|e].
      + rewrite E2. destruct xs as [xs|e]; eexists _, _; (split; [reflexivity|]); (split; [|exact I2]); eexists _, _; split; eauto.
      + eexists _, _. split; [reflexivity|]. split; [|exact I']. eexists _, _. split; eauto.
  Qed.
  Lemma operand_means : forall a rw objs mine, WInv rw objs mine ->
    exists x rw', r_operand a rw = (x, rw') /\ stands_set objs mine a x /\ WInv rw' objs mine.
  Proof.
    intros a rw objs mine I. pose proof I as (I1 & I2 & I3). destruct a as [l|u|i]; simpl.
    - eexists _, _. eauto.
    - rewrite I2. eexists _, _. split; [reflexivity|]. split; auto. destruct (nth_error mine u); auto.
    - pose proof (f2_look _ _ _ _ _ i I1) as L. destruct (nth_error (r_objs rw) i) as [p|] eqn:E.
      + destruct L as (l & L1 & L2). rewrite L1. eexists _, _. split; [reflexivity|]. split; [|exact I].
        exists (fst p). split; auto. apply L2.
      + rewrite L. eexists _, _. split; [reflexivity|]. auto.
  Qed.

  Lemma do_means : forall i o rw objs mine, WInv rw objs mine -> sop_ok o ->
    exists r rw' objs', r_do T eqb ord i o rw = (r, rw') /\ obj_effect eqb fref i o objs r objs' /\ WInv rw' objs' mine.
  Proof.
    intros i o rw objs mine I Ho. pose proof I as (I1 & I2 & I3). unfold r_do, obj_effect.
    pose proof (f2_look _ _ _ _ _ i I1) as L. destruct (nth_error (r_objs rw) i) as [p|] eqn:E.
    - destruct L as (l & L1 & L2). rewrite L1.
      destruct (ss_step_ok T ltb eqb fref dflt R ld HK ord HO o (value rw p) l (proj1 (good_sinv p l _) L2) Ho)
        as (r & s' & l' & E1 & EF & I' & _).
      rewrite E1. destruct (makes o) eqn:MK.
      + assert (HR : r = RUnit) by (destruct o; try discriminate; apply EF). subst r.
        eexists _, _, _. split; [reflexivity|]. split; [exists l'; split; [exact EF|reflexivity]|].
        split; [|split; auto]. apply Forall2_app; [auto|constructor; [apply good_of; auto|constructor]].
      + eexists _, _, _. split; [reflexivity|]. split; [exists l'; split; [exact EF|reflexivity]|].
        split; [|split; auto]. apply f2_put; [auto|apply good_of; auto].
    - rewrite L. eexists _, _, _. split; [reflexivity|]. auto.
  Qed.

  Lemma forall_put : forall A (P : A -> Prop) l i x, Forall P l -> P x -> Forall P (put l i x).
  Proof. intros A P l i x F Px. revert i. induction F; intros [|i]; simpl; constructor; auto. Qed.

  Lemma own_means : forall u f rw objs mine, WInv rw objs mine -> (forall m, distinct eqb m -> distinct eqb (f m)) ->
    exists rw', match nth_error mine u with
                | None => r_own u f rw = (RExn IndexError, rw) /\ rw' = rw
                | Some m => r_own u f rw = (RUnit, rw') /\ WInv rw' objs (put mine u (f m))
                end.
  Proof.
    intros u f rw objs mine (I1 & I2 & I3) Hf. unfold r_own. rewrite I2. destruct (nth_error mine u) as [m|] eqn:E.
    - eexists. split; [reflexivity|]. split; [exact I1|]. split; [reflexivity|]. apply forall_put; auto.
      apply Hf. rewrite Forall_forall in I3. apply I3. eapply nth_error_In; eauto.
    - eexists. split; reflexivity.
  Qed.

  Lemma step_means : forall o rw objs mine, WInv rw objs mine -> pop_ok o ->
    exists r rw' objs' mine', r_step T eqb ord o rw = (r, rw') /\ world_effect eqb fref o objs mine r objs' mine' /\
      WInv rw' objs' mine'.
  Proof.
    intros o rw objs mine I Ho. destruct o; simpl.
    - destruct (eval_means a rw objs mine I) as (x & rw1 & E & ST & I1). unfold r_then. rewrite E. destruct x as [x|e].
      + destruct (set_of_spec eqb HE (items x)) as (D1 & D2 & D3).
        eexists _, _, objs, (mine ++ [set_of eqb (items x)]). split; [reflexivity|]. split.
        * split; auto. eexists. split; [exact ST|]. simpl. split; auto. eexists. split; [reflexivity|]. split; [apply D2|apply D3].
        * destruct I1 as (A & B & C). split; [exact A|]. split; [simpl; rewrite B; auto|].
          apply Forall_app. split; auto.
      + eexists _, _, objs, mine. split; [reflexivity|]. split; [|exact I1]. split; auto. eexists. split; [exact ST|]. simpl. auto.
    - destruct (own_means u (set_add eqb v) rw objs mine I) as (rw' & W).
      { intros. apply set_add_distinct; auto. }
      destruct (nth_error mine u) as [m|] eqn:E.
      + destruct W as (W1 & W2). eexists _, _, objs, _. split; [exact W1|]. split; [|exact W2].
        split; auto. rewrite ?E. split; auto. eexists. split; [reflexivity|]. unfold set_add.
        destruct (set_mem eqb v m) eqn:SM; [left|right]; split; auto.
        * apply set_mem_iff. auto.
        * intro C. apply set_mem_iff in C. congruence.
      + destruct W as (W1 & ->). eexists _, _, objs, mine. split; [exact W1|]. split; [|exact I]. rewrite ?E. auto.
    - destruct (own_means u (set_del eqb v) rw objs mine I) as (rw' & W).
      { intros. apply set_del_distinct; auto. }
      destruct (nth_error mine u) as [m|] eqn:E.
      + destruct W as (W1 & W2). eexists _, _, objs, _. split; [exact W1|]. split; [|exact W2].
        split; auto. rewrite ?E. split; auto. eexists. split; [reflexivity|]. intro x. apply set_del_In.
      + destruct W as (W1 & ->). eexists _, _, objs, mine. split; [exact W1|]. split; [|exact I]. rewrite ?E. auto.
    - destruct (eval_means (PMine u) rw objs mine I) as (x & rw1 & E & ST & I1). unfold r_then. rewrite E.
      destruct x as [x|e]; eexists _, _, objs, mine; (split; [reflexivity|]); (split; [|exact I1]); (split; [auto|split; [auto|]]);
        simpl in ST; destruct (nth_error mine u).
      + destruct ST as (p & P1 & P2). inversion P2; subst. exists p. auto.
      + discriminate.
      + destruct ST as (p & P1 & P2). discriminate.
      + congruence.
    - destruct (eval_opt_means a rw objs mine I) as (x & rw1 & E & ST & I1). unfold r_then. rewrite E. destruct x as [x|e].
      + destruct (ss_new_ok T ltb eqb fref dflt R ld HK ord HO (r_tick rw1) x) as (s & l & E1 & SI & (U1 & U2 & U3) & _). rewrite E1.
        eexists _, _, (objs ++ [l]), mine. split; [reflexivity|]. split.
        * split; auto. eexists. split; [exact ST|]. simpl. split; auto. exists l. split; auto. split.
          -- intro v. rewrite U1. split.
             ++ intros [C|(y & Y1 & Y2)]; [destruct (mem_nil eqb v C)|]. destruct x; [|destruct Y1].
                destruct Y1 as [<-|[]]. eauto.
             ++ intros (y & -> & Y). right. exists y. simpl. auto.
          -- intros v Hv. apply U3 in Hv. destruct Hv as [[]|(y & Y1 & Y2)]. destruct x; [|destruct Y1].
             destruct Y1 as [<-|[]]. eauto.
        * destruct I1 as (A & B & C). split; [|split; auto]. apply Forall2_app; [auto|constructor; [apply good_of; auto|constructor]].
      + eexists _, _, objs, mine. split; [reflexivity|]. split; [|exact I1]. split; auto. eexists. split; [exact ST|]. simpl. auto.
    - pose proof I as (I1 & I2 & I3). unfold r_then, r_again.
      pose proof (f2_look _ _ _ _ _ i I1) as L. destruct (nth_error (r_objs rw) i) as [p|] eqn:EP.
      + destruct L as (l & L1 & L2). rewrite L1. destruct L2 as (G1 & G2 & G3). simpl in G1, G2, G3.
        destruct (ss_fromset_ok T ltb eqb fref dflt R ld HK ord HO (r_tick rw) (fst p) G2) as (s1 & l1 & E1 & S1 & SI & _).
        rewrite E1. assert (PM : Permutation l1 l).
        { destruct SI as (_ & _ & SP). rewrite S1 in SP. rewrite <- SP. auto. }
        assert (J : WInv (put_value i s1 rw) (put objs i l1) mine).
        { split; [|split; auto]. apply f2_put; [auto|apply good_of; auto]. }
        destruct (eval_opt_means a _ _ _ J) as (x & rw1 & E & ST & J1). rewrite E. destruct x as [x|e].
        * destruct x as [y|].
          -- destruct (do_means i (SUpdate [y]) rw1 _ _ J1) as (r & rw2 & objs2 & E2 & EF & J2); [exact Logic.I|].
             eexists _, _, objs2, mine. split; [exact E2|]. split; [|exact J2].
             split; auto. exists l1. split; auto. eexists. split; [exact ST|]. exact EF.
          -- pose proof (f2_look _ _ _ _ _ i (proj1 J1)) as L'. rewrite put_same in L' by (eapply nth_len; eauto).
             destruct (nth_error (r_objs rw1) i); [|discriminate].
             eexists _, _, (put objs i l1), mine. split; [reflexivity|]. split; [|exact J1].
             split; auto. exists l1. split; auto. eexists. split; [exact ST|]. simpl. auto.
        * eexists _, _, (put objs i l1), mine. split; [reflexivity|]. split; [|exact J1].
          split; auto. exists l1. split; auto. eexists. split; [exact ST|]. simpl. auto.
      + rewrite L. eexists _, _, objs, mine. split; [reflexivity|]. auto.
    - destruct (do_means i o rw objs mine I Ho) as (r & rw' & objs' & E & EF & I'). exists r, rw', objs', mine. auto.
    - destruct (eval_all_means args rw objs mine I) as (x & rw1 & E & ST & I1). unfold r_then. rewrite E. destruct x as [x|e].
      + destruct (do_means i (many_op c x) rw1 objs mine I1) as (r & rw' & objs' & E2 & EF & I').
        { destruct c; exact Logic.I. }
        exists r, rw', objs', mine. split; [exact E2|]. split; [|exact I']. split; auto. eexists. split; [exact ST|]. exact EF.
      + eexists _, _, objs, mine. split; [reflexivity|]. split; [|exact I1]. split; auto. eexists. split; [exact ST|]. simpl. auto.
    - destruct (eval_means a rw objs mine I) as (x & rw1 & E & ST & I1). unfold r_then. rewrite E. destruct x as [x|e].
      + destruct (do_means i (one_op c x) rw1 objs mine I1) as (r & rw' & objs' & E2 & EF & I').
        { destruct c; exact Logic.I. }
        exists r, rw', objs', mine. split; [exact E2|]. split; [|exact I']. split; auto. eexists. split; [exact ST|]. exact EF.
      + eexists _, _, objs, mine. split; [reflexivity|]. split; [|exact I1]. split; auto. eexists. split; [exact ST|]. simpl. auto.
    - destruct (operand_means a rw objs mine I) as (x & rw1 & E & ST & I1). unfold r_then. rewrite E. destruct x as [x|e].
      + destruct (do_means i (SCompare op x) rw1 objs mine I1) as (r & rw' & objs' & E2 & EF & I'); [exact Logic.I|].
        exists r, rw', objs', mine. split; [exact E2|]. split; [|exact I']. split; auto. eexists. split; [exact ST|]. exact EF.
      + eexists _, _, objs, mine. split; [reflexivity|]. split; [|exact I1]. split; auto. eexists. split; [exact ST|]. simpl. auto.
  Qed.

  Lemma winv_fine : forall rw objs mine, WInv rw objs mine ->
    Forall (fun l => sorted ltb l /\ distinct eqb l) objs /\ Forall (distinct eqb) mine.
  Proof.
    intros rw objs mine (I1 & I2 & I3). split; auto. induction I1; constructor; auto.
    split; [eapply sinv_sorted; eauto|eapply sinv_distinct; eauto].
  Qed.
End Sets.

Lemma run_means : forall S V K (T : listcls S V K) ltb eqb fref dflt R ld (HK : ClsOK T ltb eqb fref dflt R ld) ord,
  (forall n, any_order (ord n)) -> forall ops n robjs rmine objs mine, Forall2 (good eqb R) robjs objs -> rmine = mine ->
  Forall (distinct eqb) mine -> Forall pop_ok ops ->
  exists outs robjs' objs' mine', r_run T eqb ord n ops (robjs, rmine) = (outs, (robjs', mine')) /\
    world_history ltb eqb fref ops objs mine outs objs' mine' /\ Forall2 (good eqb R) robjs' objs'.
Proof.
  intros S V K T ltb eqb fref dflt R ld HK ord HO ops. induction ops as [|o ops IH]; intros n robjs rmine objs mine A B C F.
  - exists [], robjs, objs, mine. subst. split; [reflexivity|]. split; auto. constructor.
  - inversion F; subst.
    destruct (step_means T ltb eqb fref dflt R ld HK (ord n) (HO n) o (mkrworld robjs mine 0) objs mine) as (r & rw & objs1 & mine1 & E & EF & I).
    { split; auto. } { auto. }
    pose proof (winv_fine T ltb eqb fref dflt R ld HK _ _ _ I) as (W1 & W2).
    destruct I as (I1 & I2 & I3).
    destruct (IH (n + 1) (r_objs rw) (r_mine rw) objs1 mine1 I1 I2 I3) as (outs & robjs' & objs' & mine' & E2 & WH & G); auto.
    exists (r :: outs), robjs', objs', mine'. simpl. rewrite E, E2. split; [reflexivity|]. split; auto.
    econstructor; eauto.
Qed.

Lemma c84_sets : forall S V K (T : listcls S V K) (ltb eqb : V -> V -> bool) fref dflt (ord : nat -> nat -> list V -> list V) n ops outs w,
  list_class T ltb eqb fref dflt -> (forall k, any_order (ord k)) -> Forall pop_ok ops ->
  p_run T eqb ord n ops p_init = (outs, w) ->
  exists objs mine, world_history ltb eqb fref ops [] [] outs objs mine /\
    Forall2 (shows_as T w) (p_objs w) objs /\ seen_mine w = map (@Ok _) mine.
Proof.
  intros S V K T ltb eqb fref dflt ord n ops outs w HC HO F E. pose proof (reads_class _ _ _ _ _ _ _ _ HC) as HR. cls HC HK.
  destruct (run_means S V K T ltb eqb fref dflt R ld HK ord HO ops n [] [] [] [] (Forall2_nil _) Logic.eq_refl (Forall_nil _) F)
    as (outs' & robjs & objs & mine & E2 & WH & G).
  destruct (c84_values S V K T eqb ord n ops outs w outs' robjs mine HR E E2) as (A1 & A2 & A3 & _). subst outs'.
  exists objs, mine. split; [exact WH|]. split; [|exact A3].
  unfold seen in A2. clear - A2 G HK. revert A2. generalize (p_objs w) as os. induction G; intros [|o os] A2; simpl in A2; try discriminate; constructor.
  - inversion A2. exists (fst x), (snd x). split; auto. split; auto. destruct H as (X1 & X2 & X3). split; [eapply k_iter; eauto|exact X3].
  - apply IHG. inversion A2. auto.
Qed.

Lemma c84_plain : forall (V K : Type) (lt eq : V -> V -> res bool) (dflt : nat) (eqb : V -> V -> bool) (ord : nat -> nat -> list V -> list V) n
    (ops : list (pop V K)) outs w outs' objs mine,
  p_run (plain lt eq dflt) eqb ord n ops p_init = (outs, w) ->
  r_run (plain lt eq dflt) eqb ord n ops ([], []) = (outs', (objs, mine)) ->
  outs = outs' /\ seen w = map (fun p => (Ok (fst p), Ok (snd p))) objs /\ seen_mine w = map (@Ok _) mine /\ unshared w.
Proof. intros V K lt eq dflt eqb ord n ops outs w outs' objs mine. apply c84_values. apply reads_plain. Qed.

Lemma c84_keyed : forall (V K : Type) (eq : V -> V -> res bool) (klt keq : K -> K -> res bool) (key : V -> res K) (dflt : nat)
    (eqb : V -> V -> bool) (ord : nat -> nat -> list V -> list V) n (ops : list (pop V K)) outs w outs' objs mine,
  p_run (keyed eq klt keq key dflt) eqb ord n ops p_init = (outs, w) ->
  r_run (keyed eq klt keq key dflt) eqb ord n ops ([], []) = (outs', (objs, mine)) ->
  outs = outs' /\ seen w = map (fun p => (Ok (fst p), Ok (snd p))) objs /\ seen_mine w = map (@Ok _) mine /\ unshared w.
Proof. intros V K eq klt keq key dflt eqb ord n ops outs w outs' objs mine. apply c84_values. apply reads_keyed. Qed.

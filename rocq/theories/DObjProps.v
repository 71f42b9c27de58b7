(** * Proofs: programs with SortedDict objects (C85) *)
From Coq Require Import Permutation.
From Verif Require Import PyBase Model Spec History Reach ListClass ClassSpec ModelSet SetSpec ModelDict DictSpec MapFacts ModelObj ObjSpec ObjFacts
  ObjProps ModelDObj DObjSpec DObjFacts.
Local Unset Implicit Arguments.

Section World.
  Context {S A B K : Type}.
  Variable T : listcls S A K.
  Variable eqb : A -> A -> bool.
  Variable veqb : B -> B -> bool.
  Notation QW := (qworld S A B).
  Notation SD := (sdict S A B).
  Notation VW := (vworld SD A B).

  Record QRel0 (h : list S) (objs : list (dobj A B)) (vals : list SD) : Prop := {
    qr_len : length objs = length vals;
    qr_obj : forall i o s, nth_error objs i = Some o -> nth_error vals i = Some s -> qrep h o s;
    qr_lists : NoDup (map (@q_list A B) objs) }.
  Definition QRel (w : QW) (v : VW) : Prop :=
    QRel0 (w_lists w) (w_dicts w) (v_dicts v) /\ w_mine w = v_mine v /\ w_views w = v_views v.

  Lemma qrel_look : forall h objs vals i, QRel0 h objs vals ->
    match nth_error vals i with
    | Some s => exists o, nth_error objs i = Some o /\ qrep h o s
    | None => nth_error objs i = None
    end.
  Proof.
    intros h objs vals i R. destruct (nth_error vals i) as [p|] eqn:E.
    - destruct (nth_error objs i) as [o|] eqn:E2.
      + exists o. split; auto. eapply qr_obj; eauto.
      + apply nth_error_None in E2. apply nth_len in E. pose proof (qr_len _ _ _ R). lia.
    - apply nth_error_None. apply nth_error_None in E. pose proof (qr_len _ _ _ R). lia.
  Qed.
  Lemma qrep_len : forall (h : list S) (o : dobj A B) s, qrep h o s -> q_list o < length h.
  Proof. intros h o s (_ & E & _). eapply nth_len; eauto. Qed.
  Lemma qrel_in : forall h objs vals o, QRel0 h objs vals -> In o objs -> q_list o < length h.
  Proof.
    intros h objs vals o R C. apply In_nth_error in C. destruct C as (j & C).
    pose proof (qrel_look _ _ _ j R) as LK. destruct (nth_error vals j); [|congruence].
    destruct LK as (x & X1 & X2). rewrite X1 in C. inversion C; subst. eapply qrep_len; eauto.
  Qed.
  Lemma qrel_grows : forall h h' objs vals, QRel0 h objs vals -> qgrows h h' -> QRel0 h' objs vals.
  Proof.
    intros h h' objs vals R (G1 & G2). constructor; try apply R.
    intros i o s Ho Hs. pose proof (qr_obj _ _ _ R i o s Ho Hs) as HR. pose proof (qrep_len _ _ _ HR).
    destruct HR as (R1 & R2 & R3). split; [auto|]. split; [rewrite G2; auto|auto].
  Qed.
  Lemma qrel_put : forall h h' objs vals i o o' s, QRel0 h objs vals ->
    nth_error objs i = Some o -> qkeep (q_list o) h h' -> qrep h' o' s ->
    (q_list o' = q_list o \/ length h <= q_list o') -> QRel0 h' (put objs i o') (put vals i s).
  Proof.
    intros h h' objs vals i o o' s R Hi (K1 & K2) HH E.
    assert (Li : i < length objs) by (eapply nth_len; eauto).
    constructor.
    - rewrite !put_length. apply R.
    - intros j oj sj Hj Hs. destruct (Nat.eq_dec j i) as [->|D].
      + rewrite put_same in Hj by auto. rewrite put_same in Hs by (rewrite <- (qr_len _ _ _ R); auto).
        inversion Hj; inversion Hs; subst. exact HH.
      + rewrite put_other in Hj by auto. rewrite put_other in Hs by auto.
        pose proof (qr_obj _ _ _ R j oj sj Hj Hs) as HO. pose proof (qrep_len _ _ _ HO) as L.
        assert (N : q_list oj <> q_list o).
        { eapply (nodup_other _ _ j i); [apply (qr_lists _ _ _ R)| | |auto]; apply map_nth_error; auto. }
        destruct HO as (O1 & O2 & O3). split; [auto|split; [rewrite K2; auto|auto]].
    - rewrite map_put. destruct E as [E|E].
      + rewrite E, put_self; [apply R|]. apply map_nth_error; auto.
      + apply nodup_put; [apply R|]. intro C. apply in_map_iff in C. destruct C as (x & C1 & C2).
        apply (qrel_in _ _ _ _ R) in C2. lia.
  Qed.
  Lemma qrel_add : forall h h' objs vals o' s, QRel0 h objs vals ->
    qgrows h h' -> qrep h' o' s -> length h <= q_list o' -> QRel0 h' (objs ++ [o']) (vals ++ [s]).
  Proof.
    intros h h' objs vals o' s R G HH L. pose proof (qrel_grows _ _ _ _ R G) as R'. constructor.
    - rewrite !app_length. simpl. rewrite (qr_len _ _ _ R). auto.
    - intros j oj sj Hj Hs. destruct (lt_dec j (length objs)).
      + rewrite nth_error_app1 in Hj by auto. rewrite nth_error_app1 in Hs by (rewrite <- (qr_len _ _ _ R); auto).
        eapply qr_obj; eauto.
      + rewrite nth_error_app2 in Hj by lia. rewrite nth_error_app2 in Hs by (rewrite <- (qr_len _ _ _ R); lia).
        rewrite <- (qr_len _ _ _ R) in Hs.
        destruct (j - length objs) as [|k]; simpl in Hj, Hs; [inversion Hj; inversion Hs; subst; auto|destruct k; discriminate].
    - rewrite map_app. simpl. apply nodup_snoc; [apply R|].
      intro C. apply in_map_iff in C. destruct C as (x & C1 & C2). apply (qrel_in _ _ _ _ R) in C2. lia.
  Qed.

  Definition WSim {X} (m : QW -> X * QW) (m' : VW -> X * VW) : Prop := forall w v, QRel w v ->
    exists a w' v', m w = (a, w') /\ m' v = (a, v') /\ QRel w' v'.

  Lemma wsim_then : forall X (m : M QW X) m' (k : X -> QW -> dout A B * QW) k',
    WSim m m' -> (forall a, WSim (k a) (k' a)) -> WSim (q_then m k) (v_then m' k').
  Proof.
    intros X m m' k k' Hm Hk w v R. destruct (Hm w v R) as (a & w1 & v1 & E1 & E2 & R1).
    unfold q_then, v_then. rewrite E1, E2. destruct a as [a|e].
    - apply Hk. auto.
    - eexists _, _, _. eauto.
  Qed.

  Lemma with_sim : forall X (m : list S * dobj A B -> X * (list S * dobj A B)) m' dfl i w v, QRel w v -> QSim m m' ->
    match nth_error (v_dicts v) i with
    | None => q_with i m dfl w = (dfl IndexError, w)
    | Some s => exists a s' w', q_with i m dfl w = (a, w') /\ m' s = (a, s') /\ QRel w' (v_set i s' v)
    end.
  Proof.
    intros X m m' dfl i w v (R & RM & RV) Hm. pose proof (qrel_look _ _ _ i R) as LK. unfold q_with.
    destruct (nth_error (v_dicts v) i) as [s|] eqn:EP.
    - destruct LK as (o & Ho & HH). rewrite (proj2 (getn_nth _ _ _ _) Ho).
      destruct (Hm (w_lists w) o s HH) as (a & h' & o' & s' & E1 & E2 & R1 & L & F).
      rewrite E1, E2. rewrite setn_put by (eapply nth_len; eauto).
      eexists _, _, _. split; [reflexivity|]. split; [reflexivity|]. split; [|auto]. simpl. eapply qrel_put; eauto.
    - rewrite (getn_none _ _ _ LK). reflexivity.
  Qed.

  Lemma mine_get : forall w v u, QRel w v ->
    getn (w_mine w) u = match nth_error (v_mine v) u with None => Err IndexError | Some d => Ok d end.
  Proof. intros w v u (_ & E & _). rewrite E. unfold getn. reflexivity. Qed.

  Lemma qeval_sim : forall a, WSim (q_eval T eqb a) (v_eval (sd_items T eqb) a).
  Proof.
    intros a w v R. destruct a as [ps|u|i]; simpl.
    - eexists _, _, _. split; [reflexivity|split; [reflexivity|auto]].
    - rewrite (mine_get w v u R).
      destruct (nth_error (v_mine v) u); (eexists _, _, _; split; [reflexivity|split; [reflexivity|auto]]).
    - assert (HS : QSim (S := S) (B := B) (l <- qd_items T eqb ;; ret (ADict l)) (l <- sd_items T eqb ;; ret (ADict l)))
        by (apply qsim_bind; [apply qsim_items|intro; apply qsim_ret]).
      pose proof (with_sim _ _ _ (@Err _) i w v R HS) as W. destruct (nth_error (v_dicts v) i) as [s|].
      + destruct W as (a & s' & w' & E1 & E2 & R1). rewrite E1. unfold bind in E2.
        destruct (sd_items T eqb s) as [[l|e] s1]; inversion E2; subst;
          (eexists _, _, _; split; [reflexivity|split; [reflexivity|auto]]).
      + rewrite W. eexists _, _, _. split; [reflexivity|split; [reflexivity|auto]].
  Qed.
  Lemma qoperand_sim : forall a, WSim (q_operand eqb a) (v_operand eqb (@d_items S A B) a).
  Proof.
    intros a w v R. destruct a as [ps|u|i]; simpl.
    - unfold d_of. rewrite d_update_merge. eexists _, _, _. split; [reflexivity|split; [reflexivity|auto]].
    - rewrite (mine_get w v u R).
      destruct (nth_error (v_mine v) u); (eexists _, _, _; split; [reflexivity|split; [reflexivity|auto]]).
    - pose proof (with_sim _ _ _ (@Err _) i w v R qsim_dict) as W. destruct (nth_error (v_dicts v) i) as [s|] eqn:E.
      + destruct W as (a & s' & w' & E1 & E2 & R1). rewrite E1. unfold items_of, bind, get, ret in E2. inversion E2; subst.
        eexists _, _, _. split; [reflexivity|split; [reflexivity|]].
        unfold QRel, v_set in *. simpl in *. rewrite put_self in R1 by auto. auto.
      + rewrite W. eexists _, _, _. split; [reflexivity|split; [reflexivity|auto]].
  Qed.

  Lemma qdo_sim : iter_reads T -> forall i o, WSim (q_do T eqb veqb i o) (v_do (sd_step T eqb veqb) i o).
  Proof.
    intros I i op w v RT. pose proof RT as (R & RM & RV). unfold q_do, v_do, q_with. pose proof (qrel_look _ _ _ i R) as LK.
    destruct (nth_error (v_dicts v) i) as [s|] eqn:EP.
    - destruct LK as (o & Ho & HH). rewrite (proj2 (getn_nth _ _ _ _) Ho).
      pose proof (qdo_ok T eqb veqb I op _ _ _ HH) as D. unfold qstep_ok in D.
      destruct (sd_step T eqb veqb op s) as [r s']. destruct (dmakes op).
      + destruct D as (h' & G & [(o' & E1 & -> & R1 & L1)|(e & E1 & ->)]); rewrite E1;
          rewrite setn_put by (eapply nth_len; eauto); rewrite put_self by auto.
        * eexists _, _, _. split; [reflexivity|split; [reflexivity|]]. split; [|auto]. simpl. eapply qrel_add; eauto.
        * eexists _, _, _. split; [reflexivity|split; [reflexivity|]]. split; [|auto]. simpl. eapply qrel_grows; eauto.
      + destruct D as (h' & o' & E1 & R1 & L & F). rewrite E1.
        rewrite setn_put by (eapply nth_len; eauto).
        eexists _, _, _. split; [reflexivity|split; [reflexivity|]]. split; [|auto]. simpl. eapply qrel_put; eauto.
    - rewrite (getn_none _ _ _ LK). eexists _, _, _. split; [reflexivity|split; [reflexivity|auto]].
  Qed.

  Lemma qagain_sim : forall i,
    WSim (q_with i (qd_attach T) (@Err _)) (v_again (fun d => let! l := l_new T [] in Ok (mksd (d_items d) l)) i).
  Proof.
    intros i w v RT. pose proof RT as (R & RM & RV). unfold v_again, q_with. pose proof (qrel_look _ _ _ i R) as LK.
    destruct (nth_error (v_dicts v) i) as [s|] eqn:EP.
    - destruct LK as (o & Ho & HH). rewrite (proj2 (getn_nth _ _ _ _) Ho). rewrite qattach_ok.
      destruct (l_new T []) as [l|e]; rewrite setn_put by (eapply nth_len; eauto); simpl.
      + eexists _, _, _. split; [reflexivity|split; [reflexivity|]]. split; [|auto]. simpl.
        replace (d_items s) with (q_items o) by apply HH.
        eapply qrel_put; eauto; [apply qgrows_keep, qgrows_app|apply qrep_new].
      + rewrite put_self by auto. eexists _, _, _. split; [reflexivity|split; [reflexivity|]]. split; auto.
    - rewrite (getn_none _ _ _ LK). eexists _, _, _. split; [reflexivity|split; [reflexivity|auto]].
  Qed.

  Lemma qown_sim : forall u (f g : list (A * B) -> list (A * B)), (forall d, f d = g d) -> WSim (q_own u f) (v_own u g).
  Proof.
    intros u f g HF w v RT. pose proof RT as (R & RM & RV). unfold q_own, v_own. rewrite (mine_get w v u RT).
    destruct (nth_error (v_mine v) u) as [d|] eqn:E; simpl.
    - rewrite HF, RM, setn_put by (eapply nth_len; eauto).
      eexists _, _, _. split; [reflexivity|split; [reflexivity|]]. split; auto.
    - eexists _, _, _. split; [reflexivity|split; [reflexivity|]]. auto.
  Qed.

  Lemma qstep_sim : iter_reads T -> forall o, WSim (q_step T eqb veqb o)
    (v_step eqb (sd_step T eqb veqb) (sd_new T eqb) (sd_items T eqb) (@d_items S A B)
       (fun d => let! l := l_new T [] in Ok (mksd (d_items d) l)) o).
  Proof.
    intros I o. destruct o; cbn [q_step v_step].
    - apply wsim_then; [apply qeval_sim|]. intros x w v (R & RM & RV).
      eexists _, _, _. split; [reflexivity|split; [reflexivity|]]. split; [auto|]. simpl. unfold d_of. rewrite RM, d_update_merge. auto.
    - apply qown_sim. intro. apply d_set_store.
    - apply qown_sim. reflexivity.
    - apply wsim_then; [apply (qeval_sim (QMine u))|]. intros x w v R. eexists _, _, _. split; [reflexivity|split; [reflexivity|auto]].
    - apply wsim_then; [apply qeval_sim|]. intros x w v (R & RM & RV).
      pose proof (qnew_ok T eqb (w_lists w) (mkdobj [] 0 0 0) x) as X. unfold qborn in X.
      destruct (sd_new T eqb x) as [s|e].
      + destruct X as (h' & o' & E1 & R1 & G & L). rewrite E1.
        eexists _, _, _. split; [reflexivity|split; [reflexivity|]]. split; [|auto]. simpl. eapply qrel_add; eauto.
      + destruct X as (h' & E1 & G). rewrite E1.
        eexists _, _, _. split; [reflexivity|split; [reflexivity|]]. split; [|auto]. simpl. eapply qrel_grows; eauto.
    - apply wsim_then; [apply qagain_sim|]. intros _. apply wsim_then; [apply qeval_sim|]. intro. apply qdo_sim; auto.
    - apply qdo_sim; auto.
    - apply wsim_then; [apply qeval_sim|]. intro. apply qdo_sim; auto.
    - apply wsim_then; [apply qeval_sim|]. intro. apply qdo_sim; auto.
    - apply wsim_then; [apply qeval_sim|]. intro. apply qdo_sim; auto.
    - apply wsim_then; [apply qoperand_sim|]. intro. apply qdo_sim; auto.
    - intros w v RT. pose proof RT as (R & RM & RV). pose proof (qrel_look _ _ _ i R) as LK.
      destruct (nth_error (v_dicts v) i) as [s|].
      + destruct LK as (o & Ho & _). rewrite (proj2 (getn_nth _ _ _ _) Ho).
        eexists _, _, _. split; [reflexivity|split; [reflexivity|]]. split; [auto|]. simpl. rewrite RV. auto.
      + rewrite (getn_none _ _ _ LK). eexists _, _, _. split; [reflexivity|split; [reflexivity|]]. auto.
    - intros w v RT. pose proof RT as (R & RM & RV). rewrite RV. unfold getn.
      destruct (nth_error (v_views v) n) as [i|].
      + apply qdo_sim; auto.
      + eexists _, _, _. split; [reflexivity|split; [reflexivity|]]. auto.
  Qed.

  Lemma qrun_sim : iter_reads T -> forall ops, WSim (q_run T eqb veqb ops) (v_run T eqb veqb ops).
  Proof.
    intros I ops. induction ops as [|o t IH]; intros w v R.
    - eexists _, _, _. split; [reflexivity|split; [reflexivity|auto]].
    - unfold q_run, v_run in *. cbn [run]. destruct (qstep_sim I o w v R) as (r & w1 & v1 & E1 & E2 & R1).
      rewrite E1, E2. destruct (IH w1 v1 R1) as (rs & w2 & v2 & E3 & E4 & R2). rewrite E3, E4.
      eexists _, _, _. split; [reflexivity|split; [reflexivity|auto]].
  Qed.
  Lemma qrel_init : QRel q_init v_init.
  Proof. split; [|auto]. constructor; simpl; [reflexivity| |constructor]. intros [|i]; discriminate. Qed.
End World.

Lemma qrel_seen : forall S A B (w : qworld S A B) v, QRel w v ->
  dseen w = map (fun s => (d_items s, Ok (d_list s))) (v_dicts v) /\ dunshared w.
Proof.
  intros S A B w v (R & _ & _). split; [|split].
  - unfold dseen. pose proof (qr_len _ _ _ R) as L. pose proof (qr_obj _ _ _ R) as O. clear R.
    revert L O. generalize (w_dicts w) (v_dicts v). induction l as [|o t IH]; intros [|s vs] L O; simpl in *; try discriminate; auto.
    destruct (O 0 o s Logic.eq_refl Logic.eq_refl) as (E1 & E2 & _). rewrite E1, (proj2 (getn_nth _ _ _ _) E2).
    f_equal. apply IH; [lia|]. intros i. apply (O (Datatypes.S i)).
  - apply R.
  - apply Forall_forall. intros o C. apply In_nth_error in C. destruct C as (j & C).
    pose proof (qrel_look _ _ _ j R) as LK. destruct (nth_error (v_dicts v) j); [|congruence].
    destruct LK as (x & X1 & _ & _ & X2). rewrite X1 in C. inversion C; subst. tauto.
Qed.

Lemma c85_values : forall S A B K (T : listcls S A K) eqb (veqb : B -> B -> bool) ops outs w outs' v, iter_reads T ->
  q_run T eqb veqb ops q_init = (outs, w) -> v_run T eqb veqb ops v_init = (outs', v) ->
  outs = outs' /\ dseen w = map (fun s => (d_items s, Ok (d_list s))) (v_dicts v) /\ w_mine w = v_mine v /\ dunshared w.
Proof.
  intros S A B K T eqb veqb ops outs w outs' v I E1 E2.
  destruct (qrun_sim T eqb veqb I ops q_init v_init qrel_init) as (a & w' & v' & E3 & E4 & R).
  rewrite E1 in E3. rewrite E2 in E4. inversion E3; inversion E4; subst.
  destruct (qrel_seen _ _ _ _ _ R) as (H1 & H2). destruct R as (_ & RM & _). auto.
Qed.

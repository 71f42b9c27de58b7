(** * What fails when [==] is finer than the order: witnesses *)
From Verif Require Import PyBase Model Spec History Reach ListClass ClassSpec ModelSet SetSpec ModelDict DictSpec Concrete WeakSpec.
Local Unset Implicit Arguments.

(** Pairs ordered by their first component and equal when both are. *)
Lemma wk_swo : SWO pltb.
Proof. exact (to_swo pair_total). Qed.
Lemma wk_compat : EqCompat pltb pairb.
Proof. exact pairb_compat. Qed.
Lemma wk_equiv : Equiv pairb.
Proof.
  unfold pairb. constructor.
  - intros x. rewrite !Nat.eqb_refl. reflexivity.
  - intros x y H. apply andb_true_iff in H as [H1 H2]. rewrite Nat.eqb_eq in *. rewrite H1, H2, !Nat.eqb_refl. reflexivity.
  - intros x y z H H'. apply andb_true_iff in H as [H1 H2], H' as [H3 H4]. rewrite Nat.eqb_eq in *.
    rewrite H1, H2, H3, H4, !Nat.eqb_refl. reflexivity.
Qed.

Definition wk_ops : list (lop pv) := [LAdd (1, 0); LAdd (1, 1)].
Definition wk_c : core pv pv := snd (sl_run (total2 pltb) (total2 pairb) 2 wk_ops (sl_init 2)).
Lemma wk_ops_ok : Forall wk_ok wk_ops.
Proof. repeat constructor. Qed.
Lemma wk_reaches : sl_run (total2 pltb) (total2 pairb) 2 wk_ops (sl_init 2) = ([RUnit; RUnit], wk_c).
Proof. reflexivity. Qed.
Lemma wk_shows : shows wk_c [(1, 0); (1, 1)].
Proof. reflexivity. Qed.

Lemma c82_contains : ~ (forall V (ltb eqb : V -> V -> bool) dflt ops outs c l v,
  SWO ltb -> Equiv eqb -> EqCompat ltb eqb -> 1 <= dflt -> Forall wk_ok ops ->
  sl_run (total2 ltb) (total2 eqb) dflt ops (sl_init dflt) = (outs, c) -> shows c l -> In v l ->
  exists c', sl_do ltb eqb dflt (LContains v) c = (RBool true, c')).
Proof.
  intros H. destruct (H pv pltb pairb 2 wk_ops _ wk_c _ (1, 1) wk_swo wk_equiv wk_compat ltac:(lia) wk_ops_ok wk_reaches wk_shows)
    as (c' & E); [cbn; auto|]. vm_compute in E. discriminate.
Qed.

Lemma c82_remove : ~ (forall V (ltb eqb : V -> V -> bool) dflt ops outs c l v,
  SWO ltb -> Equiv eqb -> EqCompat ltb eqb -> 1 <= dflt -> Forall wk_ok ops ->
  sl_run (total2 ltb) (total2 eqb) dflt ops (sl_init dflt) = (outs, c) -> shows c l -> In v l ->
  exists c', sl_do ltb eqb dflt (LRemove v) c = (RUnit, c')).
Proof.
  intros H. destruct (H pv pltb pairb 2 wk_ops _ wk_c _ (1, 1) wk_swo wk_equiv wk_compat ltac:(lia) wk_ops_ok wk_reaches wk_shows)
    as (c' & E); [cbn; auto|]. vm_compute in E. discriminate.
Qed.

Lemma c82_count : ~ (forall V (ltb eqb : V -> V -> bool) dflt ops outs c l v,
  SWO ltb -> Equiv eqb -> EqCompat ltb eqb -> 1 <= dflt -> Forall wk_ok ops ->
  sl_run (total2 ltb) (total2 eqb) dflt ops (sl_init dflt) = (outs, c) -> shows c l ->
  exists c', sl_do ltb eqb dflt (LCount v) c = (RNat (sp_count eqb v l), c')).
Proof.
  intros H. destruct (H pv pltb pairb 2 wk_ops _ wk_c _ (1, 1) wk_swo wk_equiv wk_compat ltac:(lia) wk_ops_ok wk_reaches wk_shows)
    as (c' & E). vm_compute in E. discriminate.
Qed.

Lemma c82_index : ~ (forall V (ltb eqb : V -> V -> bool) dflt ops outs c l v start stop i c',
  SWO ltb -> Equiv eqb -> EqCompat ltb eqb -> 1 <= dflt -> Forall wk_ok ops ->
  sl_run (total2 ltb) (total2 eqb) dflt ops (sl_init dflt) = (outs, c) -> shows c l ->
  sl_do ltb eqb dflt (LIndex v start stop) c = (RNat i, c') ->
  exists x, nth_error l i = Some x /\ eqb x v = true).
Proof.
  intros H. destruct (H pv pltb pairb 2 wk_ops _ wk_c _ (1, 0) (Some 1%Z) None 1 (snd (sl_do pltb pairb 2 (LIndex (1, 0) (Some 1%Z) None) wk_c))
    wk_swo wk_equiv wk_compat ltac:(lia) wk_ops_ok wk_reaches wk_shows) as (x & E & Ex); [vm_compute; reflexivity|].
  cbn in E. injection E as <-. vm_compute in Ex. discriminate.
Qed.

Lemma c82_set : exists V (ltb eqb : V -> V -> bool) dflt ord s0 s v l,
  let T := plain (K:=V) (total2 ltb) (total2 eqb) dflt in
  SWO ltb /\ Equiv eqb /\ EqCompat ltb eqb /\ 1 <= dflt /\ any_order ord /\
  ss_new T eqb ord 0 (Some (AIter l)) = Ok s0 /\ ss_shows T s0 l /\ In v l /\
  ss_discard T eqb v s0 = (Err ValueError, s) /\
  ss_contains eqb v s = (Ok false, s) /\ ss_shows T s l.
Proof.
  exists pv, pltb, pairb, 2, (fun _ l => l). eexists _, _. exists (1, 1), [(1, 0); (1, 1)]. cbv zeta.
  split; [exact wk_swo|]. split; [exact wk_equiv|]. split; [exact wk_compat|]. split; [lia|]. split; [intros n l; reflexivity|].
  split; [vm_compute; reflexivity|]. split; [vm_compute; reflexivity|]. split; [cbn; auto|].
  split; [vm_compute; reflexivity|]. split; vm_compute; reflexivity.
Qed.

Lemma c82_dict : exists A B (ltb eqb : A -> A -> bool) dflt s0 s (k : A) (v : B) ks,
  let T := plain (K:=A) (total2 ltb) (total2 eqb) dflt in
  SWO ltb /\ Equiv eqb /\ EqCompat ltb eqb /\ 1 <= dflt /\
  sd_new T eqb (APairs (map (fun k => (k, v)) ks)) = Ok s0 /\ sd_iter T s0 = (Ok ks, s0) /\ In k ks /\
  sd_delitem T eqb k s0 = (Err ValueError, s) /\
  sd_contains eqb k s = (Ok false, s) /\ sd_iter T s = (Ok ks, s).
Proof.
  exists pv, nat, pltb, pairb, 2. eexists _, _. exists (1, 1), 7, [(1, 0); (1, 1)]. cbv zeta.
  split; [exact wk_swo|]. split; [exact wk_equiv|]. split; [exact wk_compat|]. split; [lia|].
  split; [vm_compute; reflexivity|]. split; [vm_compute; reflexivity|]. split; [cbn; auto|].
  split; [vm_compute; reflexivity|]. split; vm_compute; reflexivity.
Qed.

(** * The list inside a SortedSet or SortedDict, made by [SortedList(..., key=key)], is one of the two list classes *)
From Coq Require Import String.
From Verif Require Import PyBase Model Spec BaseFacts SpecFacts History Reach ListClass ClassSpec ClassFacts HistFacts ModelSet SetSpec ModelDict DictSpec ModelClass ClassesSpec.
Local Unset Implicit Arguments.

Section Inner.
  Context {V K B F : Type}.
  Variables ltb eqb : V -> V -> bool.
  Variables kltb keqb : K -> K -> bool.
  Variable key : F -> V -> K.
  Variable ident : F.
  Variable dflt : nat.
  Hypothesis HT : TotalOrder ltb eqb.
  Hypothesis HK : TotalOrder kltb keqb.
  Hypothesis HE : forall f, EqCompat (by_key (key f) kltb) eqb.
  Hypothesis Hd : 1 <= dflt.
  Notation den := (fun f => total1 (key f)).
  Notation lobj := (lobj (V:=V) (K:=K) (F:=F)).
  Notation Inn := (inner (total2 ltb) (total2 eqb) (total2 kltb) (total2 keqb) den ident dflt).

  Definition IR (k : option F) (o : lobj) (l : list V) : Prop :=
    match o_state o with
    | LPlain s => k = None /\ PR ltb s l
    | LKeyed f s => k = Some f /\ KR (key f) kltb s l
    | LNone => False
    end.
  Definition ild (o : lobj) : nat := match o_state o with LPlain s => load s | LKeyed _ s => load (kc s) | LNone => 0 end.
  Definition plain_cls := plain (K:=K) (total2 ltb) (total2 eqb) dflt.
  Definition keyed_cls (f : F) := keyed (total2 eqb) (total2 kltb) (total2 keqb) (total1 (key f)) dflt.
  Lemma plain_cls_ok : ClsOK plain_cls ltb eqb (fwd_plain ltb eqb) dflt (PR ltb) (@load V V).
  Proof. apply plain_ok; assumption. Qed.
  Lemma keyed_cls_ok f : ClsOK (keyed_cls f) (by_key (key f) kltb) eqb (fwd_keyed (key f) kltb eqb) dflt (KR (key f) kltb) (fun s => load (kc s)).
  Proof. apply keyed_ok; auto. apply (to_equiv _ _ HT). Qed.

  Lemma ir_plain o l : IR None o l -> exists c s, o = mklobj c (LPlain s) /\ PR ltb s l.
  Proof. destruct o as [c [s|g s|]]; cbn; [intros [_ H]; eauto|intros [[=] _]|tauto]. Qed.
  Lemma ir_keyed f o l : IR (Some f) o l -> exists c s, o = mklobj c (LKeyed f s) /\ KR (key f) kltb s l.
  Proof. destruct o as [c [s|g s|]]; cbn; [intros [[=] _]|intros [[= <-] H]; eauto|tauto]. Qed.

  Lemma up_p {A} p q (r : list V -> res A) n : (forall s l, PR ltb s l -> exists s', p s = (r l, s') /\ PR ltb s' (n l) /\ load s' = load s) ->
    forall o l, IR None o l -> exists o', virtual p q o = (r l, o') /\ IR None o' (n l) /\ ild o' = ild o.
  Proof.
    intros H o l HR. apply ir_plain in HR as (c & s & -> & HR). destruct (H s l HR) as (s' & E & H1 & H2). exists (mklobj c (LPlain s')).
    unfold virtual. cbn. rewrite E. cbn. auto.
  Qed.
  Lemma up_k {A} f p q (r : list V -> res A) n : (forall s l, KR (key f) kltb s l -> exists s', q f s = (r l, s') /\ KR (key f) kltb s' (n l) /\ load (kc s') = load (kc s)) ->
    forall o l, IR (Some f) o l -> exists o', virtual p q o = (r l, o') /\ IR (Some f) o' (n l) /\ ild o' = ild o.
  Proof.
    intros H o l HR. apply ir_keyed in HR as (c & s & -> & HR). destruct (H s l HR) as (s' & E & H1 & H2). exists (mklobj c (LKeyed f s')).
    unfold virtual. cbn. rewrite E. cbn. auto.
  Qed.
  Lemma rd_p {A} p q (r : list V -> res A) : (forall s l, PR ltb s l -> p s = (r l, s)) -> forall o l, IR None o l -> virtual p q o = (r l, o).
  Proof. intros H o l HR. apply ir_plain in HR as (c & s & -> & HR). unfold virtual. cbn. rewrite (H s l HR). reflexivity. Qed.
  Lemma rd_k {A} f p q (r : list V -> res A) : (forall s l, KR (key f) kltb s l -> q f s = (r l, s)) -> forall o l, IR (Some f) o l -> virtual p q o = (r l, o).
  Proof. intros H o l HR. apply ir_keyed in HR as (c & s & -> & HR). unfold virtual. cbn. rewrite (H s l HR). reflexivity. Qed.

  Lemma inner_ok k : ClsOK (Inn k) (less ltb kltb key k) eqb (exposed ltb eqb kltb key k) dflt (IR k) ild.
  Proof.
    destruct k as [f|].
    - pose proof (keyed_cls_ok f) as H. destruct H.
      split; try assumption; cbn [less].
      + intros o l H. apply ir_keyed in H as (c & s & -> & HR). eapply k_sorted; eassumption.
      + intros it. destruct (k_new it) as (s & E & HR & Hl). exists (mklobj SortedKeyList_ (LKeyed f s)). cbn.
        cbn in E. rewrite E. cbn. auto.
      + intros x. exact (up_k f _ _ (fun l => _) (fun l => _) (k_add x)).
      + exact (up_k f _ _ (fun l => _) (fun l => _) k_clear).
      + intros x. exact (up_k f _ _ (fun l => _) (fun l => _) (k_update x)).
      + intros x. exact (up_k f _ _ (fun l => _) (fun l => _) (k_remove x)).
      + intros x. exact (up_k f _ _ (fun l => _) (fun l => _) (k_pop x)).
      + intros x. exact (up_k f _ _ (fun l => _) (fun l => _) (k_get x)).
      + intros x. exact (up_k f _ _ (fun l => _) (fun l => _) (k_slice x)).
      + intros x. exact (up_k f _ _ (fun l => _) (fun l => _) (k_del x)).
      + intros x. exact (up_k f _ _ (fun l => _) (fun l => _) (k_del_slice x)).
      + exact (rd_k f _ _ (fun l => _) k_iter).
      + exact (rd_k f _ _ (fun l => _) k_reversed).
      + exact (rd_k f _ _ (fun l => _) k_len).
      + intros o l HR Hl. apply ir_keyed in HR as (c & s & -> & HR). exact (k_check s l HR Hl).
      + intros g o l HR Hg. apply ir_keyed in HR as (c & s & -> & HR). destruct (k_fwd g s l HR Hg) as (s' & E & H1 & H2).
        exists (mklobj c (LKeyed f s')). split; [|split; [split; [reflexivity|exact H1]|exact H2]].
        change (l_fwd (keyed_cls f) g s) with (skl_step (total2 eqb) (total2 eqb) (total2 kltb) (total2 keqb) (total1 (key f)) dflt (fwd_op g) s) in E.
        assert (EE : skl_step (total2 ltb) (total2 eqb) (total2 kltb) (total2 keqb) (total1 (key f)) dflt (fwd_op g) s =
          skl_step (total2 eqb) (total2 eqb) (total2 kltb) (total2 keqb) (total1 (key f)) dflt (fwd_op g) s) by (destruct g; reflexivity).
        cbn [l_fwd inner]. unfold l_do. cbn [o_state o_class]. rewrite EE, E. destruct g; reflexivity.
    - pose proof plain_cls_ok as H. destruct H.
      split; try assumption; cbn [less].
      + intros o l H. apply ir_plain in H as (c & s & -> & HR). eapply k_sorted; eassumption.
      + intros it. destruct (k_new it) as (s & E & HR & Hl). exists (mklobj SortedList_ (LPlain s)). cbn.
        cbn in E. rewrite E. cbn. auto.
      + intros x. exact (up_p _ _ (fun l => _) (fun l => _) (k_add x)).
      + exact (up_p _ _ (fun l => _) (fun l => _) k_clear).
      + intros x. exact (up_p _ _ (fun l => _) (fun l => _) (k_update x)).
      + intros x. exact (up_p _ _ (fun l => _) (fun l => _) (k_remove x)).
      + intros x. exact (up_p _ _ (fun l => _) (fun l => _) (k_pop x)).
      + intros x. exact (up_p _ _ (fun l => _) (fun l => _) (k_get x)).
      + intros x. exact (up_p _ _ (fun l => _) (fun l => _) (k_slice x)).
      + intros x. exact (up_p _ _ (fun l => _) (fun l => _) (k_del x)).
      + intros x. exact (up_p _ _ (fun l => _) (fun l => _) (k_del_slice x)).
      + exact (rd_p _ _ (fun l => _) k_iter).
      + exact (rd_p _ _ (fun l => _) k_reversed).
      + exact (rd_p _ _ (fun l => _) k_len).
      + intros o l HR Hl. apply ir_plain in HR as (c & s & -> & HR). exact (k_check s l HR Hl).
      + intros g o l HR Hg. apply ir_plain in HR as (c & s & -> & HR). destruct (k_fwd g s l HR Hg) as (s' & E & H1 & H2).
        exists (mklobj c (LPlain s')). split; [|split; [split; [reflexivity|exact H1]|exact H2]].
        cbn [l_fwd plain plain_cls] in E. cbn [l_fwd inner]. unfold l_do. cbn [o_state o_class exposed].
        destruct g; cbn [fwd_op] in *; try (rewrite E; reflexivity); injection E as <-; reflexivity.
  Qed.
End Inner.

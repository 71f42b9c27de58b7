(** * SortedKeyList when keys or comparisons raise or are not an order, as lemmas *)
From Verif Require Import PyBase Model Spec History Reach BaseFacts SpecFacts SliceFacts IndexFacts Shape CoreFacts VtFacts
  KeyFacts KeyLook ListSim ListFacts HistFacts CheckFacts FaultFacts FaultSpec FaultHist ListProps FaultProps KeyProps.
From Coq Require Import Sorting.Permutation Sorting.Sorted.
Local Unset Implicit Arguments.

Lemma key_raises_iff {V K} (vlt eq : V -> V -> res bool) (klt keq : K -> K -> res bool) (kf : V -> res K) e :
  KRaised'' vlt eq klt keq kf e <-> key_raises vlt eq klt keq kf e.
Proof. unfold KRaised'', KRaised', KRaised, key_raises. tauto. Qed.

Lemma or_raised_iff {V} (R1 R2 : exn -> Prop) (r : out V) P Q : (forall e, R1 e -> R2 e) ->
  or_raised R1 r P Q -> or_raised R2 r P Q.
Proof. intros H [?|(e & ? & ? & ?)]; [left; auto|right; exists e; auto]. Qed.
Lemma quiet_iff {V} (R1 R2 : exn -> Prop) d (r : out V) l l' : (forall e, R1 e -> R2 e) ->
  quiet R1 d r l l' -> quiet R2 d r l l'.
Proof. intros H [? Q]; split; auto. intros e E. destruct (Q e E); auto. Qed.
Lemma loose_imp {V} eq (R1 R2 : exn -> Prop) (o : lop V) l r l' : (forall e, R1 e -> R2 e) ->
  loose eq R1 o l r l' -> loose eq R2 o l r l'.
Proof.
  intros H. destruct o; cbn [loose]; try (apply or_raised_iff; exact H); auto;
    try (intros [Q ?]; split; [eapply quiet_iff; eauto|auto]).
  - intros [Q|Q]; [left; eapply or_raised_iff; eauto|right; exact Q].
  - destruct (sp_del_slice sl l); [apply or_raised_iff; exact H|auto].
Qed.
Lemma kloose_imp {V K} eq (R1 R2 : exn -> Prop) (o : kop V K) l r l' : (forall e, R1 e -> R2 e) ->
  kloose eq R1 o l r l' -> kloose eq R2 o l r l'.
Proof.
  intros H. destruct o; cbn [kloose]; [apply loose_imp; exact H| | |]; intros [Q ?]; split; auto; eapply quiet_iff; eauto.
Qed.

Lemma kloose_doc {V K} (eq : V -> V -> res bool) (raised : exn -> Prop) (o : kop V K) l e l' :
  kloose eq raised o l (RExn e) l' ->
  raised e \/ kdocumented o e \/ (exists v, o = KList (LCount v) /\ e = Underflow).
Proof.
  destruct o as [o| | |]; cbn [kloose kdocumented].
  - intros H. destruct (loose_doc eq raised o l e l' H) as [|[|(v & -> & ->)]]; eauto.
  - intros [[_ H] _]. destruct (H e eq_refl); tauto.
  - intros [[_ H] _]. destruct (H e eq_refl); tauto.
  - intros [[_ H] _]. destruct (H e eq_refl); tauto.
Qed.

(** ** C55, SortedKeyList *)
Lemma kwild_shape V K (kf : V -> res K) dflt (s : skl V K) : 1 <= dflt -> kwild_reach kf dflt s -> Shape kf s.
Proof.
  intros Hd (ws & Hok & Hf & ->).
  assert (H0 : Shape kf (skl_init (V:=V) (K:=K) dflt)) by (apply shape_empty; exact Hd).
  revert Hf Hok H0. generalize (skl_init (V:=V) (K:=K) dflt). unfold kwild_run.
  induction ws as [|w ws IH]; intros c Hf Hok H0; [exact H0|]. cbn [run map] in *.
  inversion Hok as [|? ? Hw Hok']; subst.
  destruct (skl_step_gen (kw_vlt w) (kw_eq w) (kw_klt w) (kw_keq w) kf dflt Hd (kw_op w) c H0 Hw) as (r & c1 & E & _ & Hn).
  unfold kwild_step in Hf at 1. unfold kwild_step at 1. rewrite E in *.
  specialize (IH c1). destruct (run (kwild_step kf dflt) ws c1) as [rs c2]. cbn [fst snd] in *.
  inversion Hf; subst. apply IH; auto.
Qed.

Lemma c55_key_consistent : forall V K (kf : V -> res K) dflt (s : skl V K), 1 <= dflt -> kwild_reach kf dflt s ->
  exists l, kshows s l /\ length_of (kc s) = (Ok (length l), kc s) /\ reversed (kc s) = (Ok (rev l), kc s) /\
    forall vlt eq klt keq o, kop_ok o ->
      exists r s' l', skl_step vlt eq klt keq kf dflt o s = (r, s') /\ kshows s' l' /\
        kloose eq (key_raises vlt eq klt keq kf) o l r l'.
Proof.
  intros V K kf dflt s Hd HR. pose proof (kwild_shape V K kf dflt s Hd HR) as HS. exists (contents (kc s)).
  pose proof (shape_core _ _ HS) as HC.
  split; [reflexivity|]. split; [unfold length_of, bind, get, ret; rewrite (co_len _ HC); reflexivity|].
  split; [apply reversed_ok|]. intros vlt eq klt keq o Ho.
  destruct (skl_step_gen vlt eq klt keq kf dflt Hd o s HS Ho) as (r & s' & E & HL & _).
  exists r, s', (contents (kc s')). split; [exact E|]. split; [reflexivity|].
  eapply kloose_imp; [|exact HL]. intros e. apply key_raises_iff.
Qed.

(** ** C32 *)
Section OtherKey.
  Context {V K : Type}.
  Variable key : V -> K.
  Variables vlt eq : V -> V -> res bool.
  Variables klt keq : K -> K -> res bool.
  Variable kf : V -> res K.
  Variable dflt : nat.
  (** [kf] is [key], except that it may raise. *)
  Hypothesis Hkf : forall v k, kf v = Ok k -> k = key v.
  Notation SKL := (skl V K).
  Notation step kf := (skl_step vlt eq klt keq kf dflt).

  Lemma kf_find v (s : SKL) :
    (exists e, kf v = Err e /\ skl_find eq klt keq kf v s = (Err e, s)) \/
    skl_find eq klt keq kf v s = skl_find eq klt keq (total1 key) v s.
  Proof.
    unfold skl_find. rewrite !bind_get. destruct (is_nil (maxes (kc s))); [right; reflexivity|].
    destruct (kf v) as [k|e] eqn:E.
    - right. rewrite (Hkf v k E). reflexivity.
    - left. exists e. split; [reflexivity|]. reflexivity.
  Qed.

  Lemma kf_new (l : list V) (s s' : SKL) e : rebind (V:=V) (liftr (skl_new klt kf dflt l)) s = (RExn e, s') ->
    s' = s.
  Proof. unfold rebind, liftr. destruct (skl_new klt kf dflt l); [discriminate|]. congruence. Qed.

  Definition same_or_clean (o : kop V K) (s : SKL) : Prop :=
    (exists e, key_raises vlt eq klt keq kf e /\ step kf o s = (RExn e, s)) \/ step kf o s = step (total1 key) o s.

  Lemma kf_change o (s : SKL) e s' : 1 <= dflt -> katomic o -> step kf o s = (RExn e, s') ->
    (key_raises vlt eq klt keq kf e /\ s' = s) \/ step (total1 key) o s = (RExn e, s').
  Proof.
    intros Hd Ha E.
    assert (KR : forall v e, kf v = Err e -> key_raises vlt eq klt keq kf e) by (intros v e0 H; left; eauto).
    assert (FIND : forall {A} (inj : A -> out V) v (k : option (nat * nat) -> M SKL A),
      observe inj (bind (skl_find eq klt keq kf v) k) s = (RExn e, s') ->
      (key_raises vlt eq klt keq kf e /\ s' = s) \/
      observe inj (bind (skl_find eq klt keq (total1 key) v) k) s = (RExn e, s')).
    { intros A inj v k H. destruct (kf_find v s) as [(e0 & E1 & E2)|E2].
      - left. unfold observe, bind in H. rewrite E2 in H. injection H as -> ->. eauto.
      - right. unfold observe, bind in *. rewrite <- E2. exact H. }
    assert (NEW : forall (m m' : M SKL SKL) l, m s = liftr (skl_new klt kf dflt l) s ->
      rebind (V:=V) m s = (RExn e, s') -> key_raises vlt eq klt keq kf e /\ s' = s).
    { intros m _ l Hm H. destruct (knew_step_gen vlt eq klt keq kf dflt Hd m l s Hm) as (r & c' & E1 & _ & Hr).
      rewrite H in E1. injection E1 as <- <-. destruct Hr as [[? _]|(e0 & [= <-] & Hr & Hc)]; [discriminate|].
      split; [apply key_raises_iff; exact Hr|exact Hc]. }
    destruct o as [o| | |]; [|right; exact E..].
    destruct o; cbn [skl_step skl_lstep] in *; cbn in Ha; try contradiction; try (right; exact E);
      try (unfold skl_discard, skl_remove, skl_contains in *; apply FIND; exact E);
      try (left; eapply NEW; [|exact E|exact E]; reflexivity); try (left; eapply NEW; [exact (fun x => raise ValueError x)| |exact E]; reflexivity).
    - unfold observe, skl_add in *. destruct (kf v) as [k|e0] eqn:Ek.
      + right. rewrite (Hkf v k Ek) in E. exact E.
      + left. cbn in E. injection E as -> ->. eauto.
    - unfold observe, skl_bisect_left in *. destruct (kf v) as [k|e0] eqn:Ek.
      + right. rewrite (Hkf v k Ek) in E. exact E.
      + left. cbn in E. injection E as -> ->. eauto.
    - unfold observe, skl_bisect_right in *. destruct (kf v) as [k|e0] eqn:Ek.
      + right. rewrite (Hkf v k Ek) in E. exact E.
      + left. cbn in E. injection E as -> ->. eauto.
    - unfold observe, skl_count in *. rewrite !bind_get in *. destruct (is_nil (maxes (kc s))); [right; exact E|].
      destruct (kf v) as [k|e0] eqn:Ek.
      + right. rewrite (Hkf v k Ek) in E. exact E.
      + left. cbn in E. injection E as -> ->. eauto.
    - unfold observe, skl_index in *. rewrite !bind_get in *. destruct (len (kc s) =? 0); [right; exact E|].
      cbv zeta in *. destruct (_ <=? _)%Z; [right; exact E|].
      destruct (kf v) as [k|e0] eqn:Ek.
      + right. rewrite (Hkf v k Ek) in E. exact E.
      + left. cbn in E. injection E as -> ->. eauto.
    - unfold observe, skl_irange in *.
      assert (KO : forall b, (exists e0 v, kf v = Err e0 /\ key_opt kf b = Err e0) \/ key_opt kf b = key_opt (total1 key) b).
      { intros [v|]; [|right; reflexivity]. unfold key_opt. destruct (kf v) as [k|e0] eqn:Ek.
        - right. rewrite (Hkf v k Ek). reflexivity.
        - left. exists e0, v. rewrite Ek. split; reflexivity. }
      destruct (KO mn) as [(e0 & v & Ek & E1)|E1]; rewrite E1 in E.
      { left. cbn in E. injection E as -> ->. eauto. }
      assert (ON : exists kk, key_opt (total1 key) mn = Ok kk) by (destruct mn; cbn; eauto). destruct ON as (k1 & ON).
      rewrite ON in *. rewrite !(bind_lift _ _ _ _ eq_refl) in *.
      destruct (KO mx) as [(e0 & v & Ek & E2)|E2]; rewrite E2 in E.
      { left. cbn in E. injection E as -> ->. eauto. }
      right. exact E.
  Qed.
End OtherKey.

Lemma c32_no_effect : forall V K (key : V -> K) (kltb keqb : K -> K -> bool) (vltb eqb : V -> V -> bool) dflt s l,
  TotalOrder kltb keqb -> EqCompat (by_key key kltb) eqb -> 1 <= dflt ->
  skl_reach key kltb keqb vltb eqb dflt s -> kshows s l ->
  forall vlt eq klt keq kf o e s', (forall v k, kf v = Ok k -> k = key v) ->
    katomic o -> skl_step vlt eq klt keq kf dflt o s = (RExn e, s') ->
    kshows s' l /\ length_of (kc s') = (Ok (length l), kc s') /\
    (key_raises vlt eq klt keq kf e \/ kdocumented o e \/ (exists v, o = KList (LCount v) /\ e = Underflow)) /\
    forall ops, Forall kop_ok ops -> Forall (comparable vltb eqb) ops -> exists s2,
      skl_run (total2 vltb) (total2 eqb) (total2 kltb) (total2 keqb) (total1 key) dflt ops s'
        = (fst (sp_krun eqb vltb key kltb ops l), s2) /\
      kshows s2 (snd (sp_krun eqb vltb key kltb ops l)).
Proof.
  intros V K key kltb keqb vltb eqb dflt s l HT HE Hd HR Hl vlt eq klt keq kf o e s' Hkf Ha E.
  assert (Ho : kop_ok o) by (destruct o as [[]| | |]; simpl in *; tauto).
  pose proof (kreach_inv key kltb keqb vltb eqb dflt HT HE Hd s HR) as HI. apply kshows_iff in Hl.
  assert (MAIN : Shape (total1 key) s' /\ contents (kc s') = l /\
     (key_raises vlt eq klt keq kf e \/ kdocumented o e \/ (exists v, o = KList (LCount v) /\ e = Underflow))).
  { destruct (kf_change key vlt eq klt keq kf dflt Hkf o s e s' Hd Ha E) as [[Hr ->]|E'].
    - split; [apply HI|]. auto.
    - destruct (skl_step_gen vlt eq klt keq (total1 key) dflt Hd o s (proj1 HI) Ho) as (r & s1 & E1 & HL & Hn).
      rewrite E' in E1. injection E1 as <- <-.
      split; [apply Hn; destruct o as [[]| | |]; simpl in *; tauto|].
      split; [rewrite <- Hl; eapply kloose_atomic; [exact HL|exact Ha|reflexivity]|].
      destruct (kloose_doc eq _ o _ e _ HL) as [H|H]; [|right; exact H].
      left. apply key_raises_iff in H. unfold key_raises in *. destruct H as [(v & H)|H]; [discriminate|tauto]. }
  destruct MAIN as (HS & Ec & Hdoc).
  split; [apply kshows_iff; exact Ec|].
  split; [unfold length_of, bind, get, ret; rewrite (co_len _ (shape_core _ _ HS)), Ec; reflexivity|].
  split; [exact Hdoc|]. intros ops Hok Hc.
  assert (HI' : KInv key kltb s') by (split; [exact HS|rewrite Ec, <- Hl; apply HI]).
  destruct (skl_run_ok key kltb keqb vltb eqb HT HE dflt Hd ops s' HI' Hok) as (s2 & E2 & _ & Ec2 & _).
  { eapply Forall_impl; [|exact Hc]. apply comparable_ok. }
  exists s2. rewrite Ec in *. split; [exact E2|]. apply kshows_iff. exact Ec2.
Qed.

(** ** C24 for SortedKeyList *)
Lemma c24_key_refuted : exists (klt : bool * nat -> bool * nat -> res bool) dflt s s' it e l n,
  1 <= dflt /\ kwild_reach (total1 (fun v : bool * nat => v)) dflt s /\
  skl_step klt klt klt klt (total1 (fun v => v)) dflt (KList (LUpdate it)) s = (RExn e, s') /\
  kshows s' l /\ length_of (kc s') = (Ok n, kc s') /\ n <> length l.
Proof.
  exists mixed_lt, 1000.
  set (w := mkkwild mixed_lt mixed_eq mixed_lt mixed_eq (KList (LUpdate [(false, 1); (false, 2); (false, 3)]))).
  exists (snd (kwild_run (total1 (fun v => v)) 1000 [w] (skl_init 1000))).
  exists (snd (skl_step mixed_lt mixed_lt mixed_lt mixed_lt (total1 (fun v => v)) 1000
             (KList (LUpdate [(true, 1); (true, 2); (true, 3)]))
             (snd (kwild_run (total1 (fun v => v)) 1000 [w] (skl_init 1000))))).
  exists [(true, 1); (true, 2); (true, 3)], TypeError.
  exists [(false, 1); (false, 2); (false, 3); (true, 1); (true, 2); (true, 3)], 3.
  split; [lia|]. split.
  { exists [w]. split; [repeat constructor|]. split; [|reflexivity]. vm_compute. repeat constructor. }
  split; [vm_compute; reflexivity|]. split; [vm_compute; reflexivity|]. split; [vm_compute; reflexivity|]. cbn. lia.
Qed.

(** * The inherited operations of views *)
From Coq Require Import Sorting.Permutation.
From Verif Require Import PyBase Model Spec History Reach BaseFacts SpecFacts HistFacts ListClass ClassSpec ClassFacts
  ModelSet SetSpec HashFacts SetFacts ModelDict DictSpec MapFacts DictFacts ModelView ViewSpec.
Local Unset Implicit Arguments.

(** What the inherited methods need from a view: it stands for the list [l]. *)
Record ViewOK {St X} (w : view St X) (eqx : X -> X -> bool) (Inv : St -> list X -> Prop) : Prop := {
  vo_iter : forall s l, Inv s l -> v_iter w s = (Ok l, s);
  vo_in : forall s l x, Inv s l -> v_in w x s = (Ok (set_mem eqx x l), s);
  vo_len : forall s l, Inv s l -> v_len w s = (Ok (length l), s);
  vo_at : forall s l i, Inv s l -> exists s', v_at w i s = (getz l i, s') /\ Inv s' l }.

Section SetMixinFacts.
  Context {St X SN KN : Type}.
  Variable w : view St X.
  Variable N : listcls SN X KN.
  Variables nltb eqx : X -> X -> bool.
  Variable fref : fwd X KN -> list X -> out X * list X.
  Variable dflt : nat.
  Variable R : SN -> list X -> Prop.
  Variable ld : SN -> nat.
  Hypothesis HK : ClsOK N nltb eqx fref dflt R ld.
  Variable ord : nat -> list X -> list X.
  Hypothesis HO : any_order ord.
  Variable Inv : St -> list X -> Prop.
  Hypothesis HV : ViewOK w eqx Inv.
  Notation mem := (member eqx).
  Let HE : Equiv eqx := k_equiv _ _ _ _ _ _ _ HK.

  Lemma keepM_ok s l (f : X -> M St bool) g : (forall x, f x s = (Ok (g x), s)) ->
    keepM f l s = (Ok (filter g l), s).
  Proof.
    intros H. induction l as [|x l IH]; [reflexivity|]. cbn. unfold bind. rewrite H, IH. cbn. destruct (g x); reflexivity.
  Qed.

  Definition is_set (r : sset SN X) (P : X -> Prop) (src : list X) : Prop :=
    ss_reach N eqx ord r /\ exists l, SInv eqx R r l /\ (forall x, mem x l <-> P x) /\ (forall x, In x l -> In x src).

  Lemma from_iterable_ok t l P src : (forall x, mem x l <-> P x) -> (forall x, In x l -> In x src) ->
    exists r, from_iterable N eqx ord t l = Ok r /\ is_set r P src.
  Proof.
    intros HP HS. destruct (ss_new_ok N nltb eqx fref dflt R ld HK ord HO t (Some (AIter l))) as (r & l' & E & HI & (HU & _ & HF) & _).
    exists r. split; [exact E|]. split.
    - exists t, (Some (AIter l)), r, []. split; [exact E|]. split; [constructor|reflexivity].
    - exists l'. split; [exact HI|]. split.
      + intros x. rewrite <- HP. rewrite HU. unfold in_any. split.
        * intros [H|(a & [<-|[]] & H)]; [destruct H as (? & [] & _)|exact H].
        * intros H. right. exists (AIter l). split; [left; reflexivity|exact H].
      + intros x Hx. apply HS. destruct (HF x Hx) as [[]|(a & [<-|[]] & H)]. exact H.
  Qed.

  Definition operand_is (o : operand (X:=X) (SN:=SN)) (l : list X) : Prop :=
    (forall x, op_in eqx o x = set_mem eqx x l) /\ exists it, op_iter N o = Ok it /\ (forall x, mem x it <-> mem x l) /\
      (forall x, In x it -> In x l).

  Lemma as_set_ok t a : exists o, as_set N eqx ord t a = Ok o /\ operand_is o (items a) /\
    match a, o with ASet l, Given l' => l' = l | AIter l, Built o => is_set o (fun x => mem x l) l | _, _ => False end.
  Proof.
    destruct a as [l|l]; cbn.
    - destruct (from_iterable_ok t l (fun x => mem x l) l ltac:(reflexivity) ltac:(auto)) as (r & E & HR). rewrite E.
      exists (Built r). split; [reflexivity|]. split; [|exact HR]. destruct HR as (_ & l' & HI & Hm & Hf).
      assert (Hs : forall x, mem x (s_set r) <-> mem x l).
      { intros x. rewrite <- Hm. apply mem_perm. apply HI. }
      split.
      + intros x. unfold op_in. apply eq_true_iff_eq. rewrite !set_mem_iff. apply Hs.
      + exists l'. split; [|auto]. cbn. rewrite (ss_iter_ok N nltb eqx fref dflt R ld HK r l' HI). reflexivity.
    - exists (Given l). split; [reflexivity|]. split; [|reflexivity]. split; [reflexivity|]. exists l. split; [reflexivity|]. split; [reflexivity|auto].
  Qed.

  Lemma mem_filter_in f l x : (forall y, f y = set_mem eqx y l) -> forall l', mem x (filter f l') <-> mem x l' /\ mem x l.
  Proof.
    intros Hf l'. rewrite (mem_filter eqx f).
    - rewrite Hf, set_mem_iff. reflexivity.
    - intros y z E. rewrite !Hf. apply set_mem_eqb; assumption.
  Qed.
  Lemma mem_filter_out f l x : (forall y, f y = set_mem eqx y l) ->
    forall l', mem x (filter (fun y => negb (f y)) l') <-> mem x l' /\ ~ mem x l.
  Proof.
    intros Hf l'. rewrite (mem_filter eqx).
    - rewrite Hf, negb_true_iff, set_mem_false. reflexivity.
    - intros y z E. rewrite !Hf. f_equal. apply set_mem_eqb; assumption.
  Qed.

  Lemma filter_from (f : X -> bool) l src : (forall x, In x l -> In x src) -> forall x, In x (filter f l) -> In x src.
  Proof. intros H x Hx. apply filter_In in Hx as [Hx _]. auto. Qed.

  Lemma mix_op_ok op t a s l : Inv s l -> exists r, mix_op w N eqx ord op t a s = (Ok r, s) /\
    is_set r (fun x => vop_means op (mem x l) (mem x (items a))) (vop_source op l (items a)).
  Proof.
    intros HI. pose proof (vo_iter _ _ _ HV s l HI) as HIt. pose proof (fun x => vo_in _ _ _ HV s l x HI) as HIn.
    assert (HNot : forall x, (b <- v_in w x ;; ret (negb b)) s = (Ok (negb (set_mem eqx x l)), s)).
    { intros x. unfold bind, ret. rewrite HIn. reflexivity. }
    destruct op; cbn [mix_op vop_means vop_source].
    - unfold mix_and, bind, liftr. rewrite (keepM_ok s _ _ _ HIn).
      destruct (from_iterable_ok t (filter (fun x => set_mem eqx x l) (items a)) (fun x => mem x l /\ mem x (items a)) (items a)) as (r & E & HR).
      + intros x. rewrite (mem_filter_in _ l) by reflexivity. tauto.
      + apply filter_from. auto.
      + rewrite E. eauto.
    - unfold mix_or, bind, liftr. rewrite HIt.
      destruct (from_iterable_ok t (l ++ items a) (fun x => mem x l \/ mem x (items a)) (l ++ items a)) as (r & E & HR).
      + intros x. apply mem_app.
      + auto.
      + rewrite E. eauto.
    - unfold mix_sub, bind, liftr. destruct (as_set_ok t a) as (o & E & (Ho & _) & _). rewrite E, HIt.
      destruct (from_iterable_ok (op_tick t o) (filter (fun x => negb (op_in eqx o x)) l)
        (fun x => mem x l /\ ~ mem x (items a)) l) as (r & E' & HR).
      + intros x. apply (mem_filter_out _ _ x Ho).
      + apply filter_from. auto.
      + rewrite E'. eauto.
    - unfold mix_rsub. unfold bind at 1, liftr at 1. destruct (as_set_ok t a) as (o & E & (_ & it & Ei & Hit & Hfr) & _). rewrite E.
      unfold bind at 1, liftr at 1. rewrite Ei. unfold bind at 1. rewrite (keepM_ok s it _ _ HNot). unfold liftr.
      destruct (from_iterable_ok (op_tick t o) (filter (fun x => negb (set_mem eqx x l)) it)
        (fun x => mem x (items a) /\ ~ mem x l) (items a)) as (r & E' & HR).
      + intros x. rewrite (mem_filter_out _ l) by reflexivity. rewrite Hit. reflexivity.
      + apply filter_from. exact Hfr.
      + rewrite E'. eauto.
    - unfold mix_xor. unfold bind at 1, liftr at 1. destruct (as_set_ok t a) as (o & E & (Ho & it & Ei & Hit & Hfr) & Hk). rewrite E.
      unfold bind at 1. rewrite HIt. unfold bind at 1, liftr at 1.
      destruct (from_iterable_ok (op_tick t o) (filter (fun x => negb (op_in eqx o x)) l)
        (fun x => mem x l /\ ~ mem x (items a)) l) as (d1 & E1 & HR1).
      { intros x. apply (mem_filter_out _ _ x Ho). }
      { apply filter_from. auto. }
      rewrite E1.
      assert (H2 : exists d2 l2, (match o with
           | Given l => k <- keepM (fun x => b <- v_in w x ;; ret (negb b)) l ;; liftr (from_iterable N eqx ord (s_tick d1) k)
           | Built o => liftr (fst (ss_difference N eqx ord [AIter l] o))
           end) s = (Ok d2, s) /\ SInv eqx R d2 l2 /\ (forall x, mem x l2 <-> mem x (items a) /\ ~ mem x l) /\
           (forall x, In x l2 -> In x (items a))).
      { destruct a as [la|la], o as [lo|ro]; try contradiction; cbn [items] in *.
        - destruct Hk as (_ & lo & HIo & Hm & Hf).
          destruct (ss_difference_ok N nltb eqx fref dflt R ld HK ord HO [AIter l] ro lo HIo) as (n & ln & En & HIn' & Hd & _).
          exists n, ln. unfold liftr. rewrite En. split; [reflexivity|]. split; [exact HIn'|].
          unfold diff_of in Hd.
          split.
          + intros x. rewrite <- Hm. split.
            * intros (y & Hy & Exy). apply Hd in Hy as [Hy Hn]. split; [exists y; auto|].
              intros Hx. apply Hn. exists (AIter l). split; [left; reflexivity|]. cbn. apply (mem_eqb eqx HE y x); assumption.
            * intros [(y & Hy & Exy) Hn]. exists y. split; [|exact Exy]. apply Hd. split; [exact Hy|].
              intros (b & [<-|[]] & Hb). apply Hn. apply (mem_eqb eqx HE y x); assumption.
          + intros x Hx. apply Hd in Hx as [Hx _]. auto.
        - subst lo. unfold bind at 1. rewrite (keepM_ok s la _ _ HNot). unfold liftr.
          destruct (from_iterable_ok (s_tick d1) (filter (fun x => negb (set_mem eqx x l)) la) (fun x => mem x la /\ ~ mem x l) la)
            as (r & E' & _ & l2 & HI2 & Hm2 & Hf2).
          { intros x. apply mem_filter_out. reflexivity. }
          { apply filter_from. auto. }
          rewrite E'. exists r, l2. auto. }
      destruct H2 as (d2 & l2 & E2 & HI2 & Hm2 & Hf2). unfold bind at 1. rewrite E2. unfold bind at 1, liftr at 1.
      rewrite (ss_iter_ok N nltb eqx fref dflt R ld HK d2 l2 HI2). cbn [fst]. unfold liftr.
      destruct HR1 as (HRe & l1 & HI1 & Hm1 & Hf1).
      destruct (ss_union_ok N nltb eqx fref dflt R ld HK ord HO [AIter l2] d1 l1 HI1) as (n & ln & En & HIn' & (Hu & _ & Huf) & _).
      rewrite En. cbn [fst]. exists n. split; [reflexivity|]. split.
      + pose proof (ss_reach_step N eqx ord d1 (SUnion [AIter l2]) HRe I) as H.
        cbn [ss_step] in H. unfold rebind in H. rewrite En in H. exact H.
      + exists ln. split; [exact HIn'|]. split.
        * intros x. rewrite Hu, Hm1. unfold in_any. split.
          -- intros [H|(b & [<-|[]] & H)]; [left; exact H|right; apply Hm2; exact H].
          -- intros [H|H]; [left; exact H|right]. exists (AIter l2). split; [left; reflexivity|]. apply Hm2. exact H.
        * intros x Hx. apply in_or_app. destruct (Huf x Hx) as [H|(b & [<-|[]] & H)]; [left; auto|right; apply Hf2; exact H].
  Qed.
End SetMixinFacts.

Section CompareFacts.
  Context {St X : Type}.
  Variable w : view St X.
  Variable eqx : X -> X -> bool.
  Hypothesis HE : Equiv eqx.
  Variable Inv : St -> list X -> Prop.
  Hypothesis HV : ViewOK w eqx Inv.

  Lemma mix_isdisjoint_ok other s l : Inv s l -> exists b, mix_isdisjoint w other s = (Ok b, s) /\
    (b = true <-> disjoint eqx l other).
  Proof.
    intros HI. pose proof (fun x => vo_in _ _ _ HV s l x HI) as HIn.
    unfold mix_isdisjoint, bind, ret. rewrite (keepM_ok s _ _ _ HIn). eexists. split; [reflexivity|].
    rewrite <- (isdisjoint_spec eqx HE). induction other as [|x other IH]; cbn; [tauto|].
    destruct (set_mem eqx x l); cbn; [split; discriminate|exact IH].
  Qed.

  Lemma mix_le_ok other s l : Inv s l -> distinct eqx l -> mix_le w eqx other s = (Ok (set_le eqx l other), s).
  Proof.
    intros HI HD. unfold mix_le, bind, ret. rewrite (vo_len _ _ _ HV s l HI). unfold set_le.
    destruct (Nat.ltb_spec (length other) (length l)); destruct (Nat.leb_spec (length l) (length other)); try lia; [reflexivity|].
    rewrite (vo_iter _ _ _ HV s l HI). reflexivity.
  Qed.
  Lemma filter_all_length {A} (f : A -> bool) l : (length (filter f l) =? length l) = forallb f l.
  Proof.
    assert (Hle : forall m, length (filter f m) <= length m).
    { induction m as [|x m IH]; cbn; [lia|]. destruct (f x); cbn; lia. }
    induction l as [|x l IH]; [reflexivity|]. cbn [filter forallb]. destruct (f x); cbn; [exact IH|].
    apply Nat.eqb_neq. specialize (Hle l). lia.
  Qed.
  Lemma mix_ge_ok other s l : Inv s l -> distinct eqx other -> mix_ge w other s = (Ok (set_le eqx other l), s).
  Proof.
    intros HI HD. unfold mix_ge, bind, ret. rewrite (vo_len _ _ _ HV s l HI). unfold set_le.
    destruct (Nat.ltb_spec (length l) (length other)); destruct (Nat.leb_spec (length other) (length l)); try lia; [reflexivity|].
    rewrite (keepM_ok s _ _ _ (fun x => vo_in _ _ _ HV s l x HI)), filter_all_length. reflexivity.
  Qed.
  Lemma mix_compare_ok op other s l : Inv s l -> distinct eqx l -> distinct eqx other ->
    exists b, mix_compare w eqx op other s = (Ok b, s) /\ (b = true <-> set_cmp_means eqx op l other).
  Proof.
    intros HI HD HDo. exists (set_cmp eqx op l other). split; [|apply (set_cmp_spec eqx HE); assumption].
    unfold mix_compare, bind, ret. rewrite (vo_len _ _ _ HV s l HI).
    destruct op; cbn [set_cmp];
      repeat match goal with |- context [if ?c then _ else _] => destruct c eqn:? end;
      rewrite ?(mix_le_ok other s l HI HD), ?(mix_ge_ok other s l HI HDo); cbn; reflexivity.
  Qed.
End CompareFacts.

Section SequenceMixinFacts.
  Context {St X : Type}.
  Variable w : view St X.
  Variable eqx : X -> X -> bool.
  Variable Inv : St -> list X -> Prop.
  Hypothesis HV : ViewOK w eqx Inv.

  Definition below (stop : option Z) (i : Z) : Prop := match stop with None => True | Some b => (i < b)%Z end.

  Lemma index_loop_ok value stop l : forall fuel i s, Inv s l -> (0 <= i)%Z -> (0 < fuel)%nat -> (length l < fuel + Z.to_nat i)%nat ->
    exists r s', index_loop w eqx fuel value stop i s = (r, s') /\ Inv s' l /\
    match r with
    | Ok k => (i <= Z.of_nat k)%Z /\ below stop (Z.of_nat k) /\ (exists x, nth_error l k = Some x /\ eqx x value = true) /\
              forall j x, j < k -> (i <= Z.of_nat j)%Z -> nth_error l j = Some x -> eqx x value = false
    | Err e => e = ValueError /\
              forall j x, (i <= Z.of_nat j)%Z -> below stop (Z.of_nat j) -> nth_error l j = Some x -> eqx x value = false
    end.
  Proof.
    assert (Hbs : forall i, (match stop with None => true | Some b => i <? b end)%Z = true <-> below stop i).
    { intros i. unfold below. destruct stop as [b|]; [apply Z.ltb_lt|tauto]. }
    assert (Hmono : forall i j, (i <= j)%Z -> below stop j -> below stop i).
    { unfold below. destruct stop; [intros; lia|tauto]. }
    induction fuel as [|f IH]; intros i s HI Hi Hp Hf; [lia|].
    cbn [index_loop]. destruct (match stop with None => true | Some b => i <? b end)%Z eqn:Eb.
    2: { exists (Err ValueError), s. split; [reflexivity|]. split; [exact HI|]. split; [reflexivity|].
         intros j x Hj Hb _. apply (Hmono i) in Hb; [|exact Hj]. apply Hbs in Hb. congruence. }
    apply Hbs in Eb. destruct (vo_at _ _ _ HV s l i HI) as (s' & E & HI'). rewrite E.
    rewrite getz_nonneg by exact Hi. unfold getn. destruct (nth_error l (Z.to_nat i)) as [x|] eqn:En.
    - destruct (eqx x value) eqn:Ev.
      + exists (Ok (Z.to_nat i)), s'. split; [reflexivity|]. split; [exact HI'|]. split; [lia|].
        rewrite Z2Nat.id by exact Hi. split; [exact Eb|]. split; [eauto|]. intros j y Hj Hj'. lia.
      + assert (Hl : Z.to_nat i < length l) by (apply nth_error_Some; congruence).
        destruct (IH (i + 1)%Z s' HI' ltac:(lia) ltac:(lia) ltac:(lia)) as (r & s'' & E2 & HI2 & Hr).
        exists r, s''. split; [exact E2|]. split; [exact HI2|].
        assert (Hstep : forall j y, (i <= Z.of_nat j)%Z -> nth_error l j = Some y -> eqx y value = false \/ (i + 1 <= Z.of_nat j)%Z).
        { intros j y Hj Hy. destruct (Z.eq_dec (Z.of_nat j) i) as [<-|]; [|right; lia]. left.
          rewrite Nat2Z.id in En. congruence. }
        destruct r as [k|e].
        * destruct Hr as (Hk & Hb & Hx & Hm). split; [lia|]. split; [exact Hb|]. split; [exact Hx|].
          intros j y Hj Hij Hy. destruct (Hstep j y Hij Hy); [assumption|]. eapply Hm; eauto.
        * destruct Hr as (He & Hm). split; [exact He|]. intros j y Hij Hb Hy. destruct (Hstep j y Hij Hy); [assumption|]. eapply Hm; eauto.
    - exists (Err ValueError), s'. split; [reflexivity|]. split; [exact HI'|]. split; [reflexivity|].
      intros j y Hj _ Hy. exfalso. apply nth_error_None in En.
      assert (j < length l) by (apply nth_error_Some; congruence). lia.
  Qed.

  Lemma seq_index_ok value start stop s l : Inv s l ->
    exists r s', seq_index w eqx value start stop s = (r, s') /\ Inv s' l /\ first_index eqx value start stop l r.
  Proof.
    intros HI. unfold seq_index, bind. rewrite (vo_len _ _ _ HV s l HI). set (n := length l).
    set (i0 := (if start <? 0 then Z.max (Z.of_nat n + start) 0 else start)%Z).
    assert (H0 : (0 <= i0)%Z) by (unfold i0; destruct (Z.ltb_spec start 0); lia).
    destruct (index_loop_ok value (option_map (fun b => if b <? 0 then b + Z.of_nat n else b)%Z stop) l (S n) i0 s HI H0)
      as (r & s' & E & HI' & Hr); [lia|unfold n; lia|].
    exists r, s'. split; [exact E|]. split; [exact HI'|].
    assert (HW : forall j, in_window (length l) start stop j <-> (i0 <= Z.of_nat j)%Z /\
      below (option_map (fun b => if b <? 0 then b + Z.of_nat n else b)%Z stop) (Z.of_nat j)).
    { intros j. unfold in_window, below, i0. fold n. destruct stop; cbn [option_map];
        destruct (Z.ltb_spec start 0); split; intros [? ?]; split; auto; lia. }
    unfold first_index. destruct r as [k|e].
    - destruct Hr as (Hk & Hb & Hx & Hm). split; [apply HW; auto|]. split; [exact Hx|].
      intros j x Hj Hw Hn. apply HW in Hw as [Hw _]. eapply Hm; eauto.
    - destruct Hr as (He & Hm). split; [exact He|]. intros j x Hw Hn. apply HW in Hw as [Hw Hb]. eapply Hm; eauto.
  Qed.

  Lemma seq_count_ok value s l : Inv s l ->
    seq_count w eqx value s = (Ok (length (filter (fun x => eqx x value) l)), s).
  Proof. intros HI. unfold seq_count, bind. rewrite (vo_iter _ _ _ HV s l HI). reflexivity. Qed.
End SequenceMixinFacts.

(** ** The views *)
Section Instances.
  Context {S A B K : Type}.
  Variable T : listcls S A K.
  Variables ltb eqb : A -> A -> bool.
  Variable veqb : B -> B -> bool.
  Variable fref : fwd A K -> list A -> out A * list A.
  Variable dflt : nat.
  Variable R : S -> list A -> Prop.
  Variable ld : S -> nat.
  Hypothesis HK : ClsOK T ltb eqb fref dflt R ld.
  Notation ls := (listing (B:=B) ltb).
  Let HW : SWO ltb := k_swo _ _ _ _ _ _ _ HK.
  Let HE : Equiv eqb := k_equiv _ _ _ _ _ _ _ HK.

  Definition DSees (s : sdict S A B) (l : list (A * B)) : Prop := DInv ltb eqb R s /\ ls (d_items s) = l.
  Definition KSees s (l : list A) : Prop := exists d, DSees s d /\ l = map fst d.
  Definition VSees s (l : list B) : Prop := exists d, DSees s d /\ l = map snd d.

  Lemma sees_len s l : DSees s l -> sd_len s = (Ok (length l), s).
  Proof.
    intros [_ <-]. unfold sd_len, items_of, bind, get, ret. f_equal. f_equal. symmetry. apply Permutation_length.
    apply listing_perm, HW.
  Qed.
  Lemma sees_lookup s l k : DSees s l -> lookup eqb k (d_items s) = lookup eqb k l.
  Proof. intros [[_ HD] <-]. apply lookup_perm; auto. apply Permutation_sym, listing_perm, HW. Qed.

  Lemma set_view_ok : ViewOK (set_view T eqb) eqb (SInv eqb R).
  Proof.
    split.
    - intros s l HI. apply (ss_iter_ok _ _ _ _ _ _ _ HK s l HI).
    - intros s l x HI. cbn. unfold ss_contains, bind, get, ret. f_equal. f_equal.
      apply eq_true_iff_eq. rewrite !set_mem_iff. apply mem_perm, HI.
    - intros s l HI. cbn. unfold ss_len, bind, get, ret. f_equal. f_equal. destruct HI as (_ & _ & HP). apply Permutation_length, HP.
    - intros s l i HI. destruct (ss_get_ok _ _ _ _ _ _ _ HK i s l HI) as (s' & E & HI' & _). exists s'. auto.
  Qed.
  Lemma keys_view_ok : ViewOK (keys_view T eqb) eqb KSees.
  Proof.
    split.
    - intros s l (d & (HI & <-) & ->). apply (sd_iter_ok _ _ _ _ _ _ _ HK s HI).
    - intros s l x (d & HS & ->). cbn. unfold sd_contains, items_of, bind, get, ret. f_equal. f_equal.
      rewrite d_mem_lookup, (sees_lookup s d x HS). apply eq_true_iff_eq. rewrite set_mem_iff.
      destruct (lookup eqb x d) eqn:E; split; try congruence.
      + intros _. destruct (mem_dec eqb x (map fst d)) as [H|H]; [exact H|]. apply lookup_mem in H. congruence.
      + intros H. apply lookup_mem in E. contradiction.
    - intros s l (d & HS & ->). rewrite map_length. apply sees_len, HS.
    - intros s l i (d & (HI & Hd) & ->). destruct (key_at _ _ _ _ _ _ _ HK i s HI) as (s' & E & Ed & HI' & _).
      exists s'. cbn. unfold kv_get. rewrite E, Hd, getz_map. split; [reflexivity|]. exists d. split; [|reflexivity].
      split; [exact HI'|]. rewrite Ed. exact Hd.
  Qed.
  Lemma items_view_ok : ViewOK (items_view T eqb veqb) (item_eqb eqb veqb) DSees.
  Proof.
    split.
    - intros s l (HI & <-). apply (sd_items_ok _ _ _ _ _ _ _ HK s HI).
    - intros s l x HS. cbn. unfold iv_contains, items_of, bind, get, ret. f_equal. f_equal.
      rewrite d_get_lookup, (sees_lookup s l (fst x) HS).
      assert (HD : distinct_keys eqb l).
      { destruct HS as [[_ HD] <-]. apply listing_dk; auto. }
      clear HS. unfold set_mem. induction l as [|[k v] l IH]; [reflexivity|].
      rewrite lookup_cons. cbn [existsb fst snd]. unfold item_eqb at 1. cbn [fst snd]. destruct HD as [HD1 HD2]. cbn in HD1.
      destruct (eqb k (fst x)) eqn:E; cbn [andb].
      + replace (existsb (fun y => item_eqb eqb veqb y x) l) with false; [destruct (veqb v (snd x)); reflexivity|].
        symmetry. apply not_true_iff_false. intros H. apply existsb_exists in H as (q & Hq & H).
        unfold item_eqb in H. apply andb_true_iff in H as [H _].
        pose proof (HD1 (fst q) (in_map fst l q Hq)) as Hn. rewrite (eqb_l eqb HE _ _ _ E), (eqb_sym eqb HE), H in Hn. discriminate.
      + apply IH, HD2.
    - intros s l HS. apply sees_len, HS.
    - intros s l i (HI & Hd). destruct (item_at _ _ _ _ _ _ _ HK i s HI) as (s' & E & Ed & HI' & _).
      exists s'. cbn. unfold iv_get. rewrite E, Hd. split; [reflexivity|]. split; [exact HI'|]. rewrite Ed. exact Hd.
  Qed.
  Lemma values_view_ok : ViewOK (values_view T eqb veqb) veqb VSees.
  Proof.
    split.
    - intros s l (d & (HI & <-) & ->). apply (sd_values_ok _ _ _ _ _ _ _ HK s HI).
    - intros s l x (d & (HI & <-) & ->). cbn. unfold vv_contains, bind, ret. rewrite (sd_values_ok _ _ _ _ _ _ _ HK s HI). reflexivity.
    - intros s l (d & HS & ->). rewrite map_length. apply sees_len, HS.
    - intros s l i (d & (HI & Hd) & ->). destruct (value_at _ _ _ _ _ _ _ HK i s HI) as (s' & E & Ed & HI' & _).
      exists s'. cbn. unfold vv_get. rewrite E, Hd, getz_map. split; [reflexivity|]. exists d. split; [|reflexivity].
      split; [exact HI'|]. rewrite Ed. exact Hd.
  Qed.
  Lemma items_distinct s l : DSees s l -> distinct (item_eqb eqb veqb) l.
  Proof.
    intros [[_ HD] <-]. assert (HD' : distinct_keys eqb (ls (d_items s))) by (apply listing_dk; auto).
    revert HD'. unfold distinct_keys. generalize (ls (d_items s)) as l. induction l as [|p l IH]; cbn; [tauto|].
    intros [H1 H2]. split; [|auto]. intros q Hq. unfold item_eqb. rewrite (H1 (fst q) (in_map fst l q Hq)). reflexivity.
  Qed.
End Instances.

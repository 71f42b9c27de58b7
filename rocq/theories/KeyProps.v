(** * The SortedKeyList properties, as lemmas *)
From Verif Require Import PyBase Model Spec History Reach BaseFacts SpecFacts SliceFacts IndexFacts Shape CoreFacts VtFacts
  KeyFacts KeyLook ListSim ListFacts HistFacts CheckFacts FaultFacts FaultSpec FaultHist ListProps FaultProps.
From Coq Require Import Sorting.Permutation Sorting.Sorted.
Local Unset Implicit Arguments.

Lemma kshows_iff {V K} (s : skl V K) l : kshows s l <-> contents (kc s) = l.
Proof. apply shows_iff. Qed.

Section Common.
  Context {V K : Type}.
  Variable key : V -> K.
  Variables kltb keqb : K -> K -> bool.
  Variables vltb eqb : V -> V -> bool.
  Variable dflt : nat.
  Hypothesis HT : TotalOrder kltb keqb.
  Hypothesis HE : EqCompat (by_key key kltb) eqb.
  Hypothesis Hd : 1 <= dflt.
  Notation ltb := (by_key key kltb).
  Notation do := (skl_do key kltb keqb vltb eqb dflt).
  Notation reach := (skl_reach key kltb keqb vltb eqb dflt).
  Notation kref := (sp_kstep eqb vltb key kltb).

  (** Ordering comparisons of whole lists return what the reference returns only
      if values have a total order; they never change the list. *)
  Lemma kstep_any o s : KInv key kltb s -> kop_ok o ->
    exists r s', do o s = (r, s') /\ KInv key kltb s' /\ contents (kc s') = snd (kref o (contents (kc s))) /\
      load (kc s') = kload_after dflt o (load (kc s)) /\
      (kcmp_ok vltb eqb o -> r = fst (kref o (contents (kc s)))).
  Proof.
    intros HI Ho.
    assert (D : (exists op l, o = KList (LCompare op l)) \/ kcmp_ok vltb eqb o).
    { destruct o as [[]| | |]; try (right; exact I). left; eauto. }
    destruct D as [(op & l & ->)|D].
    - destruct (compare_gen (total2 vltb) (total2 eqb) op l (kc s)) as (r & E & _).
      destruct (core_step key kltb (@RBool V) _ s r (kc s) (proj1 HI) E (touch_refl _ (shape_core (total1 key) _ (proj1 HI)))) as (s' & E' & H1 & H2 & H3).
      eexists _, s'. split; [exact E'|]. split; [split; [exact H1|rewrite H2; apply HI]|].
      split; [exact H2|]. split; [exact H3|]. intros Hc.
      destruct (skl_step_inv key kltb keqb vltb eqb HT HE dflt Hd _ s HI Ho Hc) as (s2 & E2 & _).
      cbn [skl_step skl_lstep] in E2. rewrite E' in E2. congruence.
    - destruct (skl_step_inv key kltb keqb vltb eqb HT HE dflt Hd o s HI Ho D) as (s' & E & H1 & H2 & H3).
      eexists _, s'. split; [exact E|]. auto.
  Qed.

  Lemma krun_inv ops : Forall kop_ok ops -> forall s, KInv key kltb s ->
    KInv key kltb (snd (skl_run (total2 vltb) (total2 eqb) (total2 kltb) (total2 keqb) (total1 key) dflt ops s)) /\
    load (kc (snd (skl_run (total2 vltb) (total2 eqb) (total2 kltb) (total2 keqb) (total1 key) dflt ops s)))
      = fold_left (fun ld o => kload_after dflt o ld) ops (load (kc s)).
  Proof.
    intros Hok. induction Hok as [|o ops Ho Hok IH]; intros s HI; [split; [exact HI|reflexivity]|].
    destruct (kstep_any o s HI Ho) as (r & s' & E & HI' & _ & El & _).
    unfold skl_run in *. cbn [run fold_left]. unfold skl_do in E. rewrite E.
    specialize (IH s' HI'). destruct (run _ ops s') as [rs s2]. cbn [snd] in *. rewrite <- El. exact IH.
  Qed.

  Lemma kreach_inv s : reach s -> KInv key kltb s.
  Proof. intros (ops & Hok & ->). apply krun_inv; [exact Hok|]. apply skl_init_inv. exact Hd. Qed.

  Lemma kreach_step s o : reach s -> kop_ok o -> reach (snd (do o s)).
  Proof.
    intros (ops & Hok & ->) Ho. exists (ops ++ [o]). split; [apply Forall_app; auto|].
    unfold skl_run. rewrite run_app. cbn [run fst snd]. unfold skl_do.
    destruct (skl_step _ _ _ _ _ _ _ _). reflexivity.
  Qed.

  Lemma kdo_ok s l o : reach s -> kshows s l -> kop_ok o -> kcmp_ok vltb eqb o ->
    exists s', do o s = (fst (kref o l), s') /\ reach s' /\ kshows s' (snd (kref o l)).
  Proof.
    intros HR Hl Ho Hc. apply kshows_iff in Hl. pose proof (kreach_inv s HR) as HI.
    destruct (kstep_any o s HI Ho) as (r & s' & E & HI' & Ec & _ & Hr).
    exists s'. rewrite Hl in *. rewrite (Hr Hc) in E. split; [exact E|]. split.
    - pose proof (kreach_step s o HR Ho) as H. rewrite E in H. exact H.
    - apply kshows_iff. exact Ec.
  Qed.

  Lemma kreach_sorted s l : reach s -> kshows s l -> sorted ltb l.
  Proof. intros HR Hl. apply kshows_iff in Hl. rewrite <- Hl. apply (kreach_inv s HR). Qed.
End Common.
(** GEN *)

Lemma c28_contains : forall V K (key : V -> K) (kltb keqb : K -> K -> bool) (vltb eqb : V -> V -> bool) dflt s l v,
  TotalOrder kltb keqb -> EqCompat (by_key key kltb) eqb -> 1 <= dflt ->
  skl_reach key kltb keqb vltb eqb dflt s -> kshows s l ->
  exists b s', skl_do key kltb keqb vltb eqb dflt (KList (LContains v)) s = (RBool b, s') /\ kshows s' l /\
    (b = true <-> exists x, In x l /\ eqb x v = true).
Proof.
  intros V K key kltb keqb vltb eqb dflt s l v HT HE Hd HR Hl.
  destruct (kdo_ok key kltb keqb vltb eqb dflt HT HE Hd s l (KList (LContains v)) HR Hl I I) as (s' & E & HR' & Hs).
  eexists _, s'. split; [exact E|]. split; [exact Hs|]. apply existsb_exists.
Qed.

Lemma c28_discard_remove : forall V K (key : V -> K) (kltb keqb : K -> K -> bool) (vltb eqb : V -> V -> bool) dflt s l v,
  TotalOrder kltb keqb -> EqCompat (by_key key kltb) eqb -> 1 <= dflt ->
  skl_reach key kltb keqb vltb eqb dflt s -> kshows s l ->
  exists sd sr rr, skl_do key kltb keqb vltb eqb dflt (KList (LDiscard v)) s = (RUnit, sd) /\
    skl_do key kltb keqb vltb eqb dflt (KList (LRemove v)) s = (rr, sr) /\
    ((exists a x b, l = a ++ x :: b /\ eqb x v = true /\ (forall y, In y a -> eqb y v = false) /\
        rr = RUnit /\ kshows sd (a ++ b) /\ kshows sr (a ++ b)) \/
     ((forall y, In y l -> eqb y v = false) /\
        rr = RExn ValueError /\ kshows sd l /\ kshows sr l)).
Proof.
  intros V K key kltb keqb vltb eqb dflt s l v HT HE Hd HR Hl.
  destruct (kdo_ok key kltb keqb vltb eqb dflt HT HE Hd s l (KList (LDiscard v)) HR Hl I I) as (sd & Ed & _ & Hsd).
  destruct (kdo_ok key kltb keqb vltb eqb dflt HT HE Hd s l (KList (LRemove v)) HR Hl I I) as (sr & Er & _ & Hsr).
  eexists sd, sr, _. split; [exact Ed|]. split; [exact Er|].
  cbn [sp_kstep sp_step fst snd] in *. unfold sp_remove in *.
  destruct (sp_discard_cases eqb v l) as [(a & x & b & H0 & H1 & H2 & H3 & H4)|(H1 & H2 & H3)].
  - left. exists a, x, b. rewrite H4 in *. cbn [fst snd] in *. rewrite H3 in *. repeat split; auto.
  - right. rewrite H3 in *. cbn [fst snd] in *. rewrite H2 in *. repeat split; auto.
Qed.

Lemma c28_count : forall V K (key : V -> K) (kltb keqb : K -> K -> bool) (vltb eqb : V -> V -> bool) dflt s l v,
  TotalOrder kltb keqb -> EqCompat (by_key key kltb) eqb -> 1 <= dflt ->
  skl_reach key kltb keqb vltb eqb dflt s -> kshows s l ->
  exists s', skl_do key kltb keqb vltb eqb dflt (KList (LCount v)) s = (RNat (length (filter (fun x => eqb x v) l)), s') /\ kshows s' l.
Proof.
  intros V K key kltb keqb vltb eqb dflt s l v HT HE Hd HR Hl.
  destruct (kdo_ok key kltb keqb vltb eqb dflt HT HE Hd s l (KList (LCount v)) HR Hl I I) as (s1 & E1 & _ & H1). exists s1. auto.
Qed.

Lemma c28_index : forall V K (key : V -> K) (kltb keqb : K -> K -> bool) (vltb eqb : V -> V -> bool) dflt s l v start stop,
  TotalOrder kltb keqb -> EqCompat (by_key key kltb) eqb -> 1 <= dflt ->
  skl_reach key kltb keqb vltb eqb dflt s -> kshows s l ->
  let n := Z.of_nat (length l) in
  let hit i := (win_start start n <= Z.of_nat i < win_stop stop n)%Z /\
               exists x, nth_error l i = Some x /\ eqb x v = true in
  exists r s', skl_do key kltb keqb vltb eqb dflt (KList (LIndex v start stop)) s = (r, s') /\ kshows s' l /\
    ((exists i, r = RNat i /\ hit i /\ forall j, j < i -> ~ hit j) \/
     (r = RExn ValueError /\ forall j, ~ hit j)).
Proof.
  intros V K key kltb keqb vltb eqb dflt s l v start stop HT HE Hd HR Hl n hit.
  destruct (kdo_ok key kltb keqb vltb eqb dflt HT HE Hd s l (KList (LIndex v start stop)) HR Hl I I) as (s1 & E1 & _ & H1).
  eexists _, s1. split; [exact E1|]. split; [exact H1|]. cbn [sp_kstep sp_step fst].
  destruct (sp_index_cases eqb v start stop l) as [(i & Ei & Hi)|(Ei & Hi)]; rewrite Ei;
    [left; exists i; split; [reflexivity|exact Hi]|right; split; [reflexivity|exact Hi]].
Qed.

Lemma c27_getitem : forall V K (key : V -> K) (kltb keqb : K -> K -> bool) (vltb eqb : V -> V -> bool) dflt s l i,
  TotalOrder kltb keqb -> EqCompat (by_key key kltb) eqb -> 1 <= dflt ->
  skl_reach key kltb keqb vltb eqb dflt s -> kshows s l ->
  exists r s', skl_do key kltb keqb vltb eqb dflt (KList (LGet i)) s = (r, s') /\ kshows s' l /\
    ((0 <= i < Z.of_nat (length l))%Z -> exists v, nth_error l (Z.to_nat i) = Some v /\ r = RVal v) /\
    ((- Z.of_nat (length l) <= i < 0)%Z ->
       exists v, nth_error l (Z.to_nat (i + Z.of_nat (length l))) = Some v /\ r = RVal v) /\
    ((i < - Z.of_nat (length l) \/ Z.of_nat (length l) <= i)%Z -> r = RExn IndexError).
Proof.
  intros V K key kltb keqb vltb eqb dflt s l i HT HE Hd HR Hl.
  destruct (kdo_ok key kltb keqb vltb eqb dflt HT HE Hd s l (KList (LGet i)) HR Hl I I) as (s' & E & HR' & Hs).
  eexists _, s'. split; [exact E|]. split; [exact Hs|]. cbn [sp_kstep sp_step fst].
  split; [|split]; intros H.
  - destruct (getz_in l i H) as (v & H1 & H2). rewrite H2. eauto.
  - destruct (getz_neg l i H) as (v & H1 & H2). rewrite H2. eauto.
  - rewrite (getz_out l i H). reflexivity.
Qed.

Lemma c27_slice : forall V K (key : V -> K) (kltb keqb : K -> K -> bool) (vltb eqb : V -> V -> bool) dflt s l sl,
  TotalOrder kltb keqb -> EqCompat (by_key key kltb) eqb -> 1 <= dflt ->
  skl_reach key kltb keqb vltb eqb dflt s -> kshows s l ->
  exists r s', skl_do key kltb keqb vltb eqb dflt (KList (LSlice sl)) s = (r, s') /\ kshows s' l /\
    ((s_step sl = Some 0%Z /\ r = RExn ValueError) \/
     (s_step sl <> Some 0%Z /\ exists x, r = RList x /\ slice_is sl l x)).
Proof.
  intros V K key kltb keqb vltb eqb dflt s l sl HT HE Hd HR Hl.
  destruct (kdo_ok key kltb keqb vltb eqb dflt HT HE Hd s l (KList (LSlice sl)) HR Hl I I) as (s' & E & HR' & Hs).
  eexists _, s'. split; [exact E|]. split; [exact Hs|]. cbn [sp_kstep sp_step fst].
  destruct (slice_indices_cases sl (length l)) as [[E1 E2]|(E2 & start & stop & step & E1)].
  - left. split; [exact E2|]. unfold sp_slice. rewrite E1. reflexivity.
  - right. split; [exact E2|]. destruct (sp_slice_is sl l E2) as (x & Ex & Hx). rewrite Ex. exists x. auto.
Qed.

Lemma c27_delete : forall V K (key : V -> K) (kltb keqb : K -> K -> bool) (vltb eqb : V -> V -> bool) dflt s l i,
  TotalOrder kltb keqb -> EqCompat (by_key key kltb) eqb -> 1 <= dflt ->
  skl_reach key kltb keqb vltb eqb dflt s -> kshows s l ->
  exists r s', skl_do key kltb keqb vltb eqb dflt (KList (LDel i)) s = (r, s') /\ skl_reach key kltb keqb vltb eqb dflt s' /\
    ((exists a x b, l = a ++ x :: b /\
        (Z.of_nat (length a) = i \/ Z.of_nat (length a) = i + Z.of_nat (length l))%Z /\
        r = RUnit /\ kshows s' (a ++ b)) \/
     ((i < - Z.of_nat (length l) \/ Z.of_nat (length l) <= i)%Z /\ r = RExn IndexError /\ kshows s' l)).
Proof.
  intros V K key kltb keqb vltb eqb dflt s l i HT HE Hd HR Hl.
  destruct (kdo_ok key kltb keqb vltb eqb dflt HT HE Hd s l (KList (LDel i)) HR Hl I I) as (s' & E & HR' & Hs).
  eexists _, s'. split; [exact E|]. split; [exact HR'|]. cbn [sp_kstep sp_step] in *.
  destruct (sp_del_cases l i) as [(a & x & b & H1 & H2 & H3 & H4)|(H1 & H2 & H3)].
  - left. exists a, x, b. rewrite H3 in *. repeat split; auto.
  - right. rewrite H2 in *. repeat split; auto.
Qed.

Lemma c27_delete_slice : forall V K (key : V -> K) (kltb keqb : K -> K -> bool) (vltb eqb : V -> V -> bool) dflt s l sl,
  TotalOrder kltb keqb -> EqCompat (by_key key kltb) eqb -> 1 <= dflt ->
  skl_reach key kltb keqb vltb eqb dflt s -> kshows s l ->
  exists r s', skl_do key kltb keqb vltb eqb dflt (KList (LDelSlice sl)) s = (r, s') /\ skl_reach key kltb keqb vltb eqb dflt s' /\
    ((s_step sl = Some 0%Z /\ r = RExn ValueError /\ kshows s' l) \/
     (s_step sl <> Some 0%Z /\ exists l', r = RUnit /\ kshows s' l' /\ slice_deleted sl l l')).
Proof.
  intros V K key kltb keqb vltb eqb dflt s l sl HT HE Hd HR Hl.
  destruct (kdo_ok key kltb keqb vltb eqb dflt HT HE Hd s l (KList (LDelSlice sl)) HR Hl I I) as (s' & E & HR' & Hs).
  eexists _, s'. split; [exact E|]. split; [exact HR'|]. cbn [sp_kstep sp_step] in *.
  destruct (slice_indices_cases sl (length l)) as [[E1 E2]|(E2 & start & stop & step & E1)].
  - left. unfold sp_del_slice in *. rewrite E1 in *. auto.
  - right. split; [exact E2|]. destruct (sp_del_slice_is sl l E2) as (l' & El & Hl'). rewrite El in *. exists l'. auto.
Qed.

Lemma c27_pop : forall V K (key : V -> K) (kltb keqb : K -> K -> bool) (vltb eqb : V -> V -> bool) dflt s l i,
  TotalOrder kltb keqb -> EqCompat (by_key key kltb) eqb -> 1 <= dflt ->
  skl_reach key kltb keqb vltb eqb dflt s -> kshows s l ->
  exists r s', skl_do key kltb keqb vltb eqb dflt (KList (LPop i)) s = (r, s') /\ skl_reach key kltb keqb vltb eqb dflt s' /\
    ((exists a x b, l = a ++ x :: b /\
        (Z.of_nat (length a) = i \/ Z.of_nat (length a) = i + Z.of_nat (length l))%Z /\
        r = RVal x /\ kshows s' (a ++ b)) \/
     ((i < - Z.of_nat (length l) \/ Z.of_nat (length l) <= i)%Z /\ r = RExn IndexError /\ kshows s' l)).
Proof.
  intros V K key kltb keqb vltb eqb dflt s l i HT HE Hd HR Hl.
  destruct (kdo_ok key kltb keqb vltb eqb dflt HT HE Hd s l (KList (LPop i)) HR Hl I I) as (s' & E & HR' & Hs).
  eexists _, s'. split; [exact E|]. split; [exact HR'|]. cbn [sp_kstep sp_step] in *.
  destruct (sp_del_cases l i) as [(a & x & b & H1 & H2 & H3 & H4)|(H1 & H2 & H3)].
  - left. exists a, x, b. rewrite H3, H4 in *. repeat split; auto.
  - right. rewrite H2, H3 in *. repeat split; auto.
Qed.

Lemma c27_islice : forall V K (key : V -> K) (kltb keqb : K -> K -> bool) (vltb eqb : V -> V -> bool) dflt s l a b reverse,
  TotalOrder kltb keqb -> EqCompat (by_key key kltb) eqb -> 1 <= dflt ->
  skl_reach key kltb keqb vltb eqb dflt s -> kshows s l ->
  exists x s', skl_do key kltb keqb vltb eqb dflt (KList (LISlice a b reverse)) s = (RList (if reverse then rev x else x), s') /\
    kshows s' l /\ slice_is (mkslice a b None) l x.
Proof.
  intros V K key kltb keqb vltb eqb dflt s l a b reverse HT HE Hd HR Hl.
  destruct (kdo_ok key kltb keqb vltb eqb dflt HT HE Hd s l (KList (LISlice a b reverse)) HR Hl I I) as (s1 & E1 & _ & H1).
  cbn [sp_kstep sp_step fst snd] in *.
  destruct (sp_slice_is (mkslice a b None) l) as (x & Ex & Hx); [discriminate|].
  rewrite Ex in E1. exists x, s1. auto.
Qed.

Lemma c27_bisect : forall V K (key : V -> K) (kltb keqb : K -> K -> bool) (vltb eqb : V -> V -> bool) dflt s l v,
  TotalOrder kltb keqb -> EqCompat (by_key key kltb) eqb -> 1 <= dflt ->
  skl_reach key kltb keqb vltb eqb dflt s -> kshows s l ->
  exists s1 s2,
    skl_do key kltb keqb vltb eqb dflt (KList (LBisectLeft v)) s = (RNat (length (filter (fun x => kltb (key x) (key v)) l)), s1) /\ kshows s1 l /\
    skl_do key kltb keqb vltb eqb dflt (KList (LBisectRight v)) s = (RNat (length (filter (fun x => negb (kltb (key v) (key x))) l)), s2) /\ kshows s2 l.
Proof.
  intros V K key kltb keqb vltb eqb dflt s l v HT HE Hd HR Hl.
  destruct (kdo_ok key kltb keqb vltb eqb dflt HT HE Hd s l (KList (LBisectLeft v)) HR Hl I I) as (s1 & E1 & _ & H1).
  destruct (kdo_ok key kltb keqb vltb eqb dflt HT HE Hd s l (KList (LBisectRight v)) HR Hl I I) as (s2 & E2 & _ & H2).
  exists s1, s2. auto.
Qed.

Lemma c27_irange : forall V K (key : V -> K) (kltb keqb : K -> K -> bool) (vltb eqb : V -> V -> bool) dflt s l (mn mx : option V) (imin imax reverse : bool),
  TotalOrder kltb keqb -> EqCompat (by_key key kltb) eqb -> 1 <= dflt ->
  skl_reach key kltb keqb vltb eqb dflt s -> kshows s l ->
  let above (x : V) := match mn with None => true | Some m => if imin then negb (kltb (key x) (key m)) else kltb (key m) (key x) end in
  let below (x : V) := match mx with None => true | Some m => if imax then negb (kltb (key m) (key x)) else kltb (key x) (key m) end in
  let r := filter (fun x => above x && below x) l in
  exists s', skl_do key kltb keqb vltb eqb dflt (KList (LIRange mn mx imin imax reverse)) s
               = (RList (if reverse then rev r else r), s') /\ kshows s' l.
Proof.
  intros V K key kltb keqb vltb eqb dflt s l mn mx imin imax reverse HT HE Hd HR Hl above below r.
  destruct (kdo_ok key kltb keqb vltb eqb dflt HT HE Hd s l (KList (LIRange mn mx imin imax reverse)) HR Hl I I) as (s1 & E1 & _ & H1).
  exists s1. auto.
Qed.

(** ** C26: nothing is needed of equality here *)
Lemma subseq_refl {V} (l : list V) : subseq l l.
Proof. induction l; constructor; auto. Qed.
Lemma subseq_nil_l {V} (l : list V) : subseq [] l.
Proof. induction l; constructor; auto. Qed.
Lemma subseq_app {V} (a a' b b' : list V) : subseq a a' -> subseq b b' -> subseq (a ++ b) (a' ++ b').
Proof. intros Ha Hb. induction Ha; cbn; [exact Hb|constructor; auto|constructor; auto]. Qed.
Lemma subseq_filter {V} (p : V -> bool) a b : subseq a b -> subseq (filter p a) (filter p b).
Proof. induction 1; cbn; [constructor| |]; destruct (p x); auto; constructor; auto. Qed.
Lemma subseq_drop_positions {V} idxs (l : list V) : forall i, subseq (drop_positions idxs i l) l.
Proof. induction l; intros i; cbn; [constructor|]. destruct (existsb _ _); constructor; auto. Qed.
Lemma subseq_mid {V} (a b : list V) x : subseq (a ++ b) (a ++ x :: b).
Proof. apply subseq_app; [apply subseq_refl|]. apply subseq_drop. apply subseq_refl. Qed.
Lemma sorted_subseq {V} (ltb : V -> V -> bool) a b : SWO ltb -> subseq a b -> sorted ltb b -> sorted ltb a.
Proof.
  intros HO H. assert (HI : forall x, In x a -> In x b).
  { induction H; intros y; cbn; [tauto| |]; intros; intuition. }
  revert HI. induction H; intros HI Hs; [exact Hs| |].
  - assert (HI' : forall y, In y a -> In y b).
    { clear - H. induction H; intros y; cbn; [tauto| |]; intros; intuition. }
    inversion Hs as [|? ? Hs' HF]; subst. constructor; [apply IHsubseq; auto|].
    rewrite Forall_forall in *. auto.
  - inversion Hs; subst. apply IHsubseq; auto.
    clear - H. induction H; intros y; cbn; [tauto| |]; intros; intuition.
Qed.

Lemma comparable_ok {V K} (vltb eqb : V -> V -> bool) (o : kop V K) : comparable vltb eqb o -> kcmp_ok vltb eqb o.
Proof. destruct o as [[]| | |]; cbn; auto. destruct op; cbn; auto; discriminate. Qed.

Section AnyEq.
  Context {V K : Type}.
  Variable key : V -> K.
  Variables kltb keqb : K -> K -> bool.
  Variables vltb eqb : V -> V -> bool.
  Variable dflt : nat.
  Hypothesis HT : TotalOrder kltb keqb.
  Hypothesis Hd : 1 <= dflt.
  Notation ltb := (by_key key kltb).
  Notation do := (skl_do key kltb keqb vltb eqb dflt).
  Notation reach := (skl_reach key kltb keqb vltb eqb dflt).

  Definition keyeq (x y : V) : bool := keqb (key x) (key y).
  Lemma keyeq_compat : EqCompat ltb keyeq.
  Proof.
    intros x y H. unfold keyeq in H. rewrite (to_eq HT) in H. apply andb_true_iff in H as [H1 H2].
    unfold by_key. destruct (kltb (key x) (key y)), (kltb (key y) (key x)); auto; discriminate.
  Qed.

  Definition eq_free (o : kop V K) : Prop :=
    match o with
    | KList (LDiscard _) | KList (LRemove _) | KList (LContains _) | KList (LCount _)
    | KList (LIndex _ _ _) | KList (LCompare _ _) => False
    | _ => True
    end.

  (** What happens to the contents, without assumptions on equality. *)
  Lemma kstep_order o s : KInv key kltb s -> kop_ok o ->
    exists r s', do o s = (r, s') /\ KInv key kltb s' /\
      ((stable_sort_of ltb (after_adding o (contents (kc s))) (contents (kc s')) /\ r = RUnit) \/
       (subseq (contents (kc s')) (contents (kc s)) /\ after_adding o (contents (kc s)) = contents (kc s))).
  Proof.
    intros HI Ho. set (l := contents (kc s)) in *.
    assert (D : eq_free o \/ ~ eq_free o) by (destruct o as [[]| | |]; cbn; tauto).
    destruct D as [D|D].
    - assert (E0 : do o s = skl_do key kltb keqb vltb keyeq dflt o s)
        by (destruct o as [[]| | |]; cbn in D; try contradiction; reflexivity).
      destruct (kstep_any key kltb keqb vltb keyeq dflt HT keyeq_compat Hd o s HI Ho) as (r & s' & E & HI' & Ec & _ & Er).
      exists r, s'. split; [rewrite E0; exact E|]. split; [exact HI'|].
      assert (Hc : kcmp_ok vltb keyeq o) by (destruct o as [[]| | |]; cbn in *; auto; contradiction).
      specialize (Er Hc). rewrite Ec, Er. pose proof (by_key_swo key kltb (to_swo HT)) as HO.
      pose proof (proj2 HI) as Hso. fold l in Hso |- *.
      assert (ST : forall l, stable_sort_of ltb l (sp_sort ltb l)) by (intros; apply sp_sort_stable; exact HO).
      assert (SI : sp_sort ltb l = l) by (apply sp_sort_id; auto).
      destruct o as [[]| | |]; cbn in D; try contradiction; cbn [sp_kstep sp_step fst snd after_adding];
        try (left; split; [apply ST|reflexivity]); try (right; split; [apply subseq_refl|reflexivity]).
      + left. split; [|reflexivity]. rewrite <- SI at 2. rewrite <- sp_sort_snoc. apply ST.
      + right. split; [apply subseq_nil_l|reflexivity].
      + right. split; [|reflexivity].
        destruct (sp_del_cases l i) as [(a & x & b & El & _ & -> & _)|(_ & -> & _)]; cbn [snd].
        * rewrite El. apply subseq_mid.
        * apply subseq_refl.
      + right. split; [|reflexivity]. unfold sp_del_slice. destruct (slice_indices _ _) as [[[a b] st]|e]; cbn [rbind snd];
          [apply subseq_drop_positions|apply subseq_refl].
      + right. split; [|reflexivity].
        destruct (sp_del_cases l i) as [(a & x & b & El & _ & -> & ->)|(_ & -> & ->)]; cbn [snd].
        * rewrite El. apply subseq_mid.
        * apply subseq_refl.
    - destruct (skl_step_gen (total2 vltb) (total2 eqb) (total2 kltb) (total2 keqb) (total1 key) dflt Hd o s (proj1 HI) Ho)
        as (r & s' & E & HL & HS).
      exists r, s'. split; [exact E|].
      assert (HSub : subseq (contents (kc s')) l).
      { fold l in HL. assert (OL : forall v l', one_less (total2 eqb) v l l' -> subseq l' l).
        { intros v l' (a & x & b & -> & -> & _). apply subseq_mid. }
        destruct o as [[]| | |]; cbn in D; try tauto; cbn [kloose loose] in HL;
          try (destruct HL as [[-> _] _]; apply subseq_refl).
        - destruct HL as [[_ [->|H]]|(e & _ & _ & ->)]; eauto using subseq_refl.
        - destruct HL as [[[_ H]|(e & _ & _ & ->)]|[_ ->]]; eauto using subseq_refl. }
      split; [split; [apply HS|]|].
      + destruct o as [[]| | |]; cbn in D |- *; tauto.
      + eapply sorted_subseq; [apply by_key_swo, (to_swo HT)|exact HSub|apply HI].
      + right. split; [exact HSub|]. destruct o as [[]| | |]; cbn in D |- *; tauto.
  Qed.

  Lemma kreach_inv_any s : reach s -> KInv key kltb s.
  Proof.
    intros (ops & Hok & ->). pose proof (skl_init_inv key kltb dflt Hd) as HI. revert HI. generalize (@skl_init V K dflt).
    induction Hok as [|o ops Ho Hok IH]; intros s HI; [exact HI|].
    destruct (kstep_order o s HI Ho) as (r & s' & E & HI' & _).
    unfold skl_run in *. cbn [run]. unfold skl_do in E. rewrite E.
    specialize (IH s' HI'). destruct (run _ ops s') as [rs s2]. exact IH.
  Qed.
End AnyEq.

Lemma c26_sorted : forall V K (key : V -> K) (kltb keqb : K -> K -> bool) (vltb eqb : V -> V -> bool) dflt s,
  TotalOrder kltb keqb -> 1 <= dflt -> skl_reach key kltb keqb vltb eqb dflt s ->
  exists l, kshows s l /\ sorted kltb (map key l).
Proof.
  intros V K key kltb keqb vltb eqb dflt s HT Hd HR. exists (contents (kc s)). split; [reflexivity|].
  apply sorted_by_key. apply (kreach_inv_any key kltb keqb vltb eqb dflt HT Hd s HR).
Qed.

Lemma c26_ties : forall V K (key : V -> K) (kltb keqb : K -> K -> bool) (vltb eqb : V -> V -> bool) dflt s l o,
  TotalOrder kltb keqb -> 1 <= dflt -> skl_reach key kltb keqb vltb eqb dflt s -> kshows s l -> kop_ok o ->
  exists r s' l', skl_do key kltb keqb vltb eqb dflt o s = (r, s') /\ skl_reach key kltb keqb vltb eqb dflt s' /\
    kshows s' l' /\
    forall k, subseq (filter (fun x => keqb (key x) k) l') (filter (fun x => keqb (key x) k) (after_adding o l)).
Proof.
  intros V K key kltb keqb vltb eqb dflt s l o HT Hd HR Hl Ho. apply kshows_iff in Hl.
  pose proof (kreach_inv_any key kltb keqb vltb eqb dflt HT Hd s HR) as HI.
  destruct (kstep_order key kltb keqb vltb eqb dflt HT Hd o s HI Ho) as (r & s' & E & HI' & H).
  exists r, s', (contents (kc s')). split; [exact E|].
  split; [pose proof (kreach_step key kltb keqb vltb eqb dflt s o HR Ho) as H'; rewrite E in H'; exact H'|].
  split; [reflexivity|]. intros k. rewrite Hl in H. destruct H as [[[H1 H2] _]|[H1 H2]].
  - assert (Q : filter (fun x => keqb (key x) k) (contents (kc s')) = filter (fun x => keqb (key x) k) (after_adding o l)).
    { pose proof (swo_cotrans (to_swo HT)) as CT. pose proof (swo_trans (to_swo HT)) as TR.
      assert (TK : forall x y, tie (by_key key kltb) x y = keqb (key x) (key y)).
      { intros x y. unfold tie, by_key. rewrite (to_eq HT). reflexivity. }
      assert (SYM : forall a b, keqb a b = keqb b a) by (intros; rewrite !(to_eq HT); apply andb_comm).
      assert (TRK : forall a b c, keqb a b = true -> keqb b c = true -> keqb a c = true).
      { intros a b c. rewrite !(to_eq HT), !andb_true_iff, !negb_true_iff. intros [A1 A2] [B1 B2].
        split; apply not_true_iff_false; intros C.
        - destruct (CT a b c C); congruence.
        - destruct (CT c b a C); congruence. }
      destruct (filter (fun x => keqb (key x) k) (contents (kc s') ++ after_adding o l)) as [|x0 t] eqn:E0.
      - rewrite filter_app in E0. apply app_eq_nil in E0 as [-> ->]. reflexivity.
      - assert (Hx : keqb (key x0) k = true).
        { assert (In x0 (x0 :: t)) by (left; reflexivity). rewrite <- E0 in H. apply filter_In in H. apply H. }
        specialize (H2 x0).
        assert (EX : forall m, filter (fun x => keqb (key x) k) m = filter (tie (by_key key kltb) x0) m).
        { intros m. apply filter_ext. intros y. rewrite TK. apply eq_true_iff_eq. split; intros Q.
          - apply (TRK _ k); [exact Hx|]. rewrite SYM. exact Q.
          - apply (TRK _ (key x0)); [|exact Hx]. rewrite SYM. exact Q. }
        rewrite !EX. exact H2. }
    rewrite Q. apply subseq_refl.
  - rewrite H2. apply subseq_filter. exact H1.
Qed.

(** ** C27 *)
Lemma c27_refines : forall V K (key : V -> K) (kltb keqb : K -> K -> bool) (vltb eqb : V -> V -> bool) dflt ops,
  TotalOrder kltb keqb -> EqCompat (by_key key kltb) eqb -> 1 <= dflt ->
  Forall kop_ok ops -> Forall (comparable vltb eqb) ops ->
  exists s, skl_run (total2 vltb) (total2 eqb) (total2 kltb) (total2 keqb) (total1 key) dflt ops (skl_init dflt)
              = (fst (sp_krun eqb vltb key kltb ops []), s) /\
            kshows s (snd (sp_krun eqb vltb key kltb ops [])).
Proof.
  intros V K key kltb keqb vltb eqb dflt ops HT HE Hd Hok Hc.
  destruct (skl_run_ok key kltb keqb vltb eqb HT HE dflt Hd ops _ (skl_init_inv key kltb dflt Hd) Hok) as (s' & E & _ & H & _).
  { eapply Forall_impl; [|exact Hc]. apply comparable_ok. }
  exists s'. split; [exact E|]. apply kshows_iff. exact H.
Qed.

Lemma c27_compare : forall V K (key : V -> K) (kltb keqb : K -> K -> bool) (vltb eqb : V -> V -> bool) dflt s l op o,
  TotalOrder kltb keqb -> EqCompat (by_key key kltb) eqb -> 1 <= dflt ->
  skl_reach key kltb keqb vltb eqb dflt s -> kshows s l -> comparable vltb eqb (KList (K:=K) (LCompare op o)) ->
  exists b s', skl_do key kltb keqb vltb eqb dflt (KList (LCompare op o)) s = (RBool b, s') /\ kshows s' l /\
    (b = true <-> cmp_means vltb eqb op l o).
Proof.
  intros V K key kltb keqb vltb eqb dflt s l op o HT HE Hd HR Hl Hc.
  destruct (kdo_ok key kltb keqb vltb eqb dflt HT HE Hd s l (KList (LCompare op o)) HR Hl I (comparable_ok _ _ _ Hc)) as (s1 & E1 & _ & H1).
  eexists _, s1. split; [exact E1|]. split; [exact H1|]. apply cmp_means_iff. destruct op; auto.
Qed.

Lemma c27_queries : forall V K (key : V -> K) (kltb keqb : K -> K -> bool) (vltb eqb : V -> V -> bool) dflt s l o,
  TotalOrder kltb keqb -> EqCompat (by_key key kltb) eqb -> 1 <= dflt ->
  skl_reach key kltb keqb vltb eqb dflt s -> kshows s l ->
  match o with KList o => query o | _ => True end ->
  exists r s', skl_do key kltb keqb vltb eqb dflt o s = (r, s') /\ skl_reach key kltb keqb vltb eqb dflt s' /\ kshows s' l.
Proof.
  intros V K key kltb keqb vltb eqb dflt s l o HT HE Hd HR Hl Hq. apply kshows_iff in Hl.
  assert (Ho : kop_ok o) by (destruct o as [[]| | |]; cbn in *; tauto).
  destruct (kstep_any key kltb keqb vltb eqb dflt HT HE Hd o s (kreach_inv key kltb keqb vltb eqb dflt HT HE Hd s HR) Ho)
    as (r & s' & E & _ & Ec & _).
  exists r, s'. split; [exact E|].
  split; [pose proof (kreach_step key kltb keqb vltb eqb dflt s o HR Ho) as H'; rewrite E in H'; exact H'|].
  apply kshows_iff. rewrite Ec, Hl. destruct o as [[]| | |]; cbn in Hq; try contradiction; reflexivity.
Qed.

Lemma c27_len_iter : forall V K (key : V -> K) (kltb keqb : K -> K -> bool) (vltb eqb : V -> V -> bool) dflt s,
  TotalOrder kltb keqb -> 1 <= dflt -> skl_reach key kltb keqb vltb eqb dflt s ->
  exists l, iter (kc s) = (Ok l, kc s) /\ length_of (kc s) = (Ok (length l), kc s) /\ reversed (kc s) = (Ok (rev l), kc s).
Proof.
  intros V K key kltb keqb vltb eqb dflt s HT Hd HR. exists (contents (kc s)).
  pose proof (shape_core _ _ (proj1 (kreach_inv_any key kltb keqb vltb eqb dflt HT Hd s HR))) as HC.
  split; [reflexivity|]. split; [|apply reversed_ok].
  unfold length_of, bind, get, ret. rewrite (co_len _ HC). reflexivity.
Qed.

(** ** C29 *)
Lemma c29_bisect_key : forall V K (key : V -> K) (kltb keqb : K -> K -> bool) (vltb eqb : V -> V -> bool) dflt s l k,
  TotalOrder kltb keqb -> EqCompat (by_key key kltb) eqb -> 1 <= dflt ->
  skl_reach key kltb keqb vltb eqb dflt s -> kshows s l ->
  exists s1 s2,
    skl_do key kltb keqb vltb eqb dflt (KBisectLeft k) s = (RNat (length (filter (fun x => kltb (key x) k) l)), s1) /\
    kshows s1 l /\
    skl_do key kltb keqb vltb eqb dflt (KBisectRight k) s = (RNat (length (filter (fun x => negb (kltb k (key x))) l)), s2) /\
    kshows s2 l.
Proof.
  intros V K key kltb keqb vltb eqb dflt s l k HT HE Hd HR Hl.
  destruct (kdo_ok key kltb keqb vltb eqb dflt HT HE Hd s l (KBisectLeft k) HR Hl I I) as (s1 & E1 & _ & H1).
  destruct (kdo_ok key kltb keqb vltb eqb dflt HT HE Hd s l (KBisectRight k) HR Hl I I) as (s2 & E2 & _ & H2).
  exists s1, s2. auto.
Qed.

Lemma c29_irange_key : forall V K (key : V -> K) (kltb keqb : K -> K -> bool) (vltb eqb : V -> V -> bool) dflt s l
    (mn mx : option K) (imin imax reverse : bool),
  TotalOrder kltb keqb -> EqCompat (by_key key kltb) eqb -> 1 <= dflt ->
  skl_reach key kltb keqb vltb eqb dflt s -> kshows s l ->
  let above (k : K) := match mn with None => true | Some m => if imin then negb (kltb k m) else kltb m k end in
  let below (k : K) := match mx with None => true | Some m => if imax then negb (kltb m k) else kltb k m end in
  let r := filter (fun x => above (key x) && below (key x)) l in
  exists s', skl_do key kltb keqb vltb eqb dflt (KIRange mn mx imin imax reverse) s
               = (RList (if reverse then rev r else r), s') /\ kshows s' l.
Proof.
  intros V K key kltb keqb vltb eqb dflt s l mn mx imin imax reverse HT HE Hd HR Hl above below r.
  destruct (kdo_ok key kltb keqb vltb eqb dflt HT HE Hd s l (KIRange mn mx imin imax reverse) HR Hl I I) as (s1 & E1 & _ & H1).
  exists s1. auto.
Qed.

(** ** C30 *)
Lemma skl_new_shows {V K} (key : V -> K) (kltb keqb : K -> K -> bool) (vltb eqb : V -> V -> bool) dflt it :
  TotalOrder kltb keqb -> 1 <= dflt ->
  exists s', skl_new (total2 kltb) (total1 key) dflt it = Ok s' /\ skl_reach key kltb keqb vltb eqb dflt s' /\
    kshows s' (sp_sort (by_key key kltb) it).
Proof.
  intros HT Hd. destruct (skl_new_ok key kltb (to_swo HT) dflt it Hd) as (c' & E & H1 & H2 & H3).
  exists c'. split; [exact E|]. split; [|apply kshows_iff; exact H2].
  exists [KList (LUpdate it)]. split; [repeat constructor|]. unfold skl_run. cbn [run skl_step skl_lstep].
  unfold skl_new in E. unfold observe, skl_init.
  destruct (skl_update (total2 kltb) (total1 key) it (skl_empty dflt)) as [[u|e] c1]; [injection E as ->; reflexivity|discriminate].
Qed.

Lemma c30_copy_plus_mul : forall V K (key : V -> K) (kltb keqb : K -> K -> bool) (vltb eqb : V -> V -> bool) dflt s l it n,
  TotalOrder kltb keqb -> 1 <= dflt -> skl_reach key kltb keqb vltb eqb dflt s -> kshows s l ->
  let klt := total2 kltb in
  let kf := total1 key in
  let ltb := by_key key kltb in
  let reach := skl_reach key kltb keqb vltb eqb dflt in
  (exists s', skl_copy klt kf dflt s = (Ok s', s) /\ reach s' /\ kshows s' l) /\
  (exists s' l', skl_plus klt kf dflt it s = (Ok s', s) /\ reach s' /\ kshows s' l' /\ stable_sort_of ltb (l ++ it) l') /\
  (exists s' l', skl_mul klt kf dflt n s = (Ok s', s) /\ reach s' /\ kshows s' l' /\
     stable_sort_of ltb (concat (repeat l (Z.to_nat n))) l') /\
  (exists s' l', skl_do key kltb keqb vltb eqb dflt (KList (LIAdd it)) s = (RUnit, s') /\ reach s' /\ kshows s' l' /\
     stable_sort_of ltb (l ++ it) l') /\
  (exists s' l', skl_do key kltb keqb vltb eqb dflt (KList (LIMul n)) s = (RUnit, s') /\ reach s' /\ kshows s' l' /\
     stable_sort_of ltb (concat (repeat l (Z.to_nat n))) l').
Proof.
  intros V K key kltb keqb vltb eqb dflt s l it n HT Hd HR Hl klt kf ltb reach.
  pose proof (kreach_inv_any key kltb keqb vltb eqb dflt HT Hd s HR) as HI.
  pose proof Hl as Hl'. apply kshows_iff in Hl'.
  pose proof (by_key_swo key kltb (to_swo HT)) as HO.
  assert (Ho : sorted ltb l) by (rewrite <- Hl'; apply HI).
  assert (INP : forall o, kop_ok o -> after_adding o l <> l \/ match o with KList (LIAdd _) | KList (LIMul _) => True | _ => False end ->
     match o with KList (LIAdd _) | KList (LIMul _) => True | _ => False end ->
     exists s' l', skl_do key kltb keqb vltb eqb dflt o s = (RUnit, s') /\ reach s' /\ kshows s' l' /\
       stable_sort_of ltb (after_adding o l) l').
  { intros o Hok _ Hm.
    assert (E0 : skl_do key kltb keqb vltb eqb dflt o s = skl_do key kltb keqb vltb (keyeq key keqb) dflt o s)
        by (destruct o as [[]| | |]; cbn in Hm; try contradiction; reflexivity).
    destruct (kstep_any key kltb keqb vltb (keyeq key keqb) dflt HT (keyeq_compat key kltb keqb HT) Hd o s HI Hok)
      as (r & s' & E & _ & Ec & _ & Er).
    assert (Hc : kcmp_ok vltb (keyeq key keqb) o) by (destruct o as [[]| | |]; cbn in *; auto; contradiction).
    specialize (Er Hc). rewrite Hl' in *.
    exists s', (contents (kc s')). rewrite E0, E.
    split; [rewrite Er; destruct o as [[]| | |]; cbn in Hm; try contradiction; reflexivity|].
    split; [pose proof (kreach_step key kltb keqb vltb eqb dflt s o HR Hok) as H'; rewrite E0, E in H'; exact H'|].
    split; [reflexivity|]. rewrite Ec. destruct o as [[]| | |]; cbn in Hm; try contradiction; apply sp_sort_stable; exact HO. }
  split; [|split; [|split; [|split]]].
  - destruct (skl_new_shows key kltb keqb vltb eqb dflt (contents (kc s)) HT Hd) as (s' & E & R & S).
    exists s'. unfold skl_copy. rewrite bind_get. unfold liftr. change (concat (lists (kc s))) with (contents (kc s)).
    unfold klt, kf. rewrite E. rewrite Hl', sp_sort_id in S by auto. auto.
  - destruct (skl_new_shows key kltb keqb vltb eqb dflt (contents (kc s) ++ it) HT Hd) as (s' & E & R & S). rewrite Hl' in *.
    eexists s', _. unfold skl_plus. rewrite bind_get. unfold liftr, klt, kf. rewrite Hl', E. split; [reflexivity|].
    split; [exact R|]. split; [exact S|]. apply sp_sort_stable. exact HO.
  - destruct (skl_new_shows key kltb keqb vltb eqb dflt (list_mul (contents (kc s)) n) HT Hd) as (s' & E & R & S). rewrite Hl' in *.
    eexists s', _. unfold skl_mul. rewrite bind_get. unfold liftr, klt, kf. rewrite Hl', E. split; [reflexivity|].
    split; [exact R|]. split; [exact S|]. apply sp_sort_stable. exact HO.
  - apply (INP (KList (LIAdd it))); cbn; auto.
  - apply (INP (KList (LIMul n))); cbn; auto.
Qed.

(** [n * skl] is sorted by the values, not by their keys. *)
Lemma c30_refuted : exists (key : Z -> Z) (s : skl Z Z) n s' l',
  skl_reach key Z.ltb Z.eqb Z.ltb Z.eqb 1000 s /\
  skl_rmul (total2 Z.ltb) 1000 n s = (Ok s', s) /\ kshows s' l' /\
  ~ sorted Z.ltb (map key l') /\
  skl_mul (total2 Z.ltb) (total1 key) 1000 n s <> (Ok s', s).
Proof.
  exists Z.opp. set (s := snd (skl_run (total2 Z.ltb) (total2 Z.eqb) (total2 Z.ltb) (total2 Z.eqb) (total1 Z.opp) 1000
    [KList (LUpdate [1; 2]%Z)] (skl_init 1000))). exists s, 1%Z.
  exists (match fst (skl_rmul (total2 Z.ltb) 1000 1 s) with Ok s' => s' | Err _ => s end), [1; 2]%Z.
  split; [eexists; split; [|reflexivity]; repeat constructor|].
  split; [vm_compute; reflexivity|]. split; [vm_compute; reflexivity|]. split.
  - cbn. intros H. inversion H as [|? ? _ HF]; subst. inversion HF as [|? ? HF' _]; subst. discriminate.
  - vm_compute. discriminate.
Qed.

(** What [n * skl] does. *)
Lemma c30_rmul : forall V K (key : V -> K) (kltb keqb : K -> K -> bool) (vltb eqb : V -> V -> bool) dflt s l n,
  TotalOrder kltb keqb -> TotalOrder vltb eqb -> 1 <= dflt -> skl_reach key kltb keqb vltb eqb dflt s -> kshows s l ->
  exists s' l', skl_rmul (total2 vltb) dflt n s = (Ok s', s) /\ kshows s' l' /\
    skl_reach (fun v => v) vltb eqb vltb eqb dflt s' /\ stable_sort_of vltb (concat (repeat l (Z.to_nat n))) l'.
Proof.
  intros V K key kltb keqb vltb eqb dflt s l n HT HTv Hd HR Hl. apply kshows_iff in Hl.
  destruct (skl_new_shows (fun v => v) vltb eqb vltb eqb dflt (list_mul (contents (kc s)) n) HTv Hd) as (s' & E & R & S).
  eexists s', _. unfold skl_rmul. rewrite bind_get. unfold liftr. rewrite Hl in *. rewrite by_key_id in S.
  change (fun v => Ok v) with (total1 (fun v : V => v)). rewrite E. split; [reflexivity|]. split; [exact S|].
  split; [exact R|]. apply sp_sort_stable. apply (to_swo HTv).
Qed.

Lemma c25_key_reduce : forall V K (key : V -> K) (kltb keqb : K -> K -> bool) (vltb eqb : V -> V -> bool) dflt s l,
  TotalOrder kltb keqb -> 1 <= dflt -> skl_reach key kltb keqb vltb eqb dflt s -> kshows s l ->
  exists s', skl_reduce (total2 kltb) (total1 key) dflt s = (Ok s', s) /\ skl_reach key kltb keqb vltb eqb dflt s' /\
    kshows s' l.
Proof.
  intros V K key kltb keqb vltb eqb dflt s l HT Hd HR Hl.
  exact (proj1 (c30_copy_plus_mul V K key kltb keqb vltb eqb dflt s l [] 0%Z HT Hd HR Hl)).
Qed.

(** ** C31 *)
Lemma c31_check : forall V K (key : V -> K) (kltb keqb : K -> K -> bool) (vltb eqb : V -> V -> bool) dflt ops,
  TotalOrder kltb keqb -> EqCompat (by_key key kltb) eqb -> 4 <= dflt -> Forall (kloads_from 4) ops ->
  skl_check (total2 kltb) (total2 keqb) (total1 key)
    (snd (skl_run (total2 vltb) (total2 eqb) (total2 kltb) (total2 keqb) (total1 key) dflt ops (skl_init dflt))) = Ok tt.
Proof.
  intros V K key kltb keqb vltb eqb dflt ops HT HE Hd HF.
  assert (Hok : Forall kop_ok ops).
  { eapply Forall_impl; [|exact HF]. intros [[]| | |] H; cbn in *; auto; lia. }
  destruct (krun_inv key kltb keqb vltb eqb dflt HT HE ltac:(lia) ops Hok _ (skl_init_inv key kltb dflt ltac:(lia))) as [HI El].
  apply (skl_check_ok key kltb keqb HT); [exact HI|]. rewrite El. clear - Hd HF.
  cbn [skl_init kc skl_empty core_empty load]. assert (Hl : 4 <= dflt) by exact Hd. revert Hl. generalize dflt at 1 3.
  induction HF as [|o ops Ho HF IH]; intros ld Hl; [exact Hl|]. cbn [fold_left]. apply IH.
  destruct o as [[]| | |]; cbn in *; auto.
Qed.

(** ** C54 *)
Lemma c54_keylist : forall V K (key : V -> K) (kltb keqb : K -> K -> bool) (vltb eqb : V -> V -> bool) dflt s o,
  TotalOrder kltb keqb -> EqCompat (by_key key kltb) eqb -> 1 <= dflt -> skl_reach key kltb keqb vltb eqb dflt s ->
  kop_ok o -> forall e s', skl_do key kltb keqb vltb eqb dflt o s = (RExn e, s') -> kdocumented o e.
Proof.
  intros V K key kltb keqb vltb eqb dflt s o HT HE Hd HR Ho e s' E.
  pose proof (kreach_inv key kltb keqb vltb eqb dflt HT HE Hd s HR) as HI.
  assert (D : (exists op l, o = KList (LCompare op l)) \/ kcmp_ok vltb eqb o).
  { destruct o as [[]| | |]; try (right; exact I). left; eauto. }
  destruct D as [(op & l & ->)|D].
  - destruct (compare_gen (total2 vltb) (total2 eqb) op l (kc s)) as (r & E1 & Hr).
    destruct (core_step key kltb (@RBool V) _ s r (kc s) (proj1 HI) E1 (touch_refl _ (shape_core (total1 key) _ (proj1 HI)))) as (s2 & E2 & _).
    unfold skl_do in E. cbn [skl_step skl_lstep] in E. rewrite E2 in E. destruct r as [b|e']; [discriminate|].
    destruct (Hr e' eq_refl) as [(x & y & H)|(x & y & H)]; discriminate.
  - destruct (kstep_any key kltb keqb vltb eqb dflt HT HE Hd o s HI Ho) as (r & s2 & E2 & _ & _ & _ & Er).
    rewrite E2 in E. injection E as -> ->. specialize (Er D).
    destruct o as [o| | |]; cbn [sp_kstep fst] in Er; try discriminate. eapply sp_documented. symmetry. exact Er.
Qed.

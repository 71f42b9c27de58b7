(** * What SortedSet and SortedDict need from their list *)
From Verif Require Import PyBase Model Spec History BaseFacts SpecFacts Shape ListSim ListFacts KeyFacts
  HistFacts CheckFacts ListClass ClassSpec.
Local Unset Implicit Arguments.

Definition sp_pop {V} (i : Z) (l : list V) : res V * list V :=
  match getz l i, sp_del i l with
  | Ok v, Ok l' => (Ok v, l')
  | _, _ => (Err IndexError, l)
  end.
Definition upd {V} (r : res (list V)) (l : list V) : res unit * list V :=
  match r with Ok l' => (Ok tt, l') | Err e => (Err e, l) end.

Definition fwd_load {V K} (f : fwd V K) (ld : nat) : nat := match f with FReset n => n | _ => ld end.
Definition fwd_fine {V K} (f : fwd V K) : Prop := match f with FReset n => 1 <= n | _ => True end.

(** [R s l]: [s] is a consistent list object with contents [l]. *)
Record ClsOK {S V K} (T : listcls S V K) (ltb eqb : V -> V -> bool)
    (fref : fwd V K -> list V -> out V * list V) (dflt : nat)
    (R : S -> list V -> Prop) (ld : S -> nat) : Prop := {
  k_swo : SWO ltb;
  k_equiv : Equiv eqb;
  k_compat : EqCompat ltb eqb;
  k_sorted : forall s l, R s l -> sorted ltb l;
  k_new : forall it, exists s, l_new T it = Ok s /\ R s (sp_sort ltb it) /\ ld s = dflt;
  k_add : forall v s l, R s l -> exists s', l_add T v s = (Ok tt, s') /\ R s' (sp_add ltb v l) /\ ld s' = ld s;
  k_clear : forall s l, R s l -> exists s', l_clear T s = (Ok tt, s') /\ R s' [] /\ ld s' = ld s;
  k_update : forall it s l, R s l ->
    exists s', l_update T it s = (Ok tt, s') /\ R s' (sp_sort ltb (l ++ it)) /\ ld s' = ld s;
  k_remove : forall v s l, R s l ->
    exists s', l_remove T v s = (fst (sp_remove eqb v l), s') /\ R s' (snd (sp_remove eqb v l)) /\ ld s' = ld s;
  k_pop : forall i s l, R s l ->
    exists s', l_pop T i s = (fst (sp_pop i l), s') /\ R s' (snd (sp_pop i l)) /\ ld s' = ld s;
  k_get : forall i s l, R s l -> exists s', l_get T i s = (getz l i, s') /\ R s' l /\ ld s' = ld s;
  k_slice : forall sl s l, R s l -> exists s', l_slice T sl s = (sp_slice sl l, s') /\ R s' l /\ ld s' = ld s;
  k_del : forall i s l, R s l ->
    exists s', l_del T i s = (fst (upd (sp_del i l) l), s') /\ R s' (snd (upd (sp_del i l) l)) /\ ld s' = ld s;
  k_del_slice : forall sl s l, R s l ->
    exists s', l_del_slice T sl s = (fst (upd (sp_del_slice sl l) l), s') /\
      R s' (snd (upd (sp_del_slice sl l) l)) /\ ld s' = ld s;
  k_iter : forall s l, R s l -> l_iter T s = (Ok l, s);
  k_reversed : forall s l, R s l -> l_reversed T s = (Ok (rev l), s);
  k_len : forall s l, R s l -> l_len T s = (Ok (length l), s);
  k_check : forall s l, R s l -> 4 <= ld s -> l_check T s = Ok tt;
  k_fwd : forall f s l, R s l -> fwd_fine f ->
    exists s', l_fwd T f s = (fst (fref f l), s') /\ R s' l /\ ld s' = fwd_load f (ld s) }.

Section Obs.
  Context {S V A : Type}.
  Lemma observe_inv (inj : A -> out V) (m : M S A) s r s' :
    (forall a b, inj a = inj b -> a = b) -> (forall a e, inj a <> RExn e) ->
    observe inj m s = (of_res inj r, s') -> m s = (r, s').
  Proof.
    intros Hi Hn. unfold observe. destruct (m s) as [[a|e] s1]; destruct r as [b|e']; cbn; intros [= E ->].
    - apply Hi in E. congruence.
    - destruct (Hn _ _ E).
    - symmetry in E. destruct (Hn _ _ E).
    - congruence.
  Qed.
  Lemma observe_state (inj : A -> out V) (m : M S A) s r s' : observe inj m s = (r, s') -> snd (m s) = s'.
  Proof. unfold observe. destruct (m s) as [[a|e] s1]; cbn; congruence. Qed.
End Obs.

Lemma to_equiv {V} (ltb eqb : V -> V -> bool) : TotalOrder ltb eqb -> Equiv eqb.
Proof.
  intros H. pose proof (to_swo H) as HO.
  assert (E : forall x y, eqb x y = tie ltb x y) by (intros; apply (to_eq H)).
  split; intros; rewrite ?E in *.
  - apply tie_refl; auto.
  - rewrite tie_sym; auto.
  - apply tie_true in H0, H1. apply tie_true. destruct H0, H1. split; eapply swo_le_trans; eauto.
Qed.

Section Plain.
  Context {V K : Type}.
  Variables ltb eqb : V -> V -> bool.
  Hypothesis HT : TotalOrder ltb eqb.
  Variable dflt : nat.
  Hypothesis Hd : 1 <= dflt.
  Definition PR (c : core V V) (l : list V) : Prop := LInv ltb c /\ contents c = l.

  Lemma plain_ok : ClsOK (plain (K:=K) (total2 ltb) (total2 eqb) dflt) ltb eqb (fwd_plain ltb eqb) dflt PR (@load V V).
  Proof.
    assert (HS : forall o c l, PR c l -> lop_ok o -> exists c', sl_step (total2 ltb) (total2 eqb) dflt o c
                 = (fst (sp_step ltb eqb ltb o l), c') /\ PR c' (snd (sp_step ltb eqb ltb o l)) /\
                 load c' = load_after dflt o (load c)).
    { intros o c l [HI <-] Ho. destruct (sl_step_inv ltb eqb HT dflt Hd o c HI Ho) as (c' & E & HI' & Ec & El).
      exists c'. split; [exact E|]. split; [split; assumption|exact El]. }
    split; cbn [plain l_new l_add l_clear l_update l_remove l_pop l_get l_slice l_del l_del_slice l_iter
                l_reversed l_len l_check l_fwd].
    - apply (to_swo HT).
    - apply (to_equiv _ _ HT).
    - intros x y. rewrite (to_eq HT). destruct (ltb x y), (ltb y x); cbn; auto; discriminate.
    - intros s l [[_ H] <-]. exact H.
    - intros it. destruct (sl_new_ok ltb (to_swo HT) dflt it Hd) as (c & E & H1 & H2 & H3).
      exists c. split; [exact E|]. split; [|exact H3]. split; [|exact H2]. split; [exact H1|].
      rewrite H2. apply sp_sort_sorted, (to_swo HT).
    - intros v s l HR. destruct (HS (LAdd v) s l HR I) as (c' & E & H & L). exists c'. split; [|split; [exact H|exact L]].
      eapply (observe_inv runit _ s (Ok tt)); [intros [] []; reflexivity|discriminate|exact E].
    - intros s l HR. destruct (HS LClear s l HR I) as (c' & E & H & L). exists c'. split; [|split; [exact H|exact L]].
      eapply (observe_inv runit _ s (Ok tt)); [intros [] []; reflexivity|discriminate|exact E].
    - intros it s l HR. destruct (HS (LUpdate it) s l HR I) as (c' & E & H & L). exists c'. split; [|split; [exact H|exact L]].
      eapply (observe_inv runit _ s (Ok tt)); [intros [] []; reflexivity|discriminate|exact E].
    - intros v s l HR. destruct (HS (LRemove v) s l HR I) as (c' & E & H & L). exists c'. split; [|split; [exact H|exact L]].
      eapply (observe_inv runit _ s); [intros [] []; reflexivity|discriminate|exact E].
    - intros i s l HR. destruct (HS (LPop i) s l HR I) as (c' & E & H & L). exists c'. cbn in E, H. unfold sp_pop.
      split; [|split; [|exact L]].
      + eapply (observe_inv (@RVal V) _ s); [congruence|discriminate|]. rewrite E.
        destruct (getz l i); [|reflexivity]. destruct (sp_del i l); reflexivity.
      + destruct (getz l i); [|exact H]. destruct (sp_del i l); exact H.
    - intros i s l HR. destruct (HS (LGet i) s l HR I) as (c' & E & H & L). exists c'. split; [|split; [exact H|exact L]].
      eapply (observe_inv (@RVal V) _ s); [congruence|discriminate|exact E].
    - intros i s l HR. destruct (HS (LSlice i) s l HR I) as (c' & E & H & L). exists c'. split; [|split; [exact H|exact L]].
      eapply (observe_inv (@RList V) _ s); [congruence|discriminate|exact E].
    - intros i s l HR. destruct (HS (LDel i) s l HR I) as (c' & E & H & L). exists c'. cbn in E, H. unfold upd.
      split; [|split; [|exact L]].
      + eapply (observe_inv runit _ s); [intros [] []; reflexivity|discriminate|]. rewrite E.
        destruct (sp_del i l); reflexivity.
      + destruct (sp_del i l); exact H.
    - intros i s l HR. destruct (HS (LDelSlice i) s l HR I) as (c' & E & H & L). exists c'. cbn in E, H. unfold upd.
      split; [|split; [|exact L]].
      + eapply (observe_inv runit _ s); [intros [] []; reflexivity|discriminate|]. rewrite E.
        destruct (sp_del_slice i l); reflexivity.
      + destruct (sp_del_slice i l); exact H.
    - intros s l [_ <-]. reflexivity.
    - intros s l HR. destruct (HS LReversed s l HR I) as (c' & E & _).
      cbn in E. injection E as E _. unfold reversed, bind, get, ret. rewrite E. reflexivity.
    - intros s l HR. destruct (HS LLen s l HR I) as (c' & E & _). cbn in E. injection E as E _.
      unfold length_of, bind, get, ret. rewrite E. reflexivity.
    - intros s l [HI _] H4. apply (sl_check_ok ltb eqb HT); assumption.
    - intros f s l HR Hf. unfold fwd_plain.
      assert (HQ : match fwd_op f with KList o => lop_ok o /\ snd (sp_step ltb eqb ltb o l) = l /\
                     load_after dflt o (load s) = fwd_load f (load s)
                   | _ => fwd_load f (load s) = load s end).
      { destruct f; cbn; repeat split; exact Hf. }
      destruct (fwd_op f) as [o| | |].
      + destruct HQ as (Ho & El & Eq). destruct (HS o s l HR Ho) as (c' & E & H & L). exists c'.
        rewrite El in H. rewrite Eq in L. auto.
      + exists s. rewrite HQ. split; [reflexivity|]. split; [exact HR|reflexivity].
      + exists s. rewrite HQ. split; [reflexivity|]. split; [exact HR|reflexivity].
      + exists s. rewrite HQ. split; [reflexivity|]. split; [exact HR|reflexivity].
  Qed.
End Plain.

Section Keyed.
  Context {V K : Type}.
  Variable key : V -> K.
  Variables kltb keqb : K -> K -> bool.
  Variable eqb : V -> V -> bool.
  Hypothesis HT : TotalOrder kltb keqb.
  Hypothesis HQ : Equiv eqb.
  Hypothesis HE : EqCompat (by_key key kltb) eqb.
  Variable dflt : nat.
  Hypothesis Hd : 1 <= dflt.
  Notation ltb := (by_key key kltb).
  Definition KR (s : skl V K) (l : list V) : Prop := KInv key kltb s /\ contents (kc s) = l.

  Lemma keyed_ok : ClsOK (keyed (total2 eqb) (total2 kltb) (total2 keqb) (total1 key) dflt) ltb eqb
    (fwd_keyed key kltb eqb) dflt KR (fun s => load (kc s)).
  Proof.
    assert (HSK : forall o s l, KR s l -> kop_ok o -> kcmp_ok eqb eqb o ->
       exists s', skl_step (total2 eqb) (total2 eqb) (total2 kltb) (total2 keqb) (total1 key) dflt o s
                 = (fst (sp_kstep eqb eqb key kltb o l), s') /\ KR s' (snd (sp_kstep eqb eqb key kltb o l)) /\
                 load (kc s') = kload_after dflt o (load (kc s))).
    { intros o c l [HI <-] Ho Hc. destruct (skl_step_inv key kltb keqb eqb eqb HT HE dflt Hd o c HI Ho Hc) as (c' & E & HI' & Ec & El).
      exists c'. split; [exact E|]. split; [split; assumption|exact El]. }
    assert (HS : forall o s l, KR s l -> lop_ok o -> kcmp_ok eqb eqb (KList (K:=K) o) ->
       exists s', skl_lstep (total2 eqb) (total2 eqb) (total2 kltb) (total2 keqb) (total1 key) dflt o s
                 = (fst (sp_step ltb eqb eqb o l), s') /\ KR s' (snd (sp_step ltb eqb eqb o l)) /\
                 load (kc s') = load_after dflt o (load (kc s))).
    { intros o s l. apply (HSK (KList o)). }
    split; cbn [keyed l_new l_add l_clear l_update l_remove l_pop l_get l_slice l_del l_del_slice l_iter
                l_reversed l_len l_check l_fwd].
    - apply by_key_swo, (to_swo HT).
    - exact HQ.
    - exact HE.
    - intros s l [[_ H] <-]. exact H.
    - intros it. destruct (skl_new_ok key kltb (to_swo HT) dflt it Hd) as (c & E & H1 & H2 & H3).
      exists c. split; [exact E|]. split; [|exact H3]. split; [|exact H2]. split; [exact H1|].
      rewrite H2. apply sp_sort_sorted, by_key_swo, (to_swo HT).
    - intros v s l HR. destruct (HS (LAdd v) s l HR I I) as (c' & E & H & L). exists c'. split; [|split; [exact H|exact L]].
      eapply (observe_inv runit _ s (Ok tt)); [intros [] []; reflexivity|discriminate|exact E].
    - intros s l HR. destruct (HS LClear s l HR I I) as (c' & E & H & L). exists c'. split; [|split; [exact H|exact L]].
      eapply (observe_inv runit _ s (Ok tt)); [intros [] []; reflexivity|discriminate|exact E].
    - intros it s l HR. destruct (HS (LUpdate it) s l HR I I) as (c' & E & H & L). exists c'. split; [|split; [exact H|exact L]].
      eapply (observe_inv runit _ s (Ok tt)); [intros [] []; reflexivity|discriminate|exact E].
    - intros v s l HR. destruct (HS (LRemove v) s l HR I I) as (c' & E & H & L). exists c'. split; [|split; [exact H|exact L]].
      eapply (observe_inv runit _ s); [intros [] []; reflexivity|discriminate|exact E].
    - intros i s l HR. destruct (HS (LPop i) s l HR I I) as (c' & E & H & L). exists c'. cbn in E, H. unfold sp_pop.
      split; [|split; [|exact L]].
      + eapply (observe_inv (@RVal V) _ s); [congruence|discriminate|]. rewrite E.
        destruct (getz l i); [|reflexivity]. destruct (sp_del i l); reflexivity.
      + destruct (getz l i); [|exact H]. destruct (sp_del i l); exact H.
    - intros i s l HR. destruct (HS (LGet i) s l HR I I) as (c' & E & H & L). exists c'. split; [|split; [exact H|exact L]].
      eapply (observe_inv (@RVal V) _ s); [congruence|discriminate|exact E].
    - intros i s l HR. destruct (HS (LSlice i) s l HR I I) as (c' & E & H & L). exists c'. split; [|split; [exact H|exact L]].
      eapply (observe_inv (@RList V) _ s); [congruence|discriminate|exact E].
    - intros i s l HR. destruct (HS (LDel i) s l HR I I) as (c' & E & H & L). exists c'. cbn in E, H. unfold upd.
      split; [|split; [|exact L]].
      + eapply (observe_inv runit _ s); [intros [] []; reflexivity|discriminate|]. rewrite E.
        destruct (sp_del i l); reflexivity.
      + destruct (sp_del i l); exact H.
    - intros i s l HR. destruct (HS (LDelSlice i) s l HR I I) as (c' & E & H & L). exists c'. cbn in E, H. unfold upd.
      split; [|split; [|exact L]].
      + eapply (observe_inv runit _ s); [intros [] []; reflexivity|discriminate|]. rewrite E.
        destruct (sp_del_slice i l); reflexivity.
      + destruct (sp_del_slice i l); exact H.
    - intros [c ks] l [_ <-]. reflexivity.
    - intros [c ks] l HR. destruct (HS LReversed _ l HR I I) as (c' & E & _).
      unfold skl_lstep in E. cbn in E. injection E as E _. unfold oncore, zoom, reversed, bind, get, ret. cbn. rewrite E. reflexivity.
    - intros [c ks] l HR. destruct (HS LLen _ l HR I I) as (c' & E & _). cbn in E. injection E as E _.
      unfold oncore, zoom, length_of, bind, get, ret. cbn. rewrite E. reflexivity.
    - intros s l [HI _] H4. apply (skl_check_ok key kltb keqb HT); assumption.
    - intros f s l HR Hf. unfold fwd_keyed.
      assert (Hk : kop_ok (fwd_op f) /\ kcmp_ok eqb eqb (fwd_op f) /\ snd (sp_kstep eqb eqb key kltb (fwd_op f) l) = l /\
                   kload_after dflt (fwd_op f) (load (kc s)) = fwd_load f (load (kc s))).
      { destruct f; cbn; repeat split; exact Hf. }
      destruct Hk as (H1 & H2 & H3 & H4). destruct (HSK _ s l HR H1 H2) as (s' & E & H & L).
      exists s'. rewrite H3 in H. rewrite H4 in L. auto.
  Qed.
End Keyed.

Lemma class_ok {S V K} (T : listcls S V K) ltb eqb fref dflt :
  list_class T ltb eqb fref dflt -> exists R ld, ClsOK T ltb eqb fref dflt R ld.
Proof.
  intros []; [eexists; eexists; apply plain_ok; assumption|eexists; eexists; apply keyed_ok; assumption].
Qed.

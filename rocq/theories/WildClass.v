(** * The list inside a SortedSet or SortedDict, under arbitrary comparisons *)
From Coq Require Import Permutation.
From Verif Require Import PyBase Model Spec History Reach BaseFacts SpecFacts SliceFacts IndexFacts Shape CoreFacts VtFacts
  KeyFacts ListSim ListFacts FaultFacts FaultSpec FaultHist ListClass ClassSpec ClassFacts ModelSet SetSpec WildSpec.
Local Unset Implicit Arguments.

Definition query {V K} (f : fwd V K) : Prop := match f with FReset _ => False | _ => True end.

(** [R s l]: [s] is structurally sound with contents [l], in whatever order. *)
Record WildOK {S V K} (T : listcls S V K) (eqb : V -> V -> bool) (raised : exn -> Prop) (R : S -> list V -> Prop) : Prop := {
  w_new : forall it, (exists s l, l_new T it = Ok s /\ R s l /\ Permutation l it) \/
    (exists e, l_new T it = Err e /\ raised e);
  w_add : forall v s l, R s l ->
    (exists s' l', l_add T v s = (Ok tt, s') /\ R s' l' /\ Permutation l' (v :: l)) \/
    (exists e s', l_add T v s = (Err e, s') /\ raised e /\ R s' l);
  w_clear : forall s l, R s l -> exists s', l_clear T s = (Ok tt, s') /\ R s' [];
  w_update : forall it s, R s [] ->
    (exists s' l', l_update T it s = (Ok tt, s') /\ R s' l' /\ Permutation l' it) \/
    (exists e s', l_update T it s = (Err e, s') /\ raised e /\ R s' []);
  w_remove : forall v s l, R s l ->
    (exists s' a x b, l_remove T v s = (Ok tt, s') /\ l = a ++ x :: b /\ R s' (a ++ b) /\ eqb x v = true) \/
    (exists e s', l_remove T v s = (Err e, s') /\ (raised e \/ e = ValueError) /\ R s' l);
  w_pop : forall i s l, R s l -> exists s', l_pop T i s = (fst (sp_pop i l), s') /\ R s' (snd (sp_pop i l));
  w_get : forall i s l, R s l -> exists s', l_get T i s = (getz l i, s') /\ R s' l;
  w_slice : forall sl s l, R s l -> exists s', l_slice T sl s = (sp_slice sl l, s') /\ R s' l;
  w_del : forall i s l, R s l -> exists s', l_del T i s = (fst (upd (sp_del i l) l), s') /\ R s' (snd (upd (sp_del i l) l));
  w_del_slice : forall sl s l, R s l ->
    (exists e s', sp_del_slice sl l = Err e /\ l_del_slice T sl s = (Err e, s') /\ R s' l) \/
    (exists l1, sp_del_slice sl l = Ok l1 /\
       ((exists s' l', l_del_slice T sl s = (Ok tt, s') /\ R s' l' /\ Permutation l' l1) \/
        (exists e s', l_del_slice T sl s = (Err e, s') /\ raised e /\ R s' [])));
  w_iter : forall s l, R s l -> l_iter T s = (Ok l, s);
  w_reversed : forall s l, R s l -> l_reversed T s = (Ok (rev l), s);
  w_len : forall s l, R s l -> l_len T s = (Ok (length l), s);
  w_fwd : forall f s l, R s l -> query f -> exists r s', l_fwd T f s = (r, s') /\ R s' l;
  w_reset : forall n s l, R s l -> 1 <= n ->
    (exists s' l', l_fwd T (FReset n) s = (RUnit, s') /\ R s' l' /\ Permutation l' l) \/
    (exists e s', l_fwd T (FReset n) s = (RExn e, s') /\ raised e /\ R s' []) }.

Section FromSteps.
  Context {S V K : Type}.
  Variable T : listcls S V K.
  Variable eqb : V -> V -> bool.
  Variable raised : exn -> Prop.
  Variable R : S -> list V -> Prop.
  Variable st : lop V -> S -> out V * S.
  Hypothesis HR : forall o s l, R s l -> lop_ok o -> exists r s' l', st o s = (r, s') /\
    loose (total2 eqb) raised o l r l' /\ (update_fine o r -> R s' l').

  Lemma obs_unit (m : M S unit) s r s' : observe runit m s = (r, s') ->
    (r = @RUnit V /\ m s = (Ok tt, s')) \/ exists e, r = RExn e /\ m s = (Err e, s').
  Proof. unfold observe. destruct (m s) as [[[]|e] s1]; intros [= <- <-]; [left|right; exists e]; auto. Qed.

  Lemma w_add_of v s l : st (LAdd v) s = observe runit (l_add T v) s -> R s l ->
    (exists s' l', l_add T v s = (Ok tt, s') /\ R s' l' /\ Permutation l' (v :: l)) \/
    (exists e s', l_add T v s = (Err e, s') /\ raised e /\ R s' l).
  Proof.
    intros Es H. destruct (HR (LAdd v) s l H I) as (r & s' & l' & E & HL & HN). rewrite Es in E.
    destruct (obs_unit _ _ _ _ E) as [[-> E1]|(e & -> & E1)]; cbn in HL.
    - left. destruct HL as [[_ HL]|(? & [=] & _)]. exists s', l'. split; [exact E1|]. split; [apply HN; exact I|exact HL].
    - right. destruct HL as [[[=] _]|(e' & [= <-] & Hr & ->)]. exists e, s'. split; [exact E1|]. split; [exact Hr|]. apply HN; exact I.
  Qed.
  Lemma w_clear_of s l : st LClear s = observe runit (l_clear T) s -> R s l -> exists s', l_clear T s = (Ok tt, s') /\ R s' [].
  Proof.
    intros Es H. destruct (HR LClear s l H I) as (r & s' & l' & E & HL & HN). rewrite Es in E.
    unfold loose, exact_ref in HL. cbn in HL. injection HL as -> ->.
    destruct (obs_unit _ _ _ _ E) as [[_ E1]|(e & [=] & E1)]. exists s'. split; [exact E1|apply HN; exact I].
  Qed.
  Lemma w_remove_of v s l : st (LRemove v) s = observe runit (l_remove T v) s -> R s l ->
    (exists s' a x b, l_remove T v s = (Ok tt, s') /\ l = a ++ x :: b /\ R s' (a ++ b) /\ eqb x v = true) \/
    (exists e s', l_remove T v s = (Err e, s') /\ (raised e \/ e = ValueError) /\ R s' l).
  Proof.
    intros Es H. destruct (HR (LRemove v) s l H I) as (r & s' & l' & E & HL & HN). rewrite Es in E.
    specialize (HN I). destruct (obs_unit _ _ _ _ E) as [[-> E1]|(e & -> & E1)]; cbn in HL.
    - left. destruct HL as [[[_ HL]|(? & [=] & _)]|[[=] _]]. destruct HL as (a & x & b & -> & -> & Hx). injection Hx as Hx.
      exists s', a, x, b. auto.
    - right. destruct HL as [[[[=] _]|(e' & [= <-] & Hr & ->)]|[[= ->] ->]]; eauto 10.
  Qed.
  Lemma w_pop_of i s l : st (LPop i) s = observe (@RVal V) (l_pop T i) s -> R s l ->
    exists s', l_pop T i s = (fst (sp_pop i l), s') /\ R s' (snd (sp_pop i l)).
  Proof.
    intros Es H. destruct (HR (LPop i) s l H I) as (r & s' & l' & E & HL & HN). rewrite Es in E. specialize (HN I).
    unfold loose, exact_ref in HL. cbn [sp_step] in HL. exists s'. unfold sp_pop.
    assert (HH : (r = of_res (@RVal V) (fst (sp_pop i l)) /\ l' = snd (sp_pop i l))).
    { unfold sp_pop. destruct (getz l i); [|injection HL as -> ->; auto].
      destruct (sp_del i l); injection HL as -> ->; auto. }
    destruct HH as [-> ->]. split; [|exact HN]. eapply observe_inv; [| |exact E]; congruence.
  Qed.
  Lemma w_get_of i s l : st (LGet i) s = observe (@RVal V) (l_get T i) s -> R s l ->
    exists s', l_get T i s = (getz l i, s') /\ R s' l.
  Proof.
    intros Es H. destruct (HR (LGet i) s l H I) as (r & s' & l' & E & HL & HN). rewrite Es in E. specialize (HN I).
    unfold loose, exact_ref in HL. cbn [sp_step] in HL. injection HL as -> ->. exists s'. split; [|exact HN].
    eapply observe_inv; [| |exact E]; congruence.
  Qed.
  Lemma w_slice_of i s l : st (LSlice i) s = observe (@RList V) (l_slice T i) s -> R s l ->
    exists s', l_slice T i s = (sp_slice i l, s') /\ R s' l.
  Proof.
    intros Es H. destruct (HR (LSlice i) s l H I) as (r & s' & l' & E & HL & HN). rewrite Es in E. specialize (HN I).
    unfold loose, exact_ref in HL. cbn [sp_step] in HL. injection HL as -> ->. exists s'. split; [|exact HN].
    eapply observe_inv; [| |exact E]; congruence.
  Qed.
  Lemma w_del_of i s l : st (LDel i) s = observe runit (l_del T i) s -> R s l ->
    exists s', l_del T i s = (fst (upd (sp_del i l) l), s') /\ R s' (snd (upd (sp_del i l) l)).
  Proof.
    intros Es H. destruct (HR (LDel i) s l H I) as (r & s' & l' & E & HL & HN). rewrite Es in E. specialize (HN I).
    unfold loose, exact_ref in HL. cbn [sp_step] in HL. exists s'. unfold upd.
    destruct (sp_del i l); injection HL as -> ->; (split; [|exact HN]); cbn [fst];
      (eapply (observe_inv runit); [intros [] []; reflexivity|discriminate|exact E]).
  Qed.
  Lemma w_del_slice_of sl s l : st (LDelSlice sl) s = observe runit (l_del_slice T sl) s -> R s l ->
    (exists e s', sp_del_slice sl l = Err e /\ l_del_slice T sl s = (Err e, s') /\ R s' l) \/
    (exists l1, sp_del_slice sl l = Ok l1 /\
       ((exists s' l', l_del_slice T sl s = (Ok tt, s') /\ R s' l' /\ Permutation l' l1) \/
        (exists e s', l_del_slice T sl s = (Err e, s') /\ raised e /\ R s' []))).
  Proof.
    intros Es H. destruct (HR (LDelSlice sl) s l H I) as (r & s' & l' & E & HL & HN). rewrite Es in E.
    specialize (HN I). cbn in HL. destruct (sp_del_slice sl l) as [l1|e1].
    - right. exists l1. split; [reflexivity|]. destruct (obs_unit _ _ _ _ E) as [[-> E1]|(e & -> & E1)].
      + left. destruct HL as [[_ HL]|(? & [=] & _)]. eauto.
      + right. destruct HL as [[[=] _]|(e' & [= <-] & Hr & ->)]. eauto.
    - left. destruct HL as [-> ->]. destruct (obs_unit _ _ _ _ E) as [[[=] E1]|(e & [= <-] & E1)]. eauto.
  Qed.
  Lemma w_reset_of n s l : st (LReset n) s = l_fwd T (FReset n) s -> R s l -> 1 <= n ->
    (exists s' l', l_fwd T (FReset n) s = (RUnit, s') /\ R s' l' /\ Permutation l' l) \/
    (exists e s', l_fwd T (FReset n) s = (RExn e, s') /\ raised e /\ R s' []).
  Proof.
    intros Es H Hn. destruct (HR (LReset n) s l H Hn) as (r & s' & l' & E & HL & HN). rewrite Es in E.
    specialize (HN I). cbn in HL. destruct HL as [[-> HL]|(e & -> & Hr & ->)]; eauto 10.
  Qed.
  Lemma w_fwd_of (o : lop V) s l : R s l -> lop_ok o ->
    match o with LBisectLeft _ | LBisectRight _ | LIndex _ _ _ | LIRange _ _ _ _ _ | LISlice _ _ _ => True | _ => False end ->
    exists r s', st o s = (r, s') /\ R s' l.
  Proof.
    intros H Ho Hq. destruct (HR o s l H Ho) as (r & s' & l' & E & HL & HN). exists r, s'. split; [exact E|].
    assert (update_fine o r) as HU by (destruct o; try contradiction; exact I). specialize (HN HU).
    destruct o; try contradiction; cbn in HL;
      first [unfold exact_ref in HL; cbn [sp_step] in HL; injection HL as _ ->; exact HN | destruct HL as [[-> _] _]; exact HN].
  Qed.
End FromSteps.

Section PlainWild.
  Context {V K : Type}.
  Variable eqb : V -> V -> bool.
  Variable lt : V -> V -> res bool.
  Variable dflt : nat.
  Hypothesis Hd : 1 <= dflt.
  Definition WR (c : core V V) (l : list V) : Prop := LShape c /\ contents c = l.
  Definition lt_raises (e : exn) : Prop := exists x y, lt x y = Err e.

  Lemma loose_raised (r1 r2 : exn -> Prop) (eq : V -> V -> res bool) o l r l' : (forall e, r1 e -> r2 e) ->
    loose eq r1 o l r l' -> loose eq r2 o l r l'.
  Proof.
    intros Hi. assert (HO : forall P Q, or_raised (V:=V) r1 r P Q -> or_raised r2 r P Q).
    { intros P Q [H|(e & H1 & H2 & H3)]; [left; exact H|right; exists e; auto]. }
    assert (HQ : forall doc l l', quiet (V:=V) r1 doc r l l' -> quiet r2 doc r l l').
    { intros doc a b [H1 H2]. split; [exact H1|]. intros e He. destruct (H2 e He); auto. }
    destruct o; cbn [loose]; intros H; auto; try (destruct H as [H1 H2]; split; [apply HQ; exact H1|exact H2]).
    - destruct H as [H|H]; auto.
    - destruct (sp_del_slice sl l); auto.
  Qed.

  Lemma plain_wild : WildOK (plain (K:=K) lt (total2 eqb) dflt) eqb lt_raises WR.
  Proof.
    assert (HS : forall o c l, WR c l -> lop_ok o -> exists r c' l', sl_step lt (total2 eqb) dflt o c = (r, c') /\
                 loose (total2 eqb) lt_raises o l r l' /\ (update_fine o r -> WR c' l')).
    { intros o c l [HI <-] Ho. destruct (sl_step_gen lt (total2 eqb) dflt Hd o c HI Ho) as (r & c' & E & HL & HN).
      exists r, c', (contents c'). split; [exact E|]. split; [|intros H; split; auto].
      eapply loose_raised; [|exact HL]. intros e [H|(x & y & H)]; [exact H|discriminate]. }
    split; cbn [plain l_new l_add l_clear l_update l_remove l_pop l_get l_slice l_del l_del_slice l_iter
                l_reversed l_len l_check l_fwd].
    - intros it. destruct (sl_new_gen lt dflt it Hd) as [(c & E & H1 & _ & H2)|(e & E & H)].
      + left. exists c, (contents c). split; [exact E|]. split; [split; auto|exact H2].
      + right. eauto.
    - intros v s l. apply (w_add_of (plain (K:=K) lt (total2 eqb) dflt) eqb _ _ _ HS v s l eq_refl).
    - intros s l. apply (w_clear_of (plain (K:=K) lt (total2 eqb) dflt) eqb _ _ _ HS s l eq_refl).
    - intros it s [HI Hc]. destruct (sl_update_gen lt it s HI) as (r & c' & E & _ &
        [(-> & H1 & H2)|[(e & -> & Hr & ->)|[(e & values & -> & Hr & Hp & H1 & _)|(e & vs & ws & -> & Hr & H1 & H2 & H3 & H4)]]]).
      + left. exists c', (contents c'). split; [exact E|]. split; [split; auto|]. rewrite Hc in H2. exact H2.
      + right. exists e, s. split; [exact E|]. split; [exact Hr|]. split; auto.
      + congruence.
      + exfalso. rewrite (co_len _ (lshape_core _ HI)), Hc in H2. cbn in H2. lia.
    - intros v s l. apply (w_remove_of (plain (K:=K) lt (total2 eqb) dflt) eqb _ _ _ HS v s l eq_refl).
    - intros i s l. apply (w_pop_of (plain (K:=K) lt (total2 eqb) dflt) eqb _ _ _ HS i s l eq_refl).
    - intros i s l. apply (w_get_of (plain (K:=K) lt (total2 eqb) dflt) eqb _ _ _ HS i s l eq_refl).
    - intros i s l. apply (w_slice_of (plain (K:=K) lt (total2 eqb) dflt) eqb _ _ _ HS i s l eq_refl).
    - intros i s l. apply (w_del_of (plain (K:=K) lt (total2 eqb) dflt) eqb _ _ _ HS i s l eq_refl).
    - intros i s l. apply (w_del_slice_of (plain (K:=K) lt (total2 eqb) dflt) eqb _ _ _ HS i s l eq_refl).
    - intros s l [_ <-]. reflexivity.
    - intros s l [HI <-]. apply reversed_ok.
    - intros s l [HI <-]. unfold length_of, bind, get, ret. rewrite (co_len _ (lshape_core _ HI)). reflexivity.
    - intros f s l H Hq. assert (HF := fun o Ho Hm => w_fwd_of eqb _ _ _ HS o s l H Ho Hm).
      destruct f; try contradiction; cbn [fwd_op];
        first [eexists _, s; split; [reflexivity|exact H] | match goal with |- context [sl_step _ _ _ ?o _] => apply (HF o I I) end].
    - intros n s l. apply (w_reset_of (plain (K:=K) lt (total2 eqb) dflt) eqb _ _ _ HS n s l eq_refl).
  Qed.
End PlainWild.

Section KeyedWild.
  Context {V K : Type}.
  Variable eqb : V -> V -> bool.
  Variables klt keq : K -> K -> res bool.
  Variable kf : V -> res K.
  Variable dflt : nat.
  Hypothesis Hd : 1 <= dflt.
  Definition KWR (s : skl V K) (l : list V) : Prop := Shape kf s /\ contents (kc s) = l.
  Notation k_raises := (k_raises klt keq kf).

  Notation TK := (keyed (total2 eqb) klt keq kf dflt).
  Lemma keyed_wild : WildOK TK eqb k_raises KWR.
  Proof.
    assert (HSK : forall o c l, KWR c l -> kop_ok o -> exists r c' l', skl_step (total2 eqb) (total2 eqb) klt keq kf dflt o c = (r, c') /\
                 kloose (total2 eqb) k_raises o l r l' /\ (kupdate_fine o r -> KWR c' l')).
    { intros o c l [HI <-] Ho. destruct (skl_step_gen (total2 eqb) (total2 eqb) klt keq kf dflt Hd o c HI Ho) as (r & c' & E & HL & HN).
      exists r, c', (contents (kc c')). split; [exact E|]. split; [|intros H; split; auto].
      assert (HIM : forall e, KRaised'' (total2 eqb) (total2 eqb) klt keq kf e -> k_raises e).
      { unfold KRaised'', KRaised', KRaised, WildSpec.k_raises. intros e H.
        repeat match goal with H : _ \/ _ |- _ => destruct H | H : exists _, _ |- _ => destruct H end; eauto 10; try discriminate. }
      destruct o; cbn [kloose] in *; [eapply loose_raised; [exact HIM|exact HL]| | |];
        destruct HL as [[H1 H2] H3]; (split; [split; [exact H1|]|exact H3]); intros e He; destruct (H2 e He); auto. }
    assert (HS : forall o c l, KWR c l -> lop_ok o -> exists r c' l', skl_lstep (total2 eqb) (total2 eqb) klt keq kf dflt o c = (r, c') /\
                 loose (total2 eqb) k_raises o l r l' /\ (update_fine o r -> KWR c' l')).
    { intros o c l. apply (HSK (KList o)). }
    split; cbn [keyed l_new l_add l_clear l_update l_remove l_pop l_get l_slice l_del l_del_slice l_iter
                l_reversed l_len l_check l_fwd].
    - intros it. destruct (skl_new_gen klt kf dflt it Hd) as [(c & E & H1 & _ & H2)|(e & E & H)].
      + left. exists c, (contents (kc c)). split; [exact E|]. split; [split; auto|exact H2].
      + right. exists e. split; [exact E|]. unfold KRaised, k_raises in *. tauto.
    - intros v s l. apply (w_add_of TK eqb _ _ _ HS v s l eq_refl).
    - intros s l. apply (w_clear_of TK eqb _ _ _ HS s l eq_refl).
    - intros it s [HI Hc]. destruct (skl_update_gen klt kf it s HI) as (r & c' & E & _ &
        [(-> & H1 & H2)|[(e & -> & Hr & ->)|[(e & values & -> & Hr & Hp & H1 & _)|(e & vs & ws & -> & Hr & H1 & H2 & H3 & H4)]]]).
      + left. exists c', (contents (kc c')). split; [exact E|]. split; [split; auto|]. rewrite Hc in H2. exact H2.
      + right. exists e, s. split; [exact E|]. split; [unfold KRaised, k_raises in *; tauto|]. split; auto.
      + congruence.
      + exfalso. rewrite (co_len _ (shape_core _ _ HI)), Hc in H2. cbn in H2. lia.
    - intros v s l. apply (w_remove_of TK eqb _ _ _ HS v s l eq_refl).
    - intros i s l. apply (w_pop_of TK eqb _ _ _ HS i s l eq_refl).
    - intros i s l. apply (w_get_of TK eqb _ _ _ HS i s l eq_refl).
    - intros i s l. apply (w_slice_of TK eqb _ _ _ HS i s l eq_refl).
    - intros i s l. apply (w_del_of TK eqb _ _ _ HS i s l eq_refl).
    - intros i s l. apply (w_del_slice_of TK eqb _ _ _ HS i s l eq_refl).
    - intros s l H. destruct (HS LIter s l H I) as (r & s' & l' & E & HL & _).
      cbn in HL. unfold exact_ref in HL. cbn in HL. injection HL as -> ->.
      destruct H as [_ <-]. destruct s; reflexivity.
    - intros s l [HI <-]. unfold oncore, zoom. cbn [skl_vt vt_get]. rewrite reversed_ok. destruct s; reflexivity.
    - intros s l [HI <-]. unfold oncore, zoom, length_of, bind, get, ret. cbn. rewrite (co_len _ (shape_core _ _ HI)). destruct s; reflexivity.
    - intros f s l H Hq. assert (HF := fun o Ho Hm => w_fwd_of eqb _ _ _ HS o s l H Ho Hm).
      assert (HF2 : forall o : kop V K, match o with KList _ => False | _ => True end -> exists r s',
         skl_step (total2 eqb) (total2 eqb) klt keq kf dflt o s = (r, s') /\ KWR s' l).
      { intros o Hm. destruct (HSK o s l H ltac:(destruct o; [contradiction|exact I..])) as (r & s' & l' & E & HL & HN).
        exists r, s'. split; [exact E|]. destruct o; [contradiction| | |]; destruct HL as [[-> _] _]; apply HN; exact I. }
      destruct f; try contradiction; cbn [fwd_op];
        first [apply HF2; exact I | match goal with |- context [skl_step _ _ _ _ _ _ (KList ?o) _] => apply (HF o I I) end].
    - intros n s l. apply (w_reset_of TK eqb _ _ _ HS n s l eq_refl).
  Qed.
End KeyedWild.

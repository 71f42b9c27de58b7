(** * A SortedSet on a heap does what a SortedSet does *)
From Coq Require Import Permutation.
From Verif Require Import PyBase Model Spec SpecFacts History Reach ListClass ClassSpec ClassFacts ModelSet SetSpec SetFacts ModelHeap HeapFacts ModelKHeap ModelIter IterFacts ModelViewIter HeapClass ModelKeep KeepSpec.
Local Unset Implicit Arguments.

Section Lift.
  Context {S1 S2 V K : Type}.
  Variable T1 : hlist S1 V K.
  Variable T2 : listcls S2 V K.
  Variable R : S1 -> S2 -> Prop.
  Hypothesis HS : ClsSim T1 T2 R.
  Variable eqb : V -> V -> bool.
  Variable ord : nat -> list V -> list V.
  Notation D1 := (sset S1 V).
  Notation D2 := (sset S2 V).
  Definition srel (s : D1) (t : D2) : Prop := s_set s = s_set t /\ s_tick s = s_tick t /\ R (s_list s) (s_list t).
  Definition sanyhow (s s' : D1) : Prop := True.
  Definition sstill (s s' : D1) : Prop := still T1 (s_list s) (s_list s').

  Section Frame.
    Variable F : D1 -> D1 -> Prop.
    Hypothesis Frefl : forall s, F s s.
    Hypothesis Ftrans : forall a b c, F a b -> F b c -> F a c.
    Hypothesis Fset : forall x l n x' n', F (mksset x l n) (mksset x' l n').
    Notation rel := (lrel srel F).
    Lemma rel_bind {X Y} (m1 : M D1 X) (m2 : M D2 X) (k1 : X -> M D1 Y) (k2 : X -> M D2 Y) :
      rel m1 m2 -> (forall x, rel (k1 x) (k2 x)) -> rel (bind m1 k1) (bind m2 k2).
    Proof.
      intros Hm Hk s t Hr. destruct (Hm s t Hr) as (E & Hr' & HF). unfold bind.
      destruct (m1 s) as [r1 s1], (m2 t) as [r2 t1]. cbn [fst snd] in *. subst r2. destruct r1 as [x|e]; [|auto].
      destruct (Hk x s1 t1 Hr') as (E2 & Hr2 & HF2). split; [exact E2|]. split; [exact Hr2|]. exact (Ftrans _ _ _ HF HF2).
    Qed.
    Lemma rel_pure {X} (x : X) : rel (fun s => (x, s)) (fun s => (x, s)).
    Proof. intros s t Hr. auto. Qed.
    Lemma rel_ret {X} (x : X) : rel (ret x) (ret x). Proof. apply rel_pure. Qed.
    Lemma rel_raise {X} e : rel (raise (A:=X) e) (raise e). Proof. apply rel_pure. Qed.
    Lemma rel_members : rel members members.
    Proof. intros s t Hr. cbn. split; [destruct Hr; congruence|]. auto. Qed.
    Lemma rel_put x : rel (put_set x) (put_set x).
    Proof. intros [x1 l1 n1] [x2 l2 n2] (_ & Hn & Hr). cbn in *. split; [reflexivity|]. split; [split; [reflexivity|split; assumption]|apply Fset]. Qed.
    Lemma rel_visit x : rel (visit ord x) (visit ord x).
    Proof. intros [x1 l1 n1] [x2 l2 n2] (Hx & Hn & Hr). cbn in *. subst. split; [reflexivity|]. split; [split; [reflexivity|split; [reflexivity|assumption]]|apply Fset]. Qed.
    Lemma rel_onlist {X} f (m1 : M S1 X) (m2 : M S2 X) : lrel R f m1 m2 ->
      (forall x l n l', f l l' -> F (mksset x l n) (mksset x l' n)) -> rel (onlist m1) (onlist m2).
    Proof.
      intros H HF [x1 l1 n1] [x2 l2 n2] (Hi & Hn & Hr). unfold onlist, zoom. cbn [s_list s_set s_tick] in *. destruct (H l1 l2 Hr) as (E & Hr' & HF').
      destruct (m1 l1) as [r1 l'], (m2 l2) as [r2 m']. cbn [fst snd] in *. split; [exact E|]. split; [split; [assumption|split; assumption]|]. apply HF, HF'.
    Qed.
    Lemma rel_forM {X} (f1 : X -> M D1 unit) (f2 : X -> M D2 unit) l : (forall x, rel (f1 x) (f2 x)) -> rel (forM f1 l) (forM f2 l).
    Proof. intros H. induction l as [|x l IH]; cbn [forM]; [apply rel_ret|]. apply rel_bind; [apply H|]. intros y. exact IH. Qed.
    Lemma rel_observe {X} (inj : X -> out V) (m1 : M D1 X) (m2 : M D2 X) : rel m1 m2 -> rel (observe inj m1) (observe inj m2).
    Proof.
      intros H s t Hr. destruct (H s t Hr) as (E & Hr' & HF). unfold observe. destruct (m1 s) as [r1 s1], (m2 t) as [r2 t1]. cbn [fst snd] in *.
      subst r2. destruct r1; auto.
    Qed.
    Lemma rel_if {X} (b : bool) (m1 m1' : M D1 X) (m2 m2' : M D2 X) : rel m1 m2 -> rel m1' m2' -> rel (if b then m1 else m1') (if b then m2 else m2').
    Proof. destruct b; auto. Qed.
  End Frame.

  Ltac rels keysf := repeat (first
    [ keysf | apply rel_ret | apply rel_raise | apply rel_members | apply rel_put | apply rel_visit | apply rel_if
    | apply rel_forM; [..|intro] | apply rel_bind; [..|intro] ]);
    try (intros; exact I); try (intros; apply still_refl); try (unfold sstill; intros; eapply still_trans; eassumption).

  Lemma fsub_any {X} f (m1 : M S1 X) (m2 : M S2 X) : lrel R f m1 m2 -> lrel srel sanyhow (onlist m1) (onlist m2).
  Proof. intros H. eapply rel_onlist; [exact H|]. intros; exact I. Qed.
  Lemma fsub_still {X} (m1 : M S1 X) (m2 : M S2 X) : lrel R (still T1) m1 m2 -> lrel srel sstill (onlist m1) (onlist m2).
  Proof. intros H. eapply rel_onlist; [exact H|]. intros x l n l' Hl. exact Hl. Qed.
  Ltac keysany := first
    [ eapply fsub_any, (s_add _ _ _ HS) | eapply fsub_any, (s_clear _ _ _ HS) | eapply fsub_any, (s_update _ _ _ HS) | eapply fsub_any, (s_remove _ _ _ HS)
    | eapply fsub_any, (s_pop _ _ _ HS) | eapply fsub_any, (s_del _ _ _ HS) | eapply fsub_any, (s_del_slice _ _ _ HS) | eapply fsub_any, (s_get _ _ _ HS) | eapply fsub_any, (s_slice _ _ _ HS)
    | eapply fsub_any, (s_iter _ _ _ HS) | eapply fsub_any, (s_reversed _ _ _ HS) ].
  Ltac keysstill := first
    [ apply fsub_still, (s_get _ _ _ HS) | apply fsub_still, (s_slice _ _ _ HS) | apply fsub_still, (s_iter _ _ _ HS) | apply fsub_still, (s_reversed _ _ _ HS) ].

  Lemma rel_fwd f F : lrel R F (l_fwd T1 f) (l_fwd T2 f) -> lrel srel (fun s s' => F (s_list s) (s_list s')) (ss_fwd T1 f) (ss_fwd T2 f).
  Proof.
    intros H [x1 l1 n1] [x2 l2 n2] (Hi & Hn & Hr). unfold ss_fwd. cbn [s_list s_set s_tick] in *.
    destruct (H l1 l2 Hr) as (E & Hr' & HF). destruct (l_fwd T1 f l1) as [r1 l'], (l_fwd T2 f l2) as [r2 m']. cbn [fst snd] in *. subst r2.
    split; [reflexivity|]. split; [split; [assumption|split; assumption]|exact HF].
  Qed.

  (** Reading. *)
  Definition sreads (o : sop V K) : bool :=
    match o with
    | SContains _ | SCount _ | SLen | SIter | SReversed | SGet _ | SSlice _ | SCompare _ _ | SIsDisjoint _ | SIsSubset _ | SIsSuperset _ => true
    | SFwd (FReset _) => false
    | SFwd _ => true
    | _ => false
    end.
  Lemma ss_reads o : sreads o = true -> lrel srel sstill (set_do T1 eqb ord o) (set_do T2 eqb ord o).
  Proof.
    intros H. destruct o; try discriminate H; cbn [set_do ss_step]; try apply rel_observe.
    all: unfold ss_contains, ss_count, ss_len, ss_iter, ss_reversed, ss_get, ss_slice, ss_compare, ss_isdisjoint, ss_issubset, ss_issuperset.
    all: try (rels keysstill).
    pose proof (s_fwd _ _ _ HS f) as X. destruct f; try discriminate H; exact (rel_fwd _ (still T1) X).
  Qed.
  Lemma rel_add v : lrel srel sanyhow (ss_add T1 eqb v) (ss_add T2 eqb v).
  Proof. unfold ss_add. rels keysany. Qed.
  Lemma rel_discard v : lrel srel sanyhow (ss_discard T1 eqb v) (ss_discard T2 eqb v).
  Proof. unfold ss_discard, set_remove. rels keysany. Qed.
  Lemma rel_relist : lrel srel sanyhow (relist T1 ord) (relist T2 ord).
  Proof. unfold relist. rels keysany. Qed.
  Lemma rel_update its : lrel srel sanyhow (ss_update T1 eqb ord its) (ss_update T2 eqb ord its).
  Proof. pose proof rel_add. pose proof rel_relist. unfold ss_update. cbv zeta. rels ltac:(first [apply rel_add|apply rel_relist]). Qed.
  Lemma ss_changes o : makes_set o = false -> lrel srel sanyhow (set_do T1 eqb ord o) (set_do T2 eqb ord o).
  Proof.
    intros H. destruct (sreads o) eqn:E.
    - intros s t Hr. destruct (ss_reads o E s t Hr) as (E1 & E2 & _). split; [exact E1|]. split; [exact E2|exact I].
    - destruct o; try discriminate H; try discriminate E; cbn [set_do ss_step]; try apply rel_observe.
      all: try apply rel_add; try apply rel_discard; try apply rel_update.
      all: unfold ss_remove, ss_pop, ss_clear, ss_del, ss_del_slice, ss_difference_update, ss_intersection_update, ss_symmetric_difference_update, set_remove.
      all: try (cbv zeta; rels ltac:(first [apply rel_discard|apply rel_relist|keysany])).
      intros s t Hr. pose proof (s_fwd _ _ _ HS f) as X. destruct f; try discriminate E. destruct (rel_fwd _ anyhow X s t Hr) as (E1 & E2 & _).
      split; [exact E1|]. split; [exact E2|exact I].
  Qed.

  Lemma fromset_rel n x : match ss_fromset T1 ord n x, ss_fromset T2 ord n x with Ok s, Ok t => srel s t | Err e, Err e' => e = e' | _, _ => False end.
  Proof.
    unfold ss_fromset. pose proof (s_new _ _ _ HS (ord n x)) as H. destruct (l_new T1 _) as [l|e], (l_new T2 _) as [m|e']; try contradiction; cbn; [|exact H].
    split; [reflexivity|]. split; [reflexivity|exact H].
  Qed.
  Lemma new_rel n it : match ss_new T1 eqb ord n it, ss_new T2 eqb ord n it with Ok s, Ok t => srel s t | Err e, Err e' => e = e' | _, _ => False end.
  Proof.
    unfold ss_new. pose proof (fromset_rel n []) as H. destruct (ss_fromset T1 _ _ _) as [l|e], (ss_fromset T2 _ _ _) as [m|e']; try contradiction; cbn [rbind]; [|exact H].
    destruct it as [a|]; [|exact H]. destruct (rel_update [a] l m H) as (E1 & E2 & _).
    destruct (ss_update T1 eqb ord [a] l) as [[u|e] s], (ss_update T2 eqb ord [a] m) as [[u'|e'] t]; cbn in *; try discriminate; [exact E2|congruence].
  Qed.
  (** A new set. *)
  Definition yields (m1 : M D1 D1) (m2 : M D2 D2) : Prop := forall s t, srel s t ->
    match fst (m1 s), fst (m2 t) with Ok a, Ok b => srel a b | Err e, Err e' => e = e' | _, _ => False end /\
    srel (snd (m1 s)) (snd (m2 t)) /\ sstill s (snd (m1 s)).
  Lemma yields_bind {X} (m1 : M D1 X) (m2 : M D2 X) k1 k2 : lrel srel sstill m1 m2 -> (forall x, yields (k1 x) (k2 x)) -> yields (bind m1 k1) (bind m2 k2).
  Proof.
    intros Hm Hk s t Hr. destruct (Hm s t Hr) as (E & Hr' & HF). unfold bind. destruct (m1 s) as [r1 s1], (m2 t) as [r2 t1]. cbn [fst snd] in *. subst r2.
    destruct r1 as [x|e]; [|split; [reflexivity|split; assumption]]. destruct (Hk x s1 t1 Hr') as (E2 & Hr2 & HF2). split; [exact E2|]. split; [exact Hr2|]. eapply still_trans; eassumption.
  Qed.
  Lemma yields_fresh mk1 mk2 : (forall n, match mk1 n, mk2 n with Ok a, Ok b => srel a b | Err e, Err e' => e = e' | _, _ => False end) -> yields (fresh mk1) (fresh mk2).
  Proof.
    intros H s t Hr. unfold fresh, bind, get, liftr. cbn [fst snd]. assert (E : s_tick s = s_tick t) by apply Hr. rewrite E. split; [apply H|]. split; [exact Hr|apply still_refl].
  Qed.
  Lemma ss_makes o : makes_set o = true -> lrel srel sstill (set_do T1 eqb ord o) (set_do T2 eqb ord o).
  Proof.
    intros H. assert (X : forall m1 m2, yields m1 m2 -> lrel srel sstill (observe (fun _ : D1 => @RUnit V) m1) (observe (fun _ : D2 => @RUnit V) m2)).
    { intros m1 m2 Hy s t Hr. destruct (Hy s t Hr) as (E & Hr' & HF). unfold observe. destruct (m1 s) as [[a|e] s1], (m2 t) as [[b|e'] t1]; cbn [fst snd] in *; try contradiction; [auto|].
      subst. auto. }
    destruct o; try discriminate H; cbn [set_do]; apply X.
    all: unfold ss_union, ss_difference, ss_intersection, ss_symmetric_difference, ss_copy, ss_reduce.
    all: repeat (apply yields_bind; [rels keysstill|intro]); apply yields_fresh; intros; first [apply fromset_rel|apply new_rel].
  Qed.
End Lift.

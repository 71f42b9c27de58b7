(** * Facts about iterators over a SortedDict and its views *)
From Coq Require Import Permutation.
From Verif Require Import PyBase Model Spec SpecFacts History Reach ListClass ClassSpec ClassFacts ModelSet SetSpec SetFacts SetProps ModelDict DictSpec MapFacts DictFacts DictProps ModelHeap HeapFacts ModelKHeap ModelIter IterFacts ModelViewIter ViewIterSpec HeapClass.
Local Unset Implicit Arguments.

(** ** The dict on a heap does what the dict does *)
Section Lift.
  Context {S1 S2 A B K : Type}.
  Variable T1 : hlist S1 A K.
  Variable T2 : listcls S2 A K.
  Variable R : S1 -> S2 -> Prop.
  Hypothesis HS : ClsSim T1 T2 R.
  Variable eqb : A -> A -> bool.
  Variable veqb : B -> B -> bool.
  Notation D1 := (sdict S1 A B).
  Notation D2 := (sdict S2 A B).
  Definition drel (s : D1) (t : D2) : Prop := d_items s = d_items t /\ R (d_list s) (d_list t).
  Definition danyhow (s s' : D1) : Prop := True.
  Definition dstill (s s' : D1) : Prop := still T1 (d_list s) (d_list s').

  Section Frame.
    Variable F : D1 -> D1 -> Prop.
    Hypothesis Frefl : forall s, F s s.
    Hypothesis Ftrans : forall a b c, F a b -> F b c -> F a c.
    Hypothesis Fitems : forall d l d', F (mksd d l) (mksd d' l).
    Notation rel := (lrel drel F).
    Lemma rel_bind {X Y} (m1 : M D1 X) (m2 : M D2 X) (k1 : X -> M D1 Y) (k2 : X -> M D2 Y) :
      rel m1 m2 -> (forall x, rel (k1 x) (k2 x)) -> rel (bind m1 k1) (bind m2 k2).
    Proof.
      intros Hm Hk s t Hr. destruct (Hm s t Hr) as (E & Hr' & HF). unfold bind.
      destruct (m1 s) as [r1 s1], (m2 t) as [r2 t1]. cbn [fst snd] in *. subst r2. destruct r1 as [x|e]; [|auto].
      destruct (Hk x s1 t1 Hr') as (E2 & Hr2 & HF2). split; [exact E2|]. split; [exact Hr2|]. exact (Ftrans _ _ _ HF HF2).
    Qed.
    Lemma rel_pure {X} (x : X) : rel (fun s => (x, s)) (fun s => (x, s)).
    Proof. intros s t Hr. auto. Qed.
    Lemma rel_ret {X} (x : X) : rel (ret x) (ret x). Proof. apply rel_pure. Qed.
    Lemma rel_raise {X} e : rel (raise (A:=X) e) (raise e). Proof. apply rel_pure. Qed.
    Lemma rel_liftr {X} (r : res X) : rel (liftr r) (liftr r). Proof. apply rel_pure. Qed.
    Lemma rel_items : rel items_of items_of.
    Proof. intros s t Hr. cbn. split; [destruct Hr; congruence|]. auto. Qed.
    Lemma rel_put d : rel (put_items d) (put_items d).
    Proof. intros [x l] [y m] [_ Hr]. cbn in *. split; [reflexivity|]. split; [split; [reflexivity|exact Hr]|apply Fitems]. Qed.
    Lemma rel_onkeys {X} f (m1 : M S1 X) (m2 : M S2 X) : lrel R f m1 m2 ->
      (forall d l l', f l l' -> F (mksd d l) (mksd d l')) -> rel (onkeys m1) (onkeys m2).
    Proof.
      intros H HF [x l] [y m] [Hi Hr]. unfold onkeys, zoom. cbn [d_list d_items] in *. destruct (H l m Hr) as (E & Hr' & HF').
      destruct (m1 l) as [r1 l'], (m2 m) as [r2 m']. cbn [fst snd] in *. split; [exact E|]. split; [split; assumption|]. apply HF, HF'.
    Qed.
    Lemma rel_mapM {X Y} (f1 : X -> M D1 Y) (f2 : X -> M D2 Y) l : (forall x, rel (f1 x) (f2 x)) -> rel (mapM f1 l) (mapM f2 l).
    Proof.
      intros H. induction l as [|x l IH]; cbn [mapM]; [apply rel_ret|]. apply rel_bind; [apply H|]. intros y. apply rel_bind; [exact IH|].
      intros ys. apply rel_ret.
    Qed.
    Lemma rel_forM {X} (f1 : X -> M D1 unit) (f2 : X -> M D2 unit) l : (forall x, rel (f1 x) (f2 x)) -> rel (forM f1 l) (forM f2 l).
    Proof. intros H. induction l as [|x l IH]; cbn [forM]; [apply rel_ret|]. apply rel_bind; [apply H|]. intros y. exact IH. Qed.
    Lemma rel_dsee {X} (inj : X -> dout A B) (m1 : M D1 X) (m2 : M D2 X) : rel m1 m2 -> rel (dsee inj m1) (dsee inj m2).
    Proof.
      intros H s t Hr. destruct (H s t Hr) as (E & Hr' & HF). unfold dsee. destruct (m1 s) as [r1 s1], (m2 t) as [r2 t1]. cbn [fst snd] in *.
      subst r2. destruct r1; auto.
    Qed.
    Lemma rel_if {X} (b : bool) (m1 m1' : M D1 X) (m2 m2' : M D2 X) : rel m1 m2 -> rel m1' m2' -> rel (if b then m1 else m1') (if b then m2 else m2').
    Proof. destruct b; auto. Qed.
  End Frame.

  Ltac rels keysf := repeat (first
    [ apply rel_ret | apply rel_raise | apply rel_liftr | apply rel_items | apply rel_put | apply rel_if
    | apply rel_mapM; [..|intro] | apply rel_forM; [..|intro] | apply rel_bind; [..|intro] | keysf
    | match goal with |- lrel _ _ (match ?x with _ => _ end) _ => destruct x end ]);
    try (intros; exact I); try (intros; apply still_refl); try (unfold dstill; intros; eapply still_trans; eassumption).

  Lemma fsub_any {X} f (m1 : M S1 X) (m2 : M S2 X) : lrel R f m1 m2 -> lrel drel danyhow (onkeys m1) (onkeys m2).
  Proof. intros H. eapply rel_onkeys; [exact H|]. intros; exact I. Qed.
  Lemma fsub_still {X} (m1 : M S1 X) (m2 : M S2 X) : lrel R (still T1) m1 m2 -> lrel drel dstill (onkeys m1) (onkeys m2).
  Proof. intros H. eapply rel_onkeys; [exact H|]. intros d l l' Hl. exact Hl. Qed.
  Ltac keysany := first
    [ eapply fsub_any, (s_add _ _ _ HS) | eapply fsub_any, (s_clear _ _ _ HS) | eapply fsub_any, (s_update _ _ _ HS) | eapply fsub_any, (s_remove _ _ _ HS)
    | eapply fsub_any, (s_pop _ _ _ HS) | eapply fsub_any, (s_del_slice _ _ _ HS) | eapply fsub_any, (s_get _ _ _ HS) | eapply fsub_any, (s_slice _ _ _ HS)
    | eapply fsub_any, (s_iter _ _ _ HS) | eapply fsub_any, (s_reversed _ _ _ HS) ].
  Ltac keysstill := first
    [ apply fsub_still, (s_get _ _ _ HS) | apply fsub_still, (s_slice _ _ _ HS) | apply fsub_still, (s_iter _ _ _ HS) | apply fsub_still, (s_reversed _ _ _ HS) ].

  (** Reading. *)
  Definition reads (o : dop A B K) : bool :=
    match o with
    | DGetItem _ | DGet _ _ | DContains _ | DLen | DIter | DReversed | DPeekItem _ | DItems | DValues | DItemsReversed | DValuesReversed
    | DKeysReversed | DItemIn _ _ | DValueIn _ | DKeyAt _ | DItemAt _ | DValueAt _ | DKeySlice _ | DItemSlice _ | DValueSlice _ | DEq _ => true
    | DFwd (FReset _) => false
    | DFwd _ => true
    | _ => false
    end.
  Definition makes_new (o : dop A B K) : bool := match o with DOr _ | DROr _ | DCopy | DReduce _ => true | _ => false end.
  Lemma rel_fwd f F : lrel R F (l_fwd T1 f) (l_fwd T2 f) -> lrel drel (fun s s' => F (d_list s) (d_list s'))
    (sd_step T1 eqb veqb (DFwd f)) (sd_step T2 eqb veqb (DFwd f)).
  Proof.
    intros H [x l] [y m] [Hi Hr]. cbn [sd_step sd_fwd d_list d_items] in *. unfold sd_fwd. cbn [d_list d_items].
    destruct (H l m Hr) as (E & Hr' & HF). destruct (l_fwd T1 f l) as [r1 l'], (l_fwd T2 f m) as [r2 m']. cbn [fst snd] in *. subst r2.
    split; [reflexivity|]. split; [split; assumption|exact HF].
  Qed.
  Lemma sd_reads o : reads o = true -> lrel drel dstill (sd_step T1 eqb veqb o) (sd_step T2 eqb veqb o).
  Proof.
    intros H. destruct o; try discriminate H; try (cbn [sd_step]; apply rel_dsee).
    all: unfold sd_getitem, sd_get, sd_contains, sd_len, sd_iter, sd_reversed, sd_peekitem, sd_items, sd_values, view_reversed, iv_get, vv_get, kv_get,
      iv_contains, vv_contains, sd_iter, kv_slice, iv_slice, vv_slice, sd_eq, sd_getitem, sd_values, sd_iter, sd_len, sd_getitem.
    all: try (rels keysstill).
    pose proof (s_fwd _ _ _ HS f) as X. destruct f; try discriminate H; exact (rel_fwd _ (still T1) X).
  Qed.
  Lemma sd_changes o : makes_new o = false -> lrel drel danyhow (sd_step T1 eqb veqb o) (sd_step T2 eqb veqb o).
  Proof.
    intros H. destruct (reads o) eqn:E.
    - intros s t Hr. destruct (sd_reads o E s t Hr) as (E1 & E2 & _). split; [exact E1|]. split; [exact E2|exact I].
    - destruct o; try discriminate H; try discriminate E; try (cbn [sd_step]; apply rel_dsee).
      all: unfold sd_setitem, sd_delitem, sd_clear, sd_pop, sd_popitem, sd_setdefault, sd_ior, sd_update, view_del, view_del_slice, dict_delitem, keys_update, sd_getitem, sd_setitem.
      all: try (cbv zeta; rels keysany).
      intros s t Hr. pose proof (s_fwd _ _ _ HS f) as X. destruct f; try discriminate E. destruct (rel_fwd _ anyhow X s t Hr) as (E1 & E2 & _).
      split; [exact E1|]. split; [exact E2|exact I].
  Qed.

  Lemma sd_new_rel a : match sd_new T1 eqb a, sd_new T2 eqb a with Ok s, Ok t => drel s t | Err e, Err e' => e = e' | _, _ => False end.
  Proof.
    unfold sd_new. pose proof (s_new _ _ _ HS []) as H. destruct (l_new T1 []) as [l|e], (l_new T2 []) as [m|e']; try contradiction; [|exact H].
    cbn [rbind]. destruct (sd_changes (DUpdate a) Logic.eq_refl (mksd [] l) (mksd [] m) (conj Logic.eq_refl H)) as (E1 & E2 & _).
    cbn [sd_step] in *. unfold dsee in *.
    destruct (sd_update T1 eqb a (mksd [] l)) as [[u|e] s], (sd_update T2 eqb a (mksd [] m)) as [[u'|e'] t]; cbn in *; try discriminate; [exact E2|congruence].
  Qed.
  Lemma sd_items_rel : lrel drel dstill (sd_items T1 eqb) (sd_items T2 eqb).
  Proof. unfold sd_items, sd_iter, sd_getitem. rels keysstill. Qed.
  Lemma sd_make o s t : makes_new o = true -> drel s t -> fst (sd_step T1 eqb veqb o s) = fst (sd_step T2 eqb veqb o t).
  Proof.
    intros H Hr. assert (X : forall f : list (A * B) -> darg A B,
      fst (drebind (bind (sd_items T1 eqb) (fun l => liftr (sd_new T1 eqb (f l)))) s) = fst (drebind (bind (sd_items T2 eqb) (fun l => liftr (sd_new T2 eqb (f l)))) t)).
    { intros f. destruct (sd_items_rel s t Hr) as (E & _ & _). unfold drebind, bind, liftr.
      destruct (sd_items T1 eqb s) as [r1 s1], (sd_items T2 eqb t) as [r2 t1]. cbn [fst snd] in *. subst r2. destruct r1 as [l|e]; [|reflexivity].
      pose proof (sd_new_rel (f l)) as Y. destruct (sd_new T1 eqb (f l)), (sd_new T2 eqb (f l)); try contradiction; cbn; congruence. }
    destruct o; try discriminate H; cbn [sd_step].
    - apply (X (fun l => APairs (l ++ other))).
    - apply (X (fun l => APairs (other ++ l))).
    - apply (X (fun l => APairs l)).
    - destruct insertion.
      + unfold sd_reduce, drebind, bind, liftr, items_of, bind, get, ret. destruct Hr as [-> _].
        pose proof (sd_new_rel (ADict (d_items t))) as Y. destruct (sd_new T1 eqb _), (sd_new T2 eqb _); try contradiction; cbn; congruence.
      + exact (X (fun l => ADict l)).
  Qed.
End Lift.

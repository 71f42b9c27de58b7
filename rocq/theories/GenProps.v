(** * Bulk operations fed by generators that use the container *)
From Verif Require Import PyBase Model Spec History Reach BaseFacts SpecFacts HistFacts ListClass ClassSpec ClassFacts ListProps FaultSpec KeyProps
  ModelSet SetSpec HashFacts SetFacts SetProps ModelDict DictSpec DictFacts DictProps MapFacts ModelGen GenSpec.
From Coq Require Import Sorting.Permutation Sorting.Sorted.
Local Unset Implicit Arguments.

Section DrainOk.
  Context {S Op Out A L : Type}.
  Variable step : Op -> S -> Out * S.
  Variable eff : Op -> L -> Out -> L -> Prop.
  Variable P : Op -> Prop.
  Variable Rel : S -> L -> Prop.
  Hypothesis Hstep : forall o s l, Rel s l -> P o -> exists r s' l', step o s = (r, s') /\ eff o l r l' /\ Rel s' l'.

  Lemma drain_ok (g : gen Op Out A) : calls P g -> forall s l, Rel s l ->
    exists out s1 l1, drain step g s = (out, s1) /\ feeds eff g l out l1 /\ Rel s1 l1.
  Proof.
    induction g as [|e|o k IH|a g IH]; intros Hc s l HR; cbn [drain].
    - exists (Ok []), s, l. repeat split; auto. constructor.
    - exists (Err e), s, l. repeat split; auto. constructor.
    - destruct Hc as [Ho Hk]. destruct (Hstep o s l HR Ho) as (r & s' & l' & E & He & HR'). rewrite E.
      destruct (IH r (Hk r) s' l' HR') as (out & s1 & l1 & E1 & Hf & HR1).
      exists out, s1, l1. split; [exact E1|]. split; [|exact HR1]. eapply f_call; eauto.
    - destruct (IH Hc s l HR) as (out & s1 & l1 & E1 & Hf & HR1).
      exists (then_value a out), s1, l1. unfold bind. rewrite E1.
      split; [destruct out; reflexivity|]. split; [constructor; exact Hf|exact HR1].
  Qed.
End DrainOk.

Section ListG.
  Context {V : Type}.
  Variables ltb eqb : V -> V -> bool.
  Variable dflt : nat.
  Hypothesis HT : TotalOrder ltb eqb.
  Hypothesis Hd : 1 <= dflt.
  Notation reach := (sl_reach ltb eqb dflt).
  Notation rel := (fun c l => reach c /\ shows c l).
  Notation run := (drain (A:=V) (sl_step (total2 ltb) (total2 eqb) dflt)).

  Lemma lop_ok_of (o : lop V) : lop_in_place o -> lop_ok o.
  Proof. destruct o; cbn; tauto. Qed.
  Lemma sl_drain g c l : reach c -> shows c l -> calls lop_in_place g ->
    exists out c1 l1, run g c = (out, c1) /\ feeds (list_eff ltb eqb) g l out l1 /\ reach c1 /\ shows c1 l1.
  Proof.
    intros HR Hl Hg.
    destruct (drain_ok (A:=V) (sl_step (total2 ltb) (total2 eqb) dflt) (list_eff ltb eqb) lop_in_place rel) with (g := g) (s := c) (l := l)
      as (out & c1 & l1 & H); auto.
    - intros o c0 l0 [HR0 H0] Ho. destruct (do_ok ltb eqb dflt HT Hd c0 l0 o HR0 H0 (lop_ok_of o Ho)) as (c' & E & HR' & H').
      eexists _, c', _. split; [exact E|]. split; [|split; [exact HR'|exact H']].
      unfold list_eff. apply surjective_pairing.
    - exists out, c1, l1. tauto.
  Qed.
End ListG.

Lemma c74_list : forall V (ltb eqb : V -> V -> bool) dflt c l g,
  TotalOrder ltb eqb -> 1 <= dflt -> sl_reach ltb eqb dflt c -> shows c l -> calls lop_in_place g ->
  exists out l1, feeds (list_eff ltb eqb) g l out l1 /\
    forall m, In m [sl_update_gen (total2 ltb) (total2 eqb) dflt g; sl_iadd_gen (total2 ltb) (total2 eqb) dflt g] ->
    match out with
    | Ok vs => exists c' l', m c = (Ok tt, c') /\ sl_reach ltb eqb dflt c' /\ shows c' l' /\ stable_sort_of ltb (l1 ++ vs) l'
    | Err e => exists c', m c = (Err e, c') /\ sl_reach ltb eqb dflt c' /\ shows c' l1
    end.
Proof.
  intros V ltb eqb dflt c l g HT Hd HR Hl Hg.
  destruct (sl_drain ltb eqb dflt HT Hd g c l HR Hl Hg) as (out & c1 & l1 & E & Hf & HR1 & H1).
  exists out, l1. split; [exact Hf|]. intros m Hm.
  assert (D : exists m1 o, m = bind (drain (sl_step (total2 ltb) (total2 eqb) dflt) g) m1 /\
            (forall vs c0, sl_step (total2 ltb) (total2 eqb) dflt (o vs) c0 = observe (@runit V) (m1 vs) c0) /\
            (forall vs, lop_ok (o vs)) /\ forall vs l0, sp_step ltb eqb ltb (o vs) l0 = (RUnit, sp_update ltb vs l0)).
  { cbn [In] in Hm. destruct Hm as [<-|[<-|[]]].
    - exists (sl_update (total2 ltb)), (@LUpdate V). cbn. auto.
    - exists (iadd (sl_vt (total2 ltb))), (@LIAdd V). cbn. auto. }
  destruct D as (m1 & o & -> & Hs & Ho & Hr). unfold bind. rewrite E. destruct out as [vs|e].
  - destruct (do_ok ltb eqb dflt HT Hd c1 l1 (o vs) HR1 H1 (Ho vs)) as (c' & E' & HR' & H').
    unfold sl_do in E'. rewrite Hs in E'. unfold observe in E'. rewrite Hr in *. cbn [fst snd] in *.
    destruct (m1 vs c1) as [[[]|e] c2] eqn:Em; [|discriminate]. injection E' as ->.
    exists c', (sp_update ltb vs l1). split; [reflexivity|]. split; [exact HR'|]. split; [exact H'|].
    apply sp_sort_stable, (to_swo HT).
  - exists c1. auto.
Qed.

Lemma c74_list_plus : forall V (ltb eqb : V -> V -> bool) dflt c l g,
  TotalOrder ltb eqb -> 1 <= dflt -> sl_reach ltb eqb dflt c -> shows c l -> calls lop_in_place g ->
  exists out l1 c1, feeds (list_eff ltb eqb) g l out l1 /\ sl_reach ltb eqb dflt c1 /\ shows c1 l1 /\
    match out with
    | Ok vs => exists n l', sl_plus_gen (total2 ltb) (total2 eqb) dflt g c = (Ok n, c1) /\ sl_reach ltb eqb dflt n /\ shows n l' /\
                 stable_sort_of ltb (l ++ vs) l'
    | Err e => sl_plus_gen (total2 ltb) (total2 eqb) dflt g c = (Err e, c1)
    end.
Proof.
  intros V ltb eqb dflt c l g HT Hd HR Hl Hg.
  destruct (sl_drain ltb eqb dflt HT Hd g c l HR Hl Hg) as (out & c1 & l1 & E & Hf & HR1 & H1).
  exists out, l1, c1. split; [exact Hf|]. split; [exact HR1|]. split; [exact H1|].
  unfold sl_plus_gen, bind, get. rewrite E. destruct out as [vs|e]; [|reflexivity].
  destruct (do_ok ltb eqb dflt HT Hd c l (LPlus vs) HR Hl I) as (c' & E' & HR' & H').
  unfold sl_do in E'. cbn [sl_step sp_step fst snd] in *. unfold rebind, sl_plus, bind, get, liftr in E'.
  unfold liftr. destruct (sl_new (total2 ltb) dflt (contents c ++ vs)) as [n|e]; [|discriminate].
  injection E' as ->. exists c', (sp_update ltb vs l). split; [reflexivity|]. split; [exact HR'|]. split; [exact H'|].
  apply sp_sort_stable, (to_swo HT).
Qed.

Section KeyG.
  Context {V K : Type}.
  Variable key : V -> K.
  Variables kltb keqb : K -> K -> bool.
  Variables vltb eqb : V -> V -> bool.
  Variable dflt : nat.
  Hypothesis HT : TotalOrder kltb keqb.
  Hypothesis HE : EqCompat (by_key key kltb) eqb.
  Hypothesis Hd : 1 <= dflt.
  Notation reach := (skl_reach key kltb keqb vltb eqb dflt).
  Notation rel := (fun s l => reach s /\ kshows s l).
  Notation step := (skl_step (total2 vltb) (total2 eqb) (total2 kltb) (total2 keqb) (total1 key) dflt).
  Notation ok := (fun o : kop V K => kop_in_place o /\ comparable vltb eqb o).

  Lemma skl_drain g s l : reach s -> kshows s l -> calls ok g ->
    exists out s1 l1, drain (A:=V) step g s = (out, s1) /\ feeds (key_eff key kltb vltb eqb) g l out l1 /\ reach s1 /\ kshows s1 l1.
  Proof.
    intros HR Hl Hg.
    destruct (drain_ok (A:=V) step (key_eff key kltb vltb eqb) ok rel) with (g := g) (s := s) (l := l)
      as (out & c1 & l1 & H); auto.
    - intros o s0 l0 [HR0 H0] [Ho Hc].
      assert (Ho' : kop_ok o) by (destruct o as [o| | |]; [|exact I..]; apply lop_ok_of, Ho).
      destruct (kdo_ok key kltb keqb vltb eqb dflt HT HE Hd s0 l0 o HR0 H0 Ho' (comparable_ok _ _ _ Hc)) as (s' & E & HR' & H').
      eexists _, s', _. split; [exact E|]. split; [|split; [exact HR'|exact H']].
      unfold key_eff. apply surjective_pairing.
    - exists out, c1, l1. tauto.
  Qed.
End KeyG.

Lemma c74_keylist : forall V K (key : V -> K) (kltb keqb : K -> K -> bool) (vltb eqb : V -> V -> bool) dflt s l g,
  TotalOrder kltb keqb -> EqCompat (by_key key kltb) eqb -> 1 <= dflt ->
  skl_reach key kltb keqb vltb eqb dflt s -> kshows s l ->
  calls (fun o => kop_in_place o /\ comparable vltb eqb o) g ->
  exists out l1, feeds (key_eff key kltb vltb eqb) g l out l1 /\
    forall m, In m [skl_update_gen (total2 vltb) (total2 eqb) (total2 kltb) (total2 keqb) (total1 key) dflt g;
                    skl_iadd_gen (total2 vltb) (total2 eqb) (total2 kltb) (total2 keqb) (total1 key) dflt g] ->
    match out with
    | Ok vs => exists s' l', m s = (Ok tt, s') /\ skl_reach key kltb keqb vltb eqb dflt s' /\ kshows s' l' /\
                 stable_sort_of (by_key key kltb) (l1 ++ vs) l'
    | Err e => exists s', m s = (Err e, s') /\ skl_reach key kltb keqb vltb eqb dflt s' /\ kshows s' l1
    end.
Proof.
  intros V K key kltb keqb vltb eqb dflt s l g HT HE Hd HR Hl Hg.
  destruct (skl_drain key kltb keqb vltb eqb dflt HT HE Hd g s l HR Hl Hg) as (out & s1 & l1 & E & Hf & HR1 & H1).
  exists out, l1. split; [exact Hf|]. intros m Hm.
  assert (D : exists m1 o, m = bind (drain (skl_step (total2 vltb) (total2 eqb) (total2 kltb) (total2 keqb) (total1 key) dflt) g) m1 /\
            (forall vs s0, skl_step (total2 vltb) (total2 eqb) (total2 kltb) (total2 keqb) (total1 key) dflt (KList (o vs)) s0 = observe (@runit V) (m1 vs) s0) /\
            (forall vs, lop_ok (o vs)) /\ (forall vs, kcmp_ok (K:=K) vltb eqb (KList (o vs))) /\
            forall vs l0, sp_kstep eqb vltb key kltb (KList (o vs)) l0 = (RUnit, sp_update (by_key key kltb) vs l0)).
  { cbn [In] in Hm. destruct Hm as [<-|[<-|[]]].
    - exists (skl_update (total2 kltb) (total1 key)), (@LUpdate V). cbn. auto.
    - exists (iadd (skl_vt (total2 kltb) (total1 key))), (@LIAdd V). cbn. auto. }
  destruct D as (m1 & o & -> & Hs & Ho & Hc & Hr). unfold bind. rewrite E. destruct out as [vs|e].
  - destruct (kdo_ok key kltb keqb vltb eqb dflt HT HE Hd s1 l1 (KList (o vs)) HR1 H1 (Ho vs) (Hc vs)) as (c' & E' & HR' & H').
    unfold skl_do in E'. rewrite Hs in E'. unfold observe in E'. rewrite Hr in *. cbn [fst snd] in *.
    destruct (m1 vs s1) as [[[]|e] c2] eqn:Em; [|discriminate]. injection E' as ->.
    exists c', (sp_update (by_key key kltb) vs l1). split; [reflexivity|]. split; [exact HR'|]. split; [exact H'|].
    apply sp_sort_stable. apply by_key_swo, (to_swo HT).
  - exists s1. auto.
Qed.

Lemma c74_keylist_plus : forall V K (key : V -> K) (kltb keqb : K -> K -> bool) (vltb eqb : V -> V -> bool) dflt s l g,
  TotalOrder kltb keqb -> EqCompat (by_key key kltb) eqb -> 1 <= dflt ->
  skl_reach key kltb keqb vltb eqb dflt s -> kshows s l ->
  calls (fun o => kop_in_place o /\ comparable vltb eqb o) g ->
  exists out l1 s1, feeds (key_eff key kltb vltb eqb) g l out l1 /\ skl_reach key kltb keqb vltb eqb dflt s1 /\ kshows s1 l1 /\
    match out with
    | Ok vs => exists n l', skl_plus_gen (total2 vltb) (total2 eqb) (total2 kltb) (total2 keqb) (total1 key) dflt g s = (Ok n, s1) /\
                 skl_reach key kltb keqb vltb eqb dflt n /\ kshows n l' /\ stable_sort_of (by_key key kltb) (l ++ vs) l'
    | Err e => skl_plus_gen (total2 vltb) (total2 eqb) (total2 kltb) (total2 keqb) (total1 key) dflt g s = (Err e, s1)
    end.
Proof.
  intros V K key kltb keqb vltb eqb dflt s l g HT HE Hd HR Hl Hg.
  destruct (skl_drain key kltb keqb vltb eqb dflt HT HE Hd g s l HR Hl Hg) as (out & s1 & l1 & E & Hf & HR1 & H1).
  exists out, l1, s1. split; [exact Hf|]. split; [exact HR1|]. split; [exact H1|].
  unfold skl_plus_gen, bind, get. rewrite E. destruct out as [vs|e]; [|reflexivity].
  destruct (kdo_ok key kltb keqb vltb eqb dflt HT HE Hd s l (KList (LPlus vs)) HR Hl I I) as (c' & E' & HR' & H').
  unfold skl_do in E'. cbn [skl_step skl_lstep sp_kstep sp_step fst snd] in *. unfold rebind, skl_plus, bind, get, liftr in E'.
  unfold liftr. destruct (skl_new (total2 kltb) (total1 key) dflt (contents (kc s) ++ vs)) as [n|e]; [|discriminate].
  injection E' as ->. exists c', (sp_update (by_key key kltb) vs l). split; [reflexivity|]. split; [exact HR'|]. split; [exact H'|].
  apply sp_sort_stable. apply by_key_swo, (to_swo HT).
Qed.

(** ** SortedSet *)
Section SetG.
  Context {S V K : Type}.
  Variable T : listcls S V K.
  Variables ltb eqb : V -> V -> bool.
  Variable fref : fwd V K -> list V -> out V * list V.
  Variable dflt : nat.
  Variable ord : nat -> list V -> list V.
  Variable R : S -> list V -> Prop.
  Variable ld : S -> nat.
  Hypothesis HK : ClsOK T ltb eqb fref dflt R ld.
  Hypothesis HO : any_order ord.
  Notation Inv := (SInv eqb R).
  Notation step := (ss_step T eqb ord).
  Notation eff := (sets_eff ltb eqb fref).

  Lemma sop_ok_of (o : sop V K) : sop_in_place o -> sop_ok o.
  Proof. destruct o; cbn; tauto. Qed.
  Lemma set_eff_step o (s : sset S V) l : Inv s l -> sop_in_place o -> exists r s' l', step o s = (r, s') /\ eff o l r l' /\ Inv s' l'.
  Proof.
    intros HI Ho. destruct (ss_step_ok T ltb eqb fref dflt R ld HK ord HO o s l HI (sop_ok_of o Ho)) as (r & s' & l' & E & He & HI' & _).
    exists r, s', l'. split; [exact E|]. split; [|exact HI']. split; [exact He|].
    split; [eapply sinv_sorted; eauto|eapply sinv_distinct; eauto].
  Qed.
  Lemma set_behaves_ok (s : sset S V) l : Inv s l -> set_behaves T ltb eqb fref ord s l.
  Proof.
    intros HI. split; [eapply ss_inv_shows; eauto|]. intros ops Ho.
    destruct (ss_run_ok T ltb eqb fref dflt R ld HK ord HO ops s l HI Ho) as (rs & s' & l' & E & Hh & HI' & _).
    exists rs, s', l'. split; [exact E|]. split; [exact Hh|]. eapply ss_inv_shows; eauto.
  Qed.
  Lemma keep_ok g : calls sop_in_place g -> forall acc (s : sset S V) l, Inv s l -> distinct eqb acc ->
    exists out s1 l1, feeds_found eff (fun l a => member eqb a l) g l out l1 /\ Inv s1 l1 /\
      match out with
      | Ok vs => keep_found T eqb ord g acc s = (Ok (set_union eqb acc vs), s1)
      | Err e => keep_found T eqb ord g acc s = (Err e, s1)
      end.
  Proof.
    induction g as [|e|o k IH|a g IH]; intros Hc acc s l HI HD; cbn [keep_found].
    - exists (Ok []), s, l. split; [constructor|]. split; [exact HI|]. reflexivity.
    - exists (Err e), s, l. split; [constructor|]. split; [exact HI|]. reflexivity.
    - destruct Hc as [Ho Hk]. destruct (set_eff_step o s l HI Ho) as (r & s' & l' & E & He & HR'). rewrite E.
      destruct (IH r (Hk r) acc s' l' HR' HD) as (out & s1 & l1 & Hf & H1 & E1).
      exists out, s1, l1. split; [eapply ff_call; eauto|]. auto.
    - unfold members, bind, get, ret. destruct (set_mem eqb a (s_set s)) eqn:Em.
      + apply set_mem_iff in Em.
        destruct (IH Hc (set_add eqb a acc) s l HI) as (out & s1 & l1 & Hf & H1 & E1).
        { apply set_add_distinct. exact HD. }
        exists (then_value a out), s1, l1. split; [apply ff_found; [|exact Hf]|].
        { eapply sinv_mem; eauto. }
        split; [exact H1|]. destruct out; exact E1.
      + destruct (IH Hc acc s l HI HD) as (out & s1 & l1 & Hf & H1 & E1).
        exists out, s1, l1. split; [apply ff_other; [|exact Hf]|].
        { intros Hm. eapply sinv_mem in Hm; [|exact HI]. apply set_mem_iff in Hm. congruence. }
        auto.
  Qed.
End SetG.

Lemma c74_set : forall S V K (T : listcls S V K) ltb eqb fref dflt ord s l g,
  list_class T ltb eqb fref dflt -> any_order ord -> ss_reach T eqb ord s -> ss_shows T s l -> calls sop_in_place g ->
  exists out l1, feeds (sets_eff ltb eqb fref) g l out l1 /\
    forall m o, In (m, o) [(ss_update_gen T eqb ord g, fun vs => SUpdate [AIter vs]);
                           (ss_difference_update_gen T eqb ord g, fun vs => SDifferenceUpdate [AIter vs]);
                           (ss_symmetric_difference_update_gen T eqb ord g, fun vs => SSymmetricDifferenceUpdate (AIter vs))] ->
    match out with
    | Ok vs => exists s' l', m s = (Ok tt, s') /\ set_effect eqb fref (o vs) l1 RUnit l' /\ sorted ltb l' /\ distinct eqb l' /\
                 set_behaves T ltb eqb fref ord s' l'
    | Err e => exists s', m s = (Err e, s') /\ set_behaves T ltb eqb fref ord s' l1
    end.
Proof.
  intros S V K T ltb eqb fref dflt ord s l g HC HO HR Hl Hg. cls HC HK.
  pose proof (ss_shows_ok T ltb eqb fref dflt R ld HK ord HO s l HR Hl) as HI.
  destruct (drain_ok (A:=V) (ss_step T eqb ord) (sets_eff ltb eqb fref) sop_in_place (SInv eqb R)) with (g := g) (s := s) (l := l)
    as (out & s1 & l1 & E & Hf & HI1); auto.
  { intros o s0 l0 H0 Ho. eapply set_eff_step; eauto. }
  exists out, l1. split; [exact Hf|]. intros m o Hm.
  assert (D : exists m1, m = bind (drain (ss_step T eqb ord) g) m1 /\ forall vs,
            sop_ok (o vs) /\ forall s0, ss_step T eqb ord (o vs) s0 = observe (@runit V) (m1 vs) s0).
  { cbn [In] in Hm. repeat destruct Hm as [Hm|Hm]; try contradiction; injection Hm as <- <-;
      eexists; (split; [reflexivity|]); intros vs; (split; [exact I|]); intros s0; reflexivity. }
  destruct D as (m1 & -> & Hs). unfold bind. rewrite E. destruct out as [vs|e].
  - destruct (Hs vs) as [Ho Es].
    destruct (ss_step_ok T ltb eqb fref dflt R ld HK ord HO (o vs) s1 l1 HI1 Ho) as (r & s' & l' & E' & He & HI' & _).
    assert (r = RUnit) as ->.
    { cbn [In] in Hm. repeat destruct Hm as [Hm|Hm]; try contradiction; injection Hm as _ <-; apply He. }
    rewrite Es in E'. unfold observe in E'.
    destruct (m1 vs s1) as [[[]|e] c2] eqn:Em; [|discriminate]. injection E' as ->.
    exists s', l'. split; [reflexivity|]. split; [exact He|]. split; [eapply sinv_sorted; eauto|].
    split; [eapply sinv_distinct; eauto|]. eapply set_behaves_ok; eauto.
  - exists s1. split; [reflexivity|]. eapply set_behaves_ok; eauto.
Qed.

Lemma c74_set_inter : forall S V K (T : listcls S V K) ltb eqb fref dflt ord s l g,
  list_class T ltb eqb fref dflt -> any_order ord -> ss_reach T eqb ord s -> ss_shows T s l -> calls sop_in_place g ->
  exists out l1, feeds_found (sets_eff ltb eqb fref) (fun l a => member eqb a l) g l out l1 /\
    match out with
    | Ok vs => exists s' l', ss_intersection_update_gen T eqb ord g s = (Ok tt, s') /\ sorted ltb l' /\ distinct eqb l' /\
                 (forall x, member eqb x l' <-> member eqb x vs) /\ (forall x, In x l' -> In x vs) /\
                 set_behaves T ltb eqb fref ord s' l'
    | Err e => exists s', ss_intersection_update_gen T eqb ord g s = (Err e, s') /\ set_behaves T ltb eqb fref ord s' l1
    end.
Proof.
  intros S V K T ltb eqb fref dflt ord s l g HC HO HR Hl Hg. cls HC HK.
  pose proof (ss_shows_ok T ltb eqb fref dflt R ld HK ord HO s l HR Hl) as HI.
  destruct (keep_ok T ltb eqb fref dflt ord R ld HK HO g Hg [] s l HI I) as (out & s1 & l1 & Hf & HI1 & E).
  exists out, l1. split; [exact Hf|]. 
  assert (X : ss_intersection_update_gen T eqb ord g s = match keep_found T eqb ord g [] s with
      | (Ok kept, s1) => (put_set kept ;;; relist T ord) s1 | (Err e, s1) => (Err e, s1) end) by reflexivity.
  rewrite X. destruct out as [vs|e]; rewrite E.
  - pose proof (k_equiv _ _ _ _ _ _ _ HK) as HE.
    destruct (set_union_spec eqb HE vs [] I) as (HD & Hm & _ & Hin).
    destruct (rebuild_ok T ltb eqb fref dflt R ld HK ord HO s1 l1 (set_union eqb [] vs) HI1 HD) as (s' & l' & E' & Es & HI' & _).
    exists s', l'. split; [exact E'|]. split; [eapply sinv_sorted; eauto|]. split; [eapply sinv_distinct; eauto|]. split; [|split].
    + intros x. rewrite <- (sinv_mem eqb R s' l' x HI'), Es, Hm. split; [intros [H|H]; [|exact H]|auto].
      destruct H as (y & [] & _).
    + intros x Hx. apply (sinv_In eqb R s' l' x HI') in Hx. rewrite Es in Hx. destruct (Hin x Hx) as [[]|H]. exact H.
    + eapply set_behaves_ok; eauto.
  - exists s1. split; [reflexivity|]. eapply set_behaves_ok; eauto.
Qed.

(** ** SortedDict *)
Section DictG.
  Context {S A B K : Type}.
  Variable T : listcls S A K.
  Variables ltb eqb : A -> A -> bool.
  Variable veqb : B -> B -> bool.
  Variable fref : fwd A K -> list A -> out A * list A.
  Variable dflt : nat.
  Variable R : S -> list A -> Prop.
  Variable ld : S -> nat.
  Hypothesis HK : ClsOK T ltb eqb fref dflt R ld.
  Notation Inv := (DInv (B:=B) ltb eqb R).
  Notation rel := (fun (s : sdict S A B) d => Inv s /\ d_items s = d).

  Lemma dict_behaves_ok s : Inv s -> dict_behaves T ltb eqb veqb fref s (d_items s).
  Proof.
    intros HI. split; [eapply sd_shows_ok; eauto|]. intros ops Ho.
    destruct (sd_run_ok T ltb eqb veqb fref dflt R ld HK ops s HI Ho) as (s' & E & Hd & HI' & _).
    exists s'. split; [exact E|]. rewrite <- Hd. eapply sd_shows_ok; eauto.
  Qed.
  Lemma sd_drain g s : Inv s -> calls (fun o => dop_in_place o /\ dop_ok eqb o) g ->
    exists out s1, drain (A:=A * B) (sd_step T eqb veqb) g s = (out, s1) /\
      feeds (dict_eff ltb eqb veqb fref) g (d_items s) out (d_items s1) /\ Inv s1.
  Proof.
    intros HI Hg.
    destruct (drain_ok (A:=A * B) (sd_step T eqb veqb) (dict_eff ltb eqb veqb fref) (fun o => dop_in_place o /\ dop_ok eqb o) rel)
      with (g := g) (s := s) (l := d_items s) as (out & s1 & d1 & E & Hf & HI1 & <-); auto.
    - intros o s0 d0 [H0 <-] [_ Ho].
      destruct (sd_step_ok T ltb eqb veqb fref dflt R ld HK o s0 H0 Ho) as (s' & E & Hd & HI' & _).
      eexists _, s', _. split; [exact E|]. split; [|split; [exact HI'|exact Hd]]. unfold dict_eff. apply surjective_pairing.
    - exists out, s1. auto.
  Qed.
  Lemma store_plain ps : forall s : sdict S A B,
    store_each T eqb veqb (plain_gen ps None) s = (Ok tt, mksd (d_update eqb (d_items s) ps) (d_list s)).
  Proof.
    induction ps as [|p ps IH]; intros s; [destruct s; reflexivity|].
    unfold plain_gen in *. cbn [yields store_each]. unfold items_of, put_items, modify, bind, get, ret. rewrite IH. reflexivity.
  Qed.
End DictG.

Lemma c74_dict : forall S A B K (T : listcls S A K) ltb eqb (veqb : B -> B -> bool) fref dflt s l g,
  list_class T ltb eqb fref dflt -> sd_reach T eqb veqb s -> sd_shows T eqb s l -> l <> [] ->
  calls (fun o => dop_in_place o /\ dop_ok eqb o) g ->
  exists d out d1, l = listing ltb d /\ feeds (dict_eff ltb eqb veqb fref) g d out d1 /\
    match out with
    | Ok ps => exists s', sd_update_gen T eqb veqb g s = (Ok tt, s') /\ dict_behaves T ltb eqb veqb fref s' (merge eqb d1 ps)
    | Err e => exists s', sd_update_gen T eqb veqb g s = (Err e, s') /\ dict_behaves T ltb eqb veqb fref s' d1
    end.
Proof.
  intros S A B K T ltb eqb veqb fref dflt s l g HC HR Hl Hn Hg. cls HC HK.
  pose proof (sd_reach_ok T ltb eqb veqb fref dflt R ld HK s HR) as HI.
  pose proof (shows_unique T eqb s l _ Hl (sd_shows_ok T ltb eqb fref dflt R ld HK s HI)) as Hl'.
  destruct (sd_drain T ltb eqb veqb fref dflt R ld HK g s HI Hg) as (out & s1 & E & Hf & HI1).
  exists (d_items s), out, (d_items s1). split; [exact Hl'|]. split; [exact Hf|].
  assert (Hn' : (length (d_items s) =? 0) = false).
  { destruct (d_items s); [|reflexivity]. destruct Hn. exact Hl'. }
  assert (X : sd_update_gen T eqb veqb g s = match drain (sd_step T eqb veqb) g s with
      | (Ok ps, s1) => (if length (d_items s1) <? 10 * length (d_of eqb ps)
          then d <- items_of (S:=S) ;; put_items (d_update eqb d (d_of eqb ps)) ;;; onkeys (l_clear T) ;;; keys_update T
          else forM (fun p : A * B => sd_setitem T eqb (fst p) (snd p)) (d_of eqb ps)) s1
      | (Err e, s1) => (Err e, s1) end).
  { unfold sd_update_gen. unfold items_of at 1, bind at 1 2, get at 1, ret at 1. rewrite Hn'. reflexivity. }
  rewrite X, E.
  destruct out as [ps|e]; [|exists s1; split; [reflexivity|]; eapply dict_behaves_ok; eauto].
  assert (Em : merge eqb (d_items s1) (d_of eqb ps) = merge eqb (d_items s1) ps).
  { unfold d_of. rewrite d_update_merge. apply merge_of, (k_equiv _ _ _ _ _ _ _ HK). }
  rewrite <- Em.
  assert (D : leads ltb eqb R ld (if length (d_items s1) <? 10 * length (d_of eqb ps)
    then d <- items_of (S:=S) ;; put_items (d_update eqb d (d_of eqb ps)) ;;; onkeys (l_clear T) ;;; keys_update T
    else forM (fun p : A * B => sd_setitem T eqb (fst p) (snd p)) (d_of eqb ps)) s1 (Ok tt) (merge eqb (d_items s1) (d_of eqb ps))).
  { destruct (length (d_items s1) <? 10 * length (d_of eqb ps)).
    - apply (update_all_ok T ltb eqb fref dflt R ld HK _ s1 HI1).
    - eapply set_each; eauto. }
  destruct D as (s' & E' & Hd & HI' & _). exists s'. split; [exact E'|]. rewrite <- Hd. eapply dict_behaves_ok; eauto.
Qed.

(** ** An empty SortedDict *)
Lemma c75_plain : forall S A B K (T : listcls S A K) ltb eqb (veqb : B -> B -> bool) fref dflt s ps,
  list_class T ltb eqb fref dflt -> sd_reach T eqb veqb s -> sd_shows T eqb s [] ->
  exists s', sd_update_gen T eqb veqb (plain_gen ps None) s = (Ok tt, s') /\
    dict_behaves T ltb eqb veqb fref s' (merge eqb [] ps).
Proof.
  intros S A B K T ltb eqb veqb fref dflt s ps HC HR Hl. cls HC HK.
  pose proof (sd_reach_ok T ltb eqb veqb fref dflt R ld HK s HR) as HI.
  pose proof (shows_unique T eqb s _ _ Hl (sd_shows_ok T ltb eqb fref dflt R ld HK s HI)) as Hl'.
  assert (Hn : d_items s = []).
  { apply (f_equal (@length _)) in Hl'. rewrite (listing_length ltb (k_swo _ _ _ _ _ _ _ HK)) in Hl'. destruct (d_items s); [reflexivity|discriminate]. }
  unfold sd_update_gen. unfold items_of at 1, bind at 1 2, get at 1, ret at 1. rewrite Hn. cbn [length Nat.eqb].
  unfold bind at 1. rewrite store_plain. rewrite Hn, d_update_merge.
  destruct HI as [HRs HD]. rewrite Hn in *.
  destruct (fill T ltb eqb fref dflt R ld HK (merge eqb [] ps) (d_list s) (merge_dk eqb ps [] HD) HRs) as (s' & E & Hd & HI' & _).
  exists s'. split; [exact E|]. rewrite <- Hd. eapply dict_behaves_ok; eauto.
Qed.

Lemma c75_raise_refuted : exists s s1 s2 : sdict (core nat nat) nat nat,
  let T := plain (K:=nat) (total2 Nat.ltb) (total2 Nat.eqb) 1000 in
  sd_new T Nat.eqb (APairs []) = Ok s /\
  sd_update_gen T Nat.eqb Nat.eqb (plain_gen [(1, 10); (2, 20)] (Some ValueError)) s = (Err ValueError, s1) /\
  sd_len s1 = (Ok 2, s1) /\ sd_getitem Nat.eqb 1 s1 = (Ok 10, s1) /\ sd_iter T s1 = (Ok [], s1) /\
  sd_delitem T Nat.eqb 1 s1 = (Err ValueError, s2) /\ sd_len s2 = (Ok 1, s2).
Proof.
  eexists _, _, _. cbv zeta. split; [vm_compute; reflexivity|]. split; [vm_compute; reflexivity|].
  split; [reflexivity|]. split; [reflexivity|]. split; [vm_compute; reflexivity|]. split; vm_compute; reflexivity.
Qed.

Lemma c75_reentrant_refuted : exists s s1 : sdict (core nat nat) nat nat,
  let T := plain (K:=nat) (total2 Nat.ltb) (total2 Nat.eqb) 1000 in
  let g := GCall (DSetDefault 1 0) (fun r1 => GYield (1, match r1 with OVal v => v + 1 | _ => 0 end)
          (GCall (DSetDefault 2 0) (fun r2 => GYield (2, match r2 with OVal v => v + 1 | _ => 0 end) GEnd))) in
  sd_new T Nat.eqb (APairs []) = Ok s /\
  sd_update_gen T Nat.eqb Nat.eqb g s = (Ok tt, s1) /\
  sd_len s1 = (Ok 2, s1) /\ sd_iter T s1 = (Ok [1; 1; 2; 2], s1) /\ sd_check T Nat.eqb s1 = (Err AssertionError, s1).
Proof.
  eexists _, _. cbv zeta. split; [vm_compute; reflexivity|]. split; [vm_compute; reflexivity|].
  split; [reflexivity|]. split; vm_compute; reflexivity.
Qed.

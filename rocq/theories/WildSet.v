(** * SortedSet under arbitrary comparisons *)
From Coq Require Import Permutation.
From Verif Require Import PyBase Model Spec History BaseFacts SpecFacts SliceFacts Reach ListProps
  ListClass ClassSpec ClassFacts ModelSet SetSpec HashFacts SetFacts FaultSpec WildSpec WildClass.
Local Unset Implicit Arguments.

Section WildSet.
  Context {S V K : Type}.
  Variable T : listcls S V K.
  Variable eqb : V -> V -> bool.
  Hypothesis HE : Equiv eqb.
  Variable raised : exn -> Prop.
  Variable R : S -> list V -> Prop.
  Hypothesis HK : WildOK T eqb raised R.
  Variable ord : nat -> list V -> list V.
  Hypothesis HO : any_order ord.
  Notation mem := (member eqb).
  Notation SS := (sset S V).

  Definition WInv (s : SS) (l : list V) : Prop :=
    R (s_list s) l /\ distinct eqb (s_set s) /\ Permutation (s_set s) l.

  Lemma winv_distinct s l : WInv s l -> distinct eqb l.
  Proof. intros (_ & H & HP). eapply distinct_perm; eauto. Qed.
  Lemma winv_mem s l x : WInv s l -> mem x (s_set s) <-> mem x l.
  Proof. intros (_ & _ & H). apply mem_perm, H. Qed.
  Lemma winv_In s l x : WInv s l -> In x (s_set s) <-> In x l.
  Proof. intros (_ & _ & H). split; apply Permutation_in; [exact H|symmetry; exact H]. Qed.
  Lemma winv_tick s l t : WInv s l -> WInv (mksset (s_set s) (s_list s) t) l.
  Proof. intros H. exact H. Qed.

  (** ** Single values *)
  Lemma wadd v s l : WInv s l ->
    (exists s' l', ss_add T eqb v s = (Ok tt, s') /\ WInv s' l' /\ s_set s' = set_add eqb v (s_set s) /\
      ((mem v l /\ l' = l) \/ (~ mem v l /\ Permutation l' (v :: l)))) \/
    (exists e s', ss_add T eqb v s = (Err e, s') /\ raised e /\ R (s_list s') l /\ ~ mem v l /\ s_set s' = s_set s ++ [v]).
  Proof.
    intros HI. pose proof (winv_mem s l v HI) as HM. destruct HI as (HR & HD & HP).
    unfold ss_add, members, bind, get, ret. destruct (set_mem eqb v (s_set s)) eqn:E.
    - left. exists s, l. unfold set_add. rewrite E. split; [reflexivity|]. split; [split; auto|].
      split; [reflexivity|]. left. split; [|auto]. apply HM, set_mem_iff, E.
    - unfold put_set, modify, onlist, zoom. cbn [s_list s_set s_tick].
      assert (En : ~ mem v l) by (rewrite <- HM; apply (set_mem_false eqb), E).
      destruct (w_add _ _ _ _ HK v _ _ HR) as [(sl & l' & El & HR' & HPl)|(e & sl & El & Hr & HR')]; rewrite El.
      + left. eexists _, l'. split; [reflexivity|]. cbn. split; [|split; [reflexivity|right; auto]].
        split; [exact HR'|]. cbn. split; [apply set_add_distinct; auto|]. unfold set_add. rewrite E, HPl, HP.
        rewrite Permutation_app_comm. reflexivity.
      + right. eexists e, _. split; [reflexivity|]. cbn. unfold set_add. rewrite E. auto.
  Qed.

  Lemma wtake_out s l v a x b : WInv s l -> l = a ++ x :: b -> eqb x v = true ->
    distinct eqb (set_del eqb v (s_set s)) /\ Permutation (set_del eqb v (s_set s)) (a ++ b).
  Proof.
    intros HI -> E. pose proof (winv_distinct _ _ HI) as HD. destruct HI as (_ & HD' & HP).
    split; [apply set_del_distinct, HD'|].
    rewrite (set_del_perm eqb v _ _ HP), (set_del_mid eqb HE _ _ _ _ HD E). reflexivity.
  Qed.

  Lemma wdiscard v s l : WInv s l ->
    (exists s' l', ss_discard T eqb v s = (Ok tt, s') /\ WInv s' l' /\ s_set s' = set_del eqb v (s_set s) /\
      ((~ mem v l /\ l' = l) \/ exists a x b, l = a ++ x :: b /\ eqb x v = true /\ l' = a ++ b)) \/
    (exists e s', ss_discard T eqb v s = (Err e, s') /\ (raised e \/ e = ValueError) /\ R (s_list s') l /\ mem v l /\
      s_set s' = set_del eqb v (s_set s)).
  Proof.
    intros HI. pose proof (winv_mem s l v HI) as HM.
    unfold ss_discard, members, bind, get, ret. destruct (set_mem eqb v (s_set s)) eqn:E.
    - apply (set_mem_iff eqb) in E. rewrite set_remove_ok by exact E. unfold onlist, zoom. cbn [s_list s_set s_tick].
      pose proof HI as (HR & _).
      destruct (w_remove _ _ _ _ HK v _ _ HR) as [(sl & a & x & b & El & Hl0 & HR' & Ex)|(e & sl & El & Hr & HR')]; rewrite El.
      + left. destruct (wtake_out s l v a x b HI Hl0 Ex) as [H1 H2].
        eexists _, (a ++ b). split; [reflexivity|]. cbn. split; [split; auto|]. split; [reflexivity|]. right. exists a, x, b. auto.
      + right. eexists e, _. split; [reflexivity|]. split; [exact Hr|]. split; [exact HR'|]. split; [apply HM, E|reflexivity].
    - apply (set_mem_false eqb) in E. left. exists s, l. split; [reflexivity|]. split; [exact HI|].
      split; [symmetry; apply set_del_absent, E|]. left. rewrite <- HM. auto.
  Qed.
  Lemma wremove v s l : WInv s l ->
    (mem v l /\ ss_remove T eqb v s = ss_discard T eqb v s) \/
    (~ mem v l /\ ss_remove T eqb v s = (Err KeyError, s)).
  Proof.
    intros HI. pose proof (winv_mem s l v HI) as HM.
    unfold ss_remove, ss_discard, members, bind, get, ret. destruct (set_mem eqb v (s_set s)) eqn:E.
    - left. split; [|reflexivity]. apply HM, set_mem_iff, E.
    - right. split; [rewrite <- HM; apply set_mem_false, E|].
      unfold set_remove, members, bind, get, ret. rewrite E. reflexivity.
  Qed.
  Lemma wpop i s l : WInv s l ->
    (out_of_range i l /\ exists s', ss_pop T eqb i s = (Err IndexError, s') /\ WInv s' l) \/
    (exists a x b s', at_pos i l a x b /\ ss_pop T eqb i s = (Ok x, s') /\ WInv s' (a ++ b)).
  Proof.
    intros HI. pose proof HI as (HR & HD & HP). unfold ss_pop, bind, onlist, zoom.
    destruct (w_pop _ _ _ _ HK i _ _ HR) as (sl & El & HR'). rewrite El. unfold sp_pop in *.
    destruct (sp_del_cases l i) as [(a & x & b & Hl0 & Hp & Ed & Eg)|(Hn & Ed & Eg)];
      rewrite Ed, Eg in *; cbn [fst snd] in *.
    - right. exists a, x, b. rewrite set_remove_ok.
      2:{ cbn. apply (winv_mem s l x HI). apply mem_In; [exact HE|]. rewrite Hl0. apply in_elt. }
      destruct (wtake_out s l x a x b HI Hl0 (eqb_refl eqb HE x)) as [H1 H2].
      eexists. split; [split; assumption|]. split; [reflexivity|]. cbn. split; auto.
    - left. split; [exact Hn|]. eexists. split; [reflexivity|]. split; auto.
  Qed.
  Lemma wclear s l : WInv s l -> exists s', ss_clear T s = (Ok tt, s') /\ WInv s' [].
  Proof.
    intros (HR & _). unfold ss_clear, bind, put_set, modify, onlist, zoom. cbn [s_list s_set s_tick].
    destruct (w_clear _ _ _ _ HK _ _ HR) as (sl & El & HR'). rewrite El.
    eexists. split; [reflexivity|]. split; [exact HR'|]. cbn. split; [exact I|constructor].
  Qed.
  Lemma witer s l : R (s_list s) l -> ss_iter T s = (Ok l, s).
  Proof.
    intros HR. unfold ss_iter, onlist, zoom. rewrite (w_iter _ _ _ _ HK _ _ HR). destruct s; reflexivity.
  Qed.
  Lemma wdel i s l : WInv s l ->
    (out_of_range i l /\ exists s', ss_del T eqb i s = (Err IndexError, s') /\ WInv s' l) \/
    (exists a x b s', at_pos i l a x b /\ ss_del T eqb i s = (Ok tt, s') /\ WInv s' (a ++ b)).
  Proof.
    intros HI. pose proof HI as (HR & HD & HP). unfold ss_del, bind, onlist, zoom.
    destruct (w_get _ _ _ _ HK i _ _ HR) as (sl & El & HR1). rewrite El.
    destruct (sp_del_cases l i) as [(a & x & b & Hl0 & Hp & Ed & Eg)|(Hn & Ed & Eg)]; rewrite Eg.
    - right. exists a, x, b. rewrite set_remove_ok.
      2:{ cbn. apply (winv_mem s l x HI). apply mem_In; [exact HE|]. rewrite Hl0. apply in_elt. }
      cbn [s_list s_set s_tick]. destruct (w_del _ _ _ _ HK i _ _ HR1) as (sl2 & El2 & HR2).
      rewrite El2. rewrite Ed in *. cbn [upd fst snd] in *.
      destruct (wtake_out s l x a x b HI Hl0 (eqb_refl eqb HE x)) as [H1 H2].
      eexists. split; [split; assumption|]. split; [reflexivity|]. cbn. split; auto.
    - left. split; [exact Hn|]. eexists. split; [reflexivity|]. split; auto.
  Qed.
  Lemma wdel_slice sl s l : WInv s l ->
    (s_step sl = Some 0%Z /\ exists s', ss_del_slice T eqb sl s = (Err ValueError, s') /\ WInv s' l) \/
    (s_step sl <> Some 0%Z /\ exists l1, slice_deleted sl l l1 /\
       ((exists l' s', ss_del_slice T eqb sl s = (Ok tt, s') /\ Permutation l' l1 /\ WInv s' l') \/
        (exists e s', ss_del_slice T eqb sl s = (Err e, s') /\ raised e /\ R (s_list s') [] /\ Permutation (s_set s') l1))).
  Proof.
    intros HI. pose proof HI as (HR & HD & HP). pose proof (winv_distinct _ _ HI) as HDl.
    unfold ss_del_slice, members, put_set, modify, get, ret, bind, onlist, zoom.
    destruct (w_slice _ _ _ _ HK sl _ _ HR) as (x & El & HR1). rewrite El.
    destruct (slice_indices_cases sl (length l)) as [[Ei Hs]|(Hs & st & sp & step & Ei)].
    - left. unfold sp_slice. rewrite Ei. cbn. split; [exact Hs|]. eexists. split; [reflexivity|]. split; auto.
    - right. split; [exact Hs|]. destruct (sp_slice_is sl l Hs) as (vs & Ev & _). rewrite Ev.
      destruct (sp_del_slice_is sl l Hs) as (l1 & Ed & Hd).
      destruct (slice_diff eqb HE sl l vs HDl Ev) as (l2 & Ed2 & Hdiff).
      cbn [s_list s_set s_tick]. rewrite Ed in Ed2. injection Ed2 as <-. exists l1. split; [exact Hd|].
      assert (HP1 : Permutation (set_diff eqb (s_set s) vs) l1) by (rewrite (set_diff_perm eqb HE vs _ _ HP), Hdiff; reflexivity).
      destruct (w_del_slice _ _ _ _ HK sl _ _ HR1) as [(e & s' & Ee & _)|(l1' & El1 & [(s' & l' & E2 & HR2 & HP2)|(e & s' & E2 & Hr & HR2)])];
        [congruence| |]; rewrite E2; rewrite Ed in El1; injection El1 as <-.
      + left. eexists l', _. split; [reflexivity|]. split; [exact HP2|]. split; [exact HR2|]. cbn.
        split; [apply set_diff_distinct; auto|]. rewrite HP1, HP2. reflexivity.
      + right. eexists e, _. split; [reflexivity|]. cbn. auto.
  Qed.

  (** ** Rebuilding the list *)
  Lemma wrelist s l0 : R (s_list s) l0 -> distinct eqb (s_set s) ->
    (exists s' l', relist T ord s = (Ok tt, s') /\ s_set s' = s_set s /\ WInv s' l') \/
    (exists e s', relist T ord s = (Err e, s') /\ raised e /\ s_set s' = s_set s /\ R (s_list s') []).
  Proof.
    intros HR HD. unfold relist, members, visit, modify, get, ret, bind, onlist, zoom.
    destruct (w_clear _ _ _ _ HK _ _ HR) as (s1 & E1 & HR1). rewrite E1. cbn [s_list s_set s_tick].
    destruct (w_update _ _ _ _ HK (ord (s_tick s) (s_set s)) _ HR1) as [(s2 & l' & E2 & HR2 & HP)|(e & s2 & E2 & Hr & HR2)]; rewrite E2.
    - left. eexists _, l'. split; [reflexivity|]. cbn. split; [reflexivity|].
      split; [exact HR2|]. split; [exact HD|]. cbn [s_set]. rewrite HP, (HO _ _). reflexivity.
    - right. eexists e, _. split; [reflexivity|]. cbn. auto.
  Qed.
  Lemma wrebuild s l x : WInv s l -> distinct eqb x ->
    (exists s' l', (put_set x ;;; relist T ord) s = (Ok tt, s') /\ s_set s' = x /\ WInv s' l') \/
    (exists e s', (put_set x ;;; relist T ord) s = (Err e, s') /\ raised e /\ s_set s' = x /\ R (s_list s') []).
  Proof.
    intros (HR & _) HD. unfold bind at 1 2. cbn [put_set modify].
    exact (wrelist (mksset x (s_list s) (s_tick s)) l HR HD).
  Qed.

  Lemma wadd_all vs : forall s l, WInv s l ->
    (exists s' l', forM (ss_add T eqb) vs s = (Ok tt, s') /\ s_set s' = set_union eqb (s_set s) vs /\ WInv s' l') \/
    (exists e s' v l', forM (ss_add T eqb) vs s = (Err e, s') /\ raised e /\ R (s_list s') l' /\
       In v vs /\ ~ mem v l' /\ Permutation (s_set s') (v :: l') /\ (forall x, In x l -> In x l') /\
       (forall x, In x l' -> In x l \/ In x vs)).
  Proof.
    induction vs as [|v vs IH]; intros s l HI.
    - left. exists s, l. repeat split; auto; apply HI.
    - cbn [forM]. unfold bind at 1 2.
      destruct (wadd v s l HI) as [(s1 & l1 & E & HI1 & Hs & Hc)|(e & s1 & E & Hr & HR1 & Hn & Hs)]; rewrite E.
      + destruct (IH s1 l1 HI1) as [(s2 & l2 & E2 & Hs2 & HI2)|(e & s2 & w & l2 & E2 & Hr & HR2 & Hw & Hn & HP & H1 & H2)].
        * left. exists s2, l2. split; [exact E2|]. split; [|exact HI2]. rewrite Hs2, Hs. reflexivity.
        * right. exists e, s2, w, l2. split; [exact E2|]. split; [exact Hr|]. split; [exact HR2|]. split; [right; exact Hw|].
          split; [exact Hn|]. split; [exact HP|].
          assert (Hl1 : (forall x, In x l -> In x l1) /\ forall x, In x l1 -> In x l \/ x = v).
          { destruct Hc as [[_ ->]|[_ Hp]]; [auto|]. split; intros x Hx.
            - eapply Permutation_in; [symmetry; exact Hp|]. right; exact Hx.
            - eapply Permutation_in in Hx; [|exact Hp]. destruct Hx; auto. }
          destruct Hl1 as [Ha Hb]. split; [auto|]. intros x Hx. apply H2 in Hx as [Hx|Hx]; [|right; right; exact Hx].
          apply Hb in Hx as [Hx| ->]; [left; exact Hx|right; left; reflexivity].
      + right. exists e, s1, v, l. split; [reflexivity|]. split; [exact Hr|]. split; [exact HR1|]. split; [left; reflexivity|].
        split; [exact Hn|]. split; [|auto]. destruct HI as (_ & _ & HP). rewrite Hs, HP, Permutation_app_comm. reflexivity.
  Qed.
  Lemma wdiscard_all vs : forall s l, WInv s l ->
    (exists s' l', forM (ss_discard T eqb) vs s = (Ok tt, s') /\ s_set s' = set_diff eqb (s_set s) vs /\ WInv s' l') \/
    (exists e s' x l', forM (ss_discard T eqb) vs s = (Err e, s') /\ (raised e \/ e = ValueError) /\ R (s_list s') l' /\
       mem x vs /\ Permutation l' (x :: s_set s') /\ (forall y, In y l' -> In y l) /\
       (forall y, In y l -> In y l' \/ mem y vs)).
  Proof.
    induction vs as [|v vs IH]; intros s l HI.
    - left. exists s, l. repeat split; auto; apply HI.
    - cbn [forM]. unfold bind at 1 2.
      destruct (wdiscard v s l HI) as [(s1 & l1 & E & HI1 & Hs & Hc)|(e & s1 & E & Hr & HR1 & Hm & Hs)]; rewrite E.
      + destruct (IH s1 l1 HI1) as [(s2 & l2 & E2 & Hs2 & HI2)|(e & s2 & w & l2 & E2 & Hr & HR2 & Hw & HP & H1 & H2)].
        * left. exists s2, l2. split; [exact E2|]. split; [|exact HI2]. rewrite Hs2, Hs. reflexivity.
        * right. exists e, s2, w, l2. split; [exact E2|]. split; [exact Hr|]. split; [exact HR2|].
          split; [apply mem_cons; auto|]. split; [exact HP|].
          assert (Hl1 : (forall x, In x l1 -> In x l) /\ forall x, In x l -> In x l1 \/ eqb x v = true).
          { destruct Hc as [[_ ->]|(a & x & b & -> & Hx & ->)]; [auto|]. split; intros y Hy; apply in_app_iff in Hy.
            - apply in_app_iff. cbn. tauto.
            - cbn in Hy. rewrite in_app_iff. destruct Hy as [Hy|[<-|Hy]]; auto. }
          destruct Hl1 as [Ha Hb]. split; [auto|]. intros y Hy. apply Hb in Hy as [Hy|Hy].
          -- apply H2 in Hy as [Hy|Hy]; [auto|right; apply mem_cons; auto].
          -- right. apply mem_cons. left. rewrite (eqb_sym eqb HE). exact Hy.
      + right. destruct Hm as (x & Hx & Ex). apply in_split in Hx as (a & b & Hl).
        destruct (wtake_out s l v a x b HI Hl Ex) as [_ HP]. rewrite <- Hs in HP.
        exists e, s1, x, l. split; [reflexivity|]. split; [exact Hr|]. split; [exact HR1|].
        split; [apply mem_cons; left; rewrite (eqb_sym eqb HE); exact Ex|].
        split; [rewrite Hl, <- Permutation_middle, HP; reflexivity|]. auto.
  Qed.

  (** What the members become. *)
  Definition wunion (l : list V) (its : list (arg (V:=V))) (m' : list V) : Prop :=
    (forall x, mem x m' <-> mem x l \/ in_any eqb x its) /\
    (forall x, In x l -> In x m') /\
    (forall x, In x m' -> In x l \/ exists a, In a its /\ In x (items a)).
  Lemma wunion_perm l its m m' : Permutation m m' -> wunion l its m -> wunion l its m'.
  Proof.
    intros HP (H1 & H2 & H3). split; [|split]; intros x.
    - rewrite <- (mem_perm eqb x _ _ HP). apply H1.
    - intros Hx. eapply Permutation_in; [exact HP|auto].
    - intros Hx. apply H3. eapply Permutation_in; [symmetry; exact HP|exact Hx].
  Qed.
  Lemma wunion_set s l its vs : WInv s l ->
    (forall x, mem x vs <-> mem x (concat (map (@items V) its))) ->
    (forall x, In x vs -> In x (concat (map (@items V) its))) ->
    wunion l its (set_union eqb (s_set s) vs).
  Proof.
    intros HI Hm Hi. pose proof HI as (_ & HD & _).
    destruct (set_union_spec eqb HE vs (s_set s) HD) as (_ & H2 & H3 & H4). split; [|split].
    - intros x. rewrite H2, (winv_mem _ _ x HI), Hm, in_any_concat by exact HE. reflexivity.
    - intros x Hx. apply H3, (winv_In _ _ x HI), Hx.
    - intros x Hx. apply H4 in Hx as [Hx|Hx].
      + left. apply (winv_In _ _ x HI), Hx.
      + right. apply Hi in Hx. apply In_concat_items in Hx. exact Hx.
  Qed.
  Lemma wupdate its s l : WInv s l ->
    (exists s' l', ss_update T eqb ord its s = (Ok tt, s') /\ WInv s' l' /\ wunion l its l') \/
    (exists e s' l', ss_update T eqb ord its s = (Err e, s') /\ raised e /\ R (s_list s') l' /\
       ((l' = [] /\ wunion l its (s_set s')) \/
        (exists v, in_any eqb v its /\ ~ mem v l' /\ Permutation (s_set s') (v :: l') /\ (forall x, In x l -> In x l') /\
           forall x, In x l' -> In x l \/ exists a, In a its /\ In x (items a)))).
  Proof.
    intros HI. unfold ss_update. unfold bind at 1 3. cbn [members bind get ret].
    set (vals := set_of eqb (concat (map (@items V) its))).
    destruct (set_of_spec eqb HE (concat (map (@items V) its))) as (Hd & Hm & Hi). fold vals in Hd, Hm, Hi.
    unfold bind at 1 3, get, ret. destruct (_ <? _).
    - destruct (wrebuild s l (set_union eqb (s_set s) vals) HI) as [(s' & l' & E & Hs & HI')|(e & s' & E & Hr & Hs & HR')].
      { apply set_union_spec; [exact HE|apply HI]. }
      + left. exists s', l'. split; [exact E|]. split; [exact HI'|]. eapply wunion_perm; [apply HI'|]. rewrite Hs. apply wunion_set; auto.
      + right. exists e, s', []. split; [exact E|]. split; [exact Hr|]. split; [exact HR'|]. left. split; [reflexivity|].
        rewrite Hs. apply wunion_set; auto.
    - rewrite visit_ok.
      assert (Hv1 : forall x, mem x (ord (s_tick s) vals) <-> mem x (concat (map (@items V) its))).
      { intros x. rewrite <- Hm. apply mem_perm, HO. }
      assert (Hv2 : forall x, In x (ord (s_tick s) vals) -> In x (concat (map (@items V) its))).
      { intros x Hx. apply Hi. eapply Permutation_in; [apply HO|exact Hx]. }
      destruct (wadd_all (ord (s_tick s) vals) _ l (winv_tick s l (s_tick s + 1) HI))
        as [(s' & l' & E & Hs & HI')|(e & s' & v & l' & E & Hr & HR' & Hv & Hn & HP & H1 & H2)].
      + left. exists s', l'. split; [exact E|]. split; [exact HI'|]. eapply wunion_perm; [apply HI'|]. rewrite Hs.
        apply (wunion_set s l); auto.
      + right. exists e, s', l'. split; [exact E|]. split; [exact Hr|]. split; [exact HR'|]. right. exists v.
        split; [apply in_any_concat; auto; apply mem_In; auto|]. split; [exact Hn|]. split; [exact HP|]. split; [exact H1|].
        intros x Hx. apply H2 in Hx as [Hx|Hx]; [auto|]. right. apply In_concat_items. auto.
  Qed.

  Definition wdiff (l : list V) (its : list (arg (V:=V))) (l' : list V) : Prop :=
    forall x, In x l' <-> In x l /\ ~ in_any eqb x its.
  Lemma wdiff_perm l its m m' : Permutation m m' -> wdiff l its m -> wdiff l its m'.
  Proof.
    intros HP H x. rewrite <- (H x). split; apply Permutation_in; [symmetry; exact HP|exact HP].
  Qed.
  Lemma wdifference_update its s l : WInv s l ->
    (exists s' l', ss_difference_update T eqb ord its s = (Ok tt, s') /\ WInv s' l' /\ wdiff l its l') \/
    (exists e s' l', ss_difference_update T eqb ord its s = (Err e, s') /\ (raised e \/ e = ValueError) /\ R (s_list s') l' /\
       ((l' = [] /\ wdiff l its (s_set s')) \/
        (exists x, in_any eqb x its /\ Permutation l' (x :: s_set s') /\ (forall y, In y l' -> In y l) /\
           forall y, In y l -> In y l' \/ in_any eqb y its))).
  Proof.
    intros HI. pose proof HI as (_ & HD & _). unfold ss_difference_update. unfold bind at 1 3. cbn [members bind get ret].
    set (vals := set_of eqb (concat (map (@items V) its))).
    destruct (set_of_spec eqb HE (concat (map (@items V) its))) as (Hd & Hm & Hi). fold vals in Hd, Hm, Hi.
    assert (HF : forall vs, (forall x, mem x vs <-> mem x vals) -> wdiff l its (set_diff eqb (s_set s) vs)).
    { intros vs Hv x. rewrite set_diff_In, (winv_In _ _ x HI), Hv, Hm, in_any_concat by exact HE. reflexivity. }
    unfold bind at 1 3, get, ret. destruct (_ <? _).
    - destruct (wrebuild s l (set_diff eqb (s_set s) vals) HI) as [(s' & l' & E & Hs & HI')|(e & s' & E & Hr & Hs & HR')].
      { apply set_diff_distinct; auto. }
      + left. exists s', l'. split; [exact E|]. split; [exact HI'|]. eapply wdiff_perm; [apply HI'|]. rewrite Hs. apply HF. reflexivity.
      + right. exists e, s', []. split; [exact E|]. split; [auto|]. split; [exact HR'|]. left. split; [reflexivity|]. rewrite Hs. apply HF. reflexivity.
    - rewrite visit_ok.
      assert (Hv : forall x, mem x (ord (s_tick s) vals) <-> mem x vals) by (intros; apply mem_perm, HO).
      destruct (wdiscard_all (ord (s_tick s) vals) _ l (winv_tick s l (s_tick s + 1) HI))
        as [(s' & l' & E & Hs & HI')|(e & s' & x & l' & E & Hr & HR' & Hx & HP & H1 & H2)].
      + left. exists s', l'. split; [exact E|]. split; [exact HI'|]. eapply wdiff_perm; [apply HI'|]. rewrite Hs. apply HF, Hv.
      + right. exists e, s', l'. split; [exact E|]. split; [exact Hr|]. split; [exact HR'|]. right. exists x.
        assert (Ha : forall y, mem y (ord (s_tick s) vals) -> in_any eqb y its).
        { intros y Hy. apply in_any_concat. apply Hm, Hv, Hy. }
        split; [auto|]. split; [exact HP|]. split; [exact H1|]. intros y Hy. apply H2 in Hy as [Hy|Hy]; auto.
  Qed.

  Definition winter (l : list V) (its : list (arg (V:=V))) (l' : list V) : Prop :=
    (forall x, mem x l' <-> mem x l /\ forall a, In a its -> mem x (items a)) /\
    (forall x, In x l' -> In x l \/ exists a, In a its /\ In x (items a)).
  Lemma winter_perm l its m m' : Permutation m m' -> winter l its m -> winter l its m'.
  Proof.
    intros HP [H1 H2]. split; intros x.
    - rewrite <- (mem_perm eqb x _ _ HP). apply H1.
    - intros Hx. apply H2. eapply Permutation_in; [symmetry; exact HP|exact Hx].
  Qed.
  Lemma winter_set its s l : WInv s l -> winter l its (fold_left (set_inter eqb) its (s_set s)).
  Proof.
    intros HI. pose proof HI as (_ & HD & _). destruct (fold_inter eqb HE its (s_set s) HD) as (_ & H2 & H3). split.
    - intros x. rewrite H2, (winv_mem _ _ x HI). reflexivity.
    - intros x Hx. apply H3 in Hx as [Hx|Hx]; [|auto]. left. apply (winv_In _ _ x HI), Hx.
  Qed.
  Definition wsym (l : list V) (it : arg (V:=V)) (l' : list V) : Prop :=
    (forall x, mem x l' <-> (mem x l /\ ~ mem x (items it)) \/ (~ mem x l /\ mem x (items it))) /\
    (forall x, In x l' -> In x l \/ In x (items it)).
  Lemma wsym_perm l it m m' : Permutation m m' -> wsym l it m -> wsym l it m'.
  Proof.
    intros HP [H1 H2]. split; intros x.
    - rewrite <- (mem_perm eqb x _ _ HP). apply H1.
    - intros Hx. apply H2. eapply Permutation_in; [symmetry; exact HP|exact Hx].
  Qed.
  Lemma wsym_set it s l x : WInv s l -> x = set_sym eqb (s_set s) (items it) \/ x = set_sym_new eqb (s_set s) (items it) ->
    distinct eqb x /\ wsym l it x.
  Proof.
    intros HI Hs. pose proof HI as (_ & HD & _).
    assert (HF : distinct eqb x /\ (forall y, mem y x <-> (mem y (s_set s) /\ ~ mem y (items it)) \/ (~ mem y (s_set s) /\ mem y (items it))) /\
                 (forall y, In y x -> In y (s_set s) \/ In y (items it))).
    { destruct Hs as [->| ->]; [apply set_sym_spec|apply set_sym_new_spec]; auto. }
    destruct HF as (H1 & H2 & H3). split; [exact H1|]. split.
    - intros y. rewrite H2, (winv_mem _ _ y HI). reflexivity.
    - intros y Hy. apply H3 in Hy as [Hy|Hy]; [|auto]. left. apply (winv_In _ _ y HI), Hy.
  Qed.

  (** ** New objects *)
  Lemma wfromset t x : distinct eqb x ->
    (exists s' l', ss_fromset T ord t x = Ok s' /\ s_set s' = x /\ WInv s' l') \/
    (exists e, ss_fromset T ord t x = Err e /\ raised e).
  Proof.
    intros HD. unfold ss_fromset. destruct (w_new _ _ _ _ HK (ord t x)) as [(sl & l & E & HR & HP)|(e & E & Hr)]; rewrite E.
    - left. eexists _, l. split; [reflexivity|]. split; [reflexivity|]. split; [exact HR|]. split; [exact HD|].
      cbn [s_set]. rewrite HP, (HO _ _). reflexivity.
    - right. exists e. auto.
  Qed.
  Lemma wnew t it :
    (exists s' l', ss_new T eqb ord t it = Ok s' /\ WInv s' l' /\ wunion [] (match it with Some a => [a] | None => [] end) l' /\
       (forall a, it = Some a -> distinct eqb (items a) -> Permutation l' (items a)) /\
       (forall a, it = Some a -> Permutation l' (set_of eqb (items a)))) \/
    (exists e, ss_new T eqb ord t it = Err e /\ raised e).
  Proof.
    unfold ss_new. destruct (wfromset t [] I) as [(s0 & l0 & E & Hs & HI)|(e & E & Hr)]; rewrite E; cbn [rbind];
      [|right; exists e; auto].
    assert (l0 = []) as ->. { destruct HI as (_ & _ & HP). rewrite Hs in HP. apply Permutation_nil, HP. }
    destruct it as [a|].
    - assert (Hq : forall s1 l1, ss_update T eqb ord [a] s0 = (Ok tt, s1) -> WInv s1 l1 -> Permutation l1 (set_of eqb (items a))).
      { intros s1 l1 E1 (_ & _ & HP). rewrite <- HP. revert E1. unfold ss_update. unfold bind at 1. cbn [members bind get ret].
        unfold bind at 1, get, ret. rewrite Hs. cbn [length map concat]. rewrite app_nil_r.
        destruct (set_of_spec eqb HE (items a)) as (Hd & _).
        destruct (_ <? _) eqn:El.
        - destruct (wrebuild s0 [] (set_union eqb [] (set_of eqb (items a))) HI) as [(s' & l' & E' & Hs' & _)|(e & s' & E' & _)].
          { apply set_union_spec; [exact HE|exact I]. }
          + intros E1. pose proof (eq_trans (eq_sym E') E1) as E2. injection E2 as <-. rewrite Hs'. change (set_union eqb [] ?x) with (set_of eqb x).
            rewrite (set_of_distinct eqb _ Hd). reflexivity.
          + intros E1. pose proof (eq_trans (eq_sym E') E1) as E2. discriminate E2.
        - apply Nat.ltb_ge in El. destruct (set_of eqb (items a)) as [|z zs] eqn:Ez; [|cbn in El; lia].
          unfold bind at 1. rewrite visit_ok.
          assert (Ho : ord (s_tick s0) [] = []) by (apply Permutation_nil; symmetry; apply HO).
          rewrite Ho. cbn [forM]. unfold ret. intros [= <-]. cbn. rewrite Hs. reflexivity. }
      destruct (wupdate [a] s0 [] HI) as [(s1 & l1 & E1 & HI1 & Hu)|(e & s1 & l1 & E1 & Hr & _)]; rewrite E1.
      + left. exists s1, l1. split; [reflexivity|]. split; [exact HI1|]. split; [exact Hu|].
        pose proof (Hq s1 l1 E1 HI1) as HP. split; intros a' [= <-]; [|exact HP].
        intros Hd. rewrite HP, (set_of_distinct eqb _ Hd). reflexivity.
      + right. exists e. auto.
    - left. exists s0, []. split; [reflexivity|]. split; [exact HI|]. split; [|split; discriminate].
      split; [|split]; [|intros x []|intros x []]. intros x. split; [auto|]. intros [H|(a & [] & _)]. exact H.
  Qed.

  (** ** One step *)
  Definition went (o : sop V K) (s : SS) (l : list V) (r : out V) (s' : SS) : Prop :=
    (exists l', WInv s' l' /\ weak_effect eqb o l r l') \/
    (exists e l', r = RExn e /\ (raised e \/ (e = ValueError /\ may_miss o)) /\ R (s_list s') l' /\ set_failed eqb o l (s_set s) l' (s_set s')).

  Lemma wfresh (o : sop V K) s l (mk : nat -> res SS) : WInv s l ->
    (forall m, set_failed eqb o l m l m) ->
    ((exists n l', mk (s_tick s) = Ok n /\ WInv n l' /\ weak_effect eqb o l RUnit l') \/ (exists e, mk (s_tick s) = Err e /\ raised e)) ->
    exists r s', rebind (fresh mk) s = (r, s') /\ went o s l r s'.
  Proof.
    intros HI Hf [(n & l' & E & HI' & Hw)|(e & E & Hr)]; unfold rebind, fresh, bind, get, liftr; rewrite E.
    - exists RUnit, n. split; [reflexivity|]. left. exists l'. auto.
    - exists (RExn e), s. split; [reflexivity|]. right. exists e, l. split; [reflexivity|]. split; [auto|]. split; [apply HI|]. apply Hf.
  Qed.

  Lemma wstep o s l : WInv s l -> sop_ok o -> exists r s', ss_step T eqb ord o s = (r, s') /\ went o s l r s'.
  Proof.
    intros HI Ho. pose proof HI as (HR & HD & HP).
    assert (HM : forall x, mem x (s_set s) <-> mem x l) by (intros; apply winv_mem, HI).
    assert (HA : forall b P, (b = true <-> P) -> answers (RBool (V:=V) b) P) by (intros b P Hb; exists b; auto).
    assert (OK : forall r s' l', WInv s' l' -> weak_effect eqb o l r l' -> went o s l r s') by (intros r s' l' H1 H2; left; exists l'; auto).
    assert (NO : forall e s' l', R (s_list s') l' -> raised e \/ (e = ValueError /\ may_miss o) -> set_failed eqb o l (s_set s) l' (s_set s') ->
              went o s l (RExn e) s') by (intros e s' l' H1 H2 H3; right; exists e, l'; auto).
    destruct o; cbn [ss_step]; unfold observe.
    - destruct (wadd v s l HI) as [(s' & l' & E & HI' & _ & Hc)|(e & s' & E & Hr & HR' & Hn & Hs)]; rewrite E.
      + exists RUnit, s'. split; [reflexivity|]. apply (OK _ _ l' HI'). split; auto.
      + exists (RExn e), s'. split; [reflexivity|]. apply (NO _ _ l); auto. cbn. auto.
    - destruct (wdiscard v s l HI) as [(s' & l' & E & HI' & _ & Hc)|(e & s' & E & Hr & HR' & Hm & Hs)]; rewrite E.
      + exists RUnit, s'. split; [reflexivity|]. apply (OK _ _ l' HI'). split; auto.
      + exists (RExn e), s'. split; [reflexivity|]. apply (NO _ _ l); [exact HR'|destruct Hr as [Hr|Hr]; [left; exact Hr|right; split; [exact Hr|exact I]]|]. cbn. split; [exact Hm|]. split; [reflexivity|].
        intros x. rewrite Hs. apply set_del_In.
    - destruct (wremove v s l HI) as [[Hm0 E0]|[Hm E]]; [rewrite E0|rewrite E].
      + destruct (wdiscard v s l HI) as [(s' & l' & E & HI' & _ & [Hc|(a & x & b & Hc)])|(e & s' & E & Hr & HR' & Hm & Hs)];
          [tauto| |]; rewrite E.
        * exists RUnit, s'. split; [reflexivity|]. apply (OK _ _ l' HI'). right. exists a, x, b. tauto.
        * exists (RExn e), s'. split; [reflexivity|]. apply (NO _ _ l); [exact HR'|destruct Hr as [Hr|Hr]; [left; exact Hr|right; split; [exact Hr|exact I]]|]. cbn. split; [exact Hm|]. split; [reflexivity|].
          intros x. rewrite Hs. apply set_del_In.
      + exists (RExn KeyError), s. split; [reflexivity|]. apply (OK _ _ l HI). left. auto.
    - destruct (wpop i s l HI) as [(Hn & s' & E & HI')|(a & x & b & s' & Hp & E & HI')]; rewrite E.
      + exists (RExn IndexError), s'. split; [reflexivity|]. apply (OK _ _ l HI'). left. auto.
      + exists (RVal x), s'. split; [reflexivity|]. apply (OK _ _ _ HI'). right. exists a, x, b. auto.
    - destruct (wclear s l HI) as (s' & E & HI'). rewrite E. exists RUnit, s'. split; [reflexivity|]. apply (OK _ _ _ HI'). cbn. auto.
    - cbn. eexists _, s. split; [reflexivity|]. apply (OK _ _ _ HI). split; [reflexivity|]. apply HA. rewrite set_mem_iff. apply HM.
    - cbn. eexists _, s. split; [reflexivity|]. apply (OK _ _ _ HI). split; [reflexivity|].
      destruct (set_mem eqb v (s_set s)) eqn:E.
      + left. apply set_mem_iff in E. split; [apply HM, E|reflexivity].
      + right. apply set_mem_false in E. rewrite <- HM. auto.
    - cbn. eexists _, s. split; [reflexivity|]. apply (OK _ _ _ HI). cbn. rewrite (Permutation_length HP). auto.
    - rewrite (witer s l HR). eexists _, s. split; [reflexivity|]. apply (OK _ _ _ HI). cbn. auto.
    - unfold ss_reversed, onlist, zoom. rewrite (w_reversed _ _ _ _ HK _ _ HR). eexists _, _. split; [reflexivity|].
      apply (OK _ _ l). { destruct s; exact HI. } cbn. auto.
    - unfold ss_get, onlist, zoom. destruct (w_get _ _ _ _ HK i _ _ HR) as (sl & E & HR'). rewrite E.
      destruct (sp_del_cases l i) as [(a & x & b & Hl0 & Hp & _ & Eg)|(Hn & _ & Eg)]; rewrite Eg;
        (eexists _, _; split; [reflexivity|]; apply (OK _ _ l); [split; auto|]; split; [reflexivity|]).
      + right. exists a, x, b. split; [split; assumption|reflexivity].
      + left. split; [exact Hn|reflexivity].
    - unfold ss_slice, onlist, zoom. destruct (w_slice _ _ _ _ HK sl _ _ HR) as (x & E & HR'). rewrite E.
      destruct (slice_indices_cases sl (length l)) as [[Ei Hs]|(Hs & _)].
      + unfold sp_slice. rewrite Ei. cbn. eexists _, _. split; [reflexivity|]. apply (OK _ _ l); [split; auto|]. cbn. auto.
      + destruct (sp_slice_is sl l Hs) as (vs & Ev & Hv). rewrite Ev. eexists _, _. split; [reflexivity|].
        apply (OK _ _ l); [split; auto|]. split; [reflexivity|]. right. split; [exact Hs|]. exists vs. auto.
    - destruct (wdel i s l HI) as [(Hn & s' & E & HI')|(a & x & b & s' & Hp & E & HI')]; rewrite E.
      + exists (RExn IndexError), s'. split; [reflexivity|]. apply (OK _ _ l HI'). left. auto.
      + exists RUnit, s'. split; [reflexivity|]. apply (OK _ _ _ HI'). right. exists a, x, b. auto.
    - destruct (wdel_slice sl s l HI) as [(Hn & s' & E & HI')|(Hn & l1 & Hd & [(l' & s' & E & Hp & HI')|(e & s' & E & Hr & HR' & Hp)])]; rewrite E.
      + eexists _, s'. split; [reflexivity|]. apply (OK _ _ l HI'). left. auto.
      + exists RUnit, s'. split; [reflexivity|]. apply (OK _ _ l' HI'). right. split; [exact Hn|]. split; [reflexivity|]. exists l1. auto.
      + exists (RExn e), s'. split; [reflexivity|]. apply (NO _ _ []); auto. cbn. split; [exact Hn|]. split; [reflexivity|]. exists l1. auto.
    - destruct (wupdate its s l HI) as [(s' & l' & E & HI' & Hu)|(e & s' & l' & E & Hr & HR' & Hf)]; rewrite E.
      + exists RUnit, s'. split; [reflexivity|]. apply (OK _ _ l' HI'). split; [reflexivity|exact Hu].
      + exists (RExn e), s'. split; [reflexivity|]. apply (NO _ _ l'); auto. cbn.
        destruct Hf as [[-> Hf]|Hf]; [left; split; [reflexivity|]; split; [reflexivity|exact Hf]|right; exact Hf].
    - destruct (wdifference_update its s l HI) as [(s' & l' & E & HI' & Hu)|(e & s' & l' & E & Hr & HR' & Hf)]; rewrite E.
      + exists RUnit, s'. split; [reflexivity|]. apply (OK _ _ l' HI'). split; [reflexivity|exact Hu].
      + exists (RExn e), s'. split; [reflexivity|]. apply (NO _ _ l'); [exact HR'|destruct Hr as [Hr|Hr]; [left; exact Hr|right; split; [exact Hr|exact I]]|]. cbn.
        destruct Hf as [[-> Hf]|Hf]; [left; split; [reflexivity|]; split; [reflexivity|exact Hf]|right; exact Hf].
    - unfold ss_intersection_update. unfold bind at 1. cbn [members bind get ret]. unfold bind at 1, get, ret.
      destruct (wrebuild s l (fold_left (set_inter eqb) its (s_set s)) HI) as [(s' & l' & E & Hs & HI')|(e & s' & E & Hr & Hs & HR')].
      { apply fold_inter; auto. }
      + unfold bind in E. rewrite E. exists RUnit, s'. split; [reflexivity|]. apply (OK _ _ l' HI'). split; [reflexivity|].
        eapply winter_perm; [apply HI'|]. rewrite Hs. apply winter_set, HI.
      + unfold bind in E. rewrite E. exists (RExn e), s'. split; [reflexivity|]. apply (NO _ _ []); auto. split; [reflexivity|]. split; [reflexivity|].
        rewrite Hs. apply winter_set, HI.
    - unfold ss_symmetric_difference_update. unfold bind at 1. cbn [members bind get ret]. unfold bind at 1, get, ret.
      destruct (wsym_set it s l _ HI (or_introl eq_refl)) as [Hd Hsy].
      destruct (wrebuild s l (set_sym eqb (s_set s) (items it)) HI Hd) as [(s' & l' & E & Hs & HI')|(e & s' & E & Hr & Hs & HR')].
      + unfold bind in E. rewrite E. exists RUnit, s'. split; [reflexivity|]. apply (OK _ _ l' HI'). split; [reflexivity|].
        eapply wsym_perm; [apply HI'|]. rewrite Hs. exact Hsy.
      + unfold bind in E. rewrite E. exists (RExn e), s'. split; [reflexivity|]. apply (NO _ _ []); auto. split; [reflexivity|]. split; [reflexivity|].
        rewrite Hs. exact Hsy.
    - unfold ss_union. unfold rebind. unfold bind at 1. fold (ss_iter T). rewrite (witer s l HR).
      fold (@rebind SS V (fresh (fun t => ss_new T eqb ord t (Some (AIter (l ++ concat (map (@items V) its)))))) s).
      apply (wfresh (SUnion its) s l); [exact HI|cbn; auto|].
      destruct (wnew (s_tick s) (Some (AIter (l ++ concat (map (@items V) its))))) as [(n & l' & E & HI' & Hu & _ & Hp)|He]; [left|right; exact He].
      exists n, l'. split; [exact E|]. split; [exact HI'|]. split; [reflexivity|].
      specialize (Hp _ eq_refl). cbn [items] in Hp. destruct Hu as (Hu1 & _ & Hu3). split; [|split]; intros x.
      + rewrite Hu1. split.
        * intros [H|(a & [<-|[]] & H)]; [destruct (mem_nil eqb x H)|]. cbn [items] in H. apply mem_app in H as [H|H]; [auto|].
          right. apply in_any_concat; auto.
        * intros H. right. eexists. split; [left; reflexivity|]. cbn [items]. apply mem_app. destruct H as [H|H]; [auto|].
          right. apply in_any_concat; auto.
      + intros Hx. eapply Permutation_in; [symmetry; exact Hp|]. unfold set_of, set_union. rewrite fold_left_app.
        change (fold_left (fun s x => set_add eqb x s) l []) with (set_of eqb l).
        rewrite set_of_distinct by (auto; eapply winv_distinct; eauto). apply set_union_spec; auto. eapply winv_distinct; eauto.
      + intros Hx. apply Hu3 in Hx as [[]|(a & [<-|[]] & Hx)]. cbn [items] in Hx. apply in_app_iff in Hx as [Hx|Hx]; [auto|].
        right. apply In_concat_items. exact Hx.
    - destruct (fold_diff eqb HE its (s_set s)) as [HF HF'].
      unfold ss_difference. unfold rebind. unfold bind at 1. cbn [members bind get ret].
      match goal with |- context [fresh ?mk ?s] => fold (@rebind SS V (fresh mk) s); apply (wfresh (SDifference its) s l mk) end; [exact HI|cbn; auto|].
      destruct (wfromset (s_tick s) _ (HF' HD)) as [(n & l' & E & Hs & HI')|He]; [left|right; exact He].
      exists n, l'. split; [exact E|]. split; [exact HI'|]. split; [reflexivity|].
      eapply (wdiff_perm l its); [apply HI'|]. rewrite Hs. intros x. rewrite HF, (winv_In _ _ x HI). reflexivity.
    - unfold ss_intersection. unfold rebind. unfold bind at 1. cbn [members bind get ret].
      match goal with |- context [fresh ?mk ?s] => fold (@rebind SS V (fresh mk) s); apply (wfresh (SIntersection its) s l mk) end; [exact HI|cbn; auto|].
      destruct (wfromset (s_tick s) (fold_left (set_inter eqb) its (s_set s))) as [(n & l' & E & Hs & HI')|He]; [apply fold_inter; auto|left|right; exact He].
      exists n, l'. split; [exact E|]. split; [exact HI'|]. split; [reflexivity|].
      eapply (winter_perm l its); [apply HI'|]. rewrite Hs. apply winter_set, HI.
    - unfold ss_symmetric_difference. unfold rebind. unfold bind at 1. cbn [members bind get ret].
      match goal with |- context [fresh ?mk ?s] => fold (@rebind SS V (fresh mk) s); apply (wfresh (SSymmetricDifference it) s l mk) end; [exact HI|cbn; auto|].
      destruct (wsym_set it s l _ HI (or_intror eq_refl)) as [Hd Hsy].
      destruct (wfromset (s_tick s) _ Hd) as [(n & l' & E & Hs & HI')|He]; [left|right; exact He].
      exists n, l'. split; [exact E|]. split; [exact HI'|]. split; [reflexivity|].
      eapply (wsym_perm l it); [apply HI'|]. rewrite Hs. exact Hsy.
    - unfold ss_copy. unfold rebind. unfold bind at 1. cbn [members bind get ret].
      match goal with |- context [fresh ?mk ?s] => fold (@rebind SS V (fresh mk) s); apply (wfresh SCopy s l mk) end; [exact HI|cbn; auto|].
      destruct (wfromset (s_tick s) _ HD) as [(n & l' & E & Hs & HI')|He]; [left|right; exact He].
      exists n, l'. split; [exact E|]. split; [exact HI'|]. split; [reflexivity|].
      destruct HI' as (_ & _ & HP'). rewrite <- HP', Hs. exact HP.
    - unfold ss_reduce, rebind. unfold bind at 1. cbn [members bind get ret]. unfold bind at 1, get, ret.
      rewrite visit_ok. cbn [s_tick].
      set (s1 := mksset (s_set s) (s_list s) (s_tick s + 1)). set (vs := ord (s_tick s) (s_set s)).
      assert (HPv : Permutation vs l) by (unfold vs; rewrite (HO _ _); exact HP).
      match goal with |- context [fresh ?mk s1] => fold (@rebind SS V (fresh mk) s1);
        enough (HH : exists r s', @rebind SS V (fresh mk) s1 = (r, s') /\ went SReduce s1 l r s') by exact HH;
        apply (wfresh SReduce s1 l mk) end; [exact HI|cbn; auto|].
      destruct (wnew (s_tick s1) (Some (ASet vs))) as [(n & l' & E & HI' & _ & Hp & _)|He]; [left|right; exact He].
      exists n, l'. split; [exact E|]. split; [exact HI'|]. split; [reflexivity|].
      rewrite (Hp _ eq_refl); [exact HPv|]. cbn [items]. eapply distinct_perm; [exact HE|symmetry; exact HPv|]. eapply winv_distinct; eauto.
    - cbn. eexists _, s. split; [reflexivity|]. apply (OK _ _ _ HI). split; [reflexivity|].
      intros Hd. apply HA. rewrite (set_cmp_spec eqb HE op (s_set s) other HD Hd).
      pose proof (subset_perm eqb _ _ _ _ HP (Permutation_refl other)) as H1.
      pose proof (subset_perm eqb _ _ _ _ (Permutation_refl other) HP) as H2.
      destruct op; cbn [set_cmp_means]; tauto.
    - cbn. eexists _, s. split; [reflexivity|]. apply (OK _ _ _ HI). split; [reflexivity|].
      apply HA. rewrite (isdisjoint_spec eqb HE). unfold disjoint. split; intros H x; specialize (H x); rewrite HM in *; exact H.
    - cbn. eexists _, s. split; [reflexivity|]. apply (OK _ _ _ HI). split; [reflexivity|].
      destruct (set_of_spec eqb HE (items a)) as (H1 & H2 & _).
      apply HA. rewrite (set_le_spec eqb HE) by exact HD. unfold subset.
      split; intros H x; specialize (H x); rewrite HM, H2 in *; exact H.
    - cbn. eexists _, s. split; [reflexivity|]. apply (OK _ _ _ HI). split; [reflexivity|].
      destruct (set_of_spec eqb HE (items a)) as (H1 & H2 & _).
      apply HA. rewrite (set_le_spec eqb HE) by exact H1. unfold subset.
      split; intros H x; specialize (H x); rewrite HM, H2 in *; exact H.
    - unfold ss_fwd.
      assert (Hc : query f \/ exists n, f = FReset n) by (destruct f; cbn; eauto).
      destruct Hc as [Hq|(n & ->)].
      + destruct (w_fwd _ _ _ _ HK f _ _ HR Hq) as (r & sl & E & HR'). rewrite E. eexists _, _. split; [reflexivity|].
        apply (OK _ _ l); [split; auto|]. destruct f; try contradiction; cbn; auto.
      + destruct (w_reset _ _ _ _ HK n _ _ HR Ho) as [(sl & l' & E & HR' & Hp)|(e & sl & E & Hr & HR')]; rewrite E.
        * eexists _, _. split; [reflexivity|]. apply (OK _ _ l'); [split; [exact HR'|]; split; [exact HD|]; cbn; rewrite Hp; exact HP|]. cbn. auto.
        * eexists _, _. split; [reflexivity|]. apply (NO _ _ []); auto. cbn. auto.
  Qed.
End WildSet.

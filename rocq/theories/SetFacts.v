(** * SortedSet: the hash set and the list stay in step *)
From Coq Require Import Permutation.
From Verif Require Import PyBase Model Spec History BaseFacts SpecFacts SliceFacts Reach ListProps
  ListClass ClassSpec ClassFacts ModelSet SetSpec HashFacts.
Local Unset Implicit Arguments.

Section SetFacts.
  Context {S V K : Type}.
  Variable T : listcls S V K.
  Variables ltb eqb : V -> V -> bool.
  Variable fref : fwd V K -> list V -> out V * list V.
  Variable dflt : nat.
  Variable R : S -> list V -> Prop.
  Variable ld : S -> nat.
  Hypothesis HK : ClsOK T ltb eqb fref dflt R ld.
  Variable ord : nat -> list V -> list V.
  Hypothesis HO : any_order ord.
  Notation mem := (member eqb).
  Notation SS := (sset S V).

  Let HE : Equiv eqb := k_equiv _ _ _ _ _ _ _ HK.
  Let HW : SWO ltb := k_swo _ _ _ _ _ _ _ HK.

  Definition SInv (s : SS) (l : list V) : Prop :=
    R (s_list s) l /\ distinct eqb (s_set s) /\ Permutation (s_set s) l.

  Lemma sinv_sorted s l : SInv s l -> sorted ltb l.
  Proof. intros (H & _). eapply k_sorted; eauto. Qed.
  Lemma sinv_distinct s l : SInv s l -> distinct eqb l.
  Proof. intros (_ & H & HP). eapply distinct_perm; eauto. Qed.
  Lemma sinv_mem s l x : SInv s l -> mem x (s_set s) <-> mem x l.
  Proof. intros (_ & _ & H). apply mem_perm, H. Qed.
  Lemma sinv_In s l x : SInv s l -> In x (s_set s) <-> In x l.
  Proof. intros (_ & _ & H). split; apply Permutation_in; [exact H|symmetry; exact H]. Qed.

  (** ** Single values *)
  Lemma ss_add_ok v s l : SInv s l -> exists s' l',
    ss_add T eqb v s = (Ok tt, s') /\ SInv s' l' /\ s_set s' = set_add eqb v (s_set s) /\
    ld (s_list s') = ld (s_list s) /\
    ((mem v l /\ l' = l /\ s' = s) \/ (~ mem v l /\ exists a b, l = a ++ b /\ l' = a ++ v :: b)).
  Proof.
    intros HI. pose proof (sinv_mem s l v HI) as HM. pose proof (sinv_sorted s l HI) as HS.
    destruct HI as (HR & HD & HP).
    unfold ss_add, members, bind, get, ret. destruct (set_mem eqb v (s_set s)) eqn:E.
    - exists s, l. unfold set_add. rewrite E. split; [reflexivity|]. split; [split; auto|].
      split; [reflexivity|]. split; [reflexivity|]. left. split; [|auto]. apply HM, set_mem_iff, E.
    - unfold put_set, modify, onlist, zoom. cbn [s_list s_set s_tick].
      destruct (k_add _ _ _ _ _ _ _ HK v _ _ HR) as (sl & El & HR' & Hl). rewrite El.
      eexists _, (sp_add ltb v l). split; [reflexivity|]. cbn. apply (set_mem_false eqb) in E.
      split; [|split; [reflexivity|split; [exact Hl|]]].
      + split; [exact HR'|]. cbn. split; [apply set_add_distinct; auto|].
        unfold set_add. replace (set_mem eqb v (s_set s)) with false by (symmetry; apply set_mem_false, E).
        rewrite sp_add_perm by auto. rewrite Permutation_app_comm. cbn. constructor. exact HP.
      + right. split; [rewrite <- HM; exact E|].
        destruct (sp_add_cases ltb HW v l HS) as (a & b & -> & -> & _). exists a, b. auto.
  Qed.

  Lemma set_remove_ok v (s : SS) : mem v (s_set s) ->
    set_remove eqb v s = (Ok tt, mksset (set_del eqb v (s_set s)) (s_list s) (s_tick s)).
  Proof.
    intros H. unfold set_remove, members, bind, get, ret. apply (set_mem_iff eqb) in H.
    rewrite H. reflexivity.
  Qed.

  Lemma take_out s l v a x b : SInv s l -> l = a ++ x :: b -> eqb x v = true ->
    distinct eqb (set_del eqb v (s_set s)) /\ Permutation (set_del eqb v (s_set s)) (a ++ b).
  Proof.
    intros HI -> E. pose proof (sinv_distinct _ _ HI) as HD. destruct HI as (_ & HD' & HP).
    split; [apply set_del_distinct, HD'|].
    rewrite (set_del_perm eqb v _ _ HP), (set_del_mid eqb HE _ _ _ _ HD E). reflexivity.
  Qed.

  Lemma ss_discard_ok v s l : SInv s l -> exists s' l',
    ss_discard T eqb v s = (Ok tt, s') /\ SInv s' l' /\ s_set s' = set_del eqb v (s_set s) /\
    ld (s_list s') = ld (s_list s) /\
    ((~ mem v l /\ l' = l /\ s' = s) \/ exists a x b, l = a ++ x :: b /\ eqb x v = true /\ l' = a ++ b).
  Proof.
    intros HI. pose proof (sinv_mem s l v HI) as HM.
    unfold ss_discard, members, bind, get, ret. destruct (set_mem eqb v (s_set s)) eqn:E.
    - apply (set_mem_iff eqb) in E. rewrite set_remove_ok by exact E. unfold onlist, zoom. cbn [s_list s_set s_tick].
      pose proof HI as (HR & _). destruct (k_remove _ _ _ _ _ _ _ HK v _ _ HR) as (sl & El & HR' & Hl). rewrite El.
      apply HM in E. unfold sp_remove in *.
      destruct (sp_discard_cases eqb v l) as [(a & x & b & Hl0 & Ex & _ & Ed & Ec)|(Hn & _ & _)].
      + rewrite Ec in *. cbn in *. rewrite Ed in *. destruct (take_out s l v a x b HI Hl0 Ex) as [H1 H2].
        eexists _, (a ++ b). split; [reflexivity|]. cbn. split; [split; auto|]. split; [reflexivity|].
        split; [exact Hl|]. right. exists a, x, b. auto.
      + destruct E as (y & Hy & Ey). rewrite Hn in Ey by exact Hy. discriminate.
    - apply (set_mem_false eqb) in E. exists s, l. split; [reflexivity|]. split; [exact HI|].
      split; [symmetry; apply set_del_absent, E|]. split; [reflexivity|]. left. rewrite <- HM. auto.
  Qed.

  Lemma ss_remove_ok v s l : SInv s l ->
    (mem v l /\ ss_remove T eqb v s = ss_discard T eqb v s) \/
    (~ mem v l /\ ss_remove T eqb v s = (Err KeyError, s)).
  Proof.
    intros HI. pose proof (sinv_mem s l v HI) as HM.
    unfold ss_remove, ss_discard, members, bind, get, ret. destruct (set_mem eqb v (s_set s)) eqn:E.
    - left. split; [|reflexivity]. apply HM, set_mem_iff, E.
    - right. split; [rewrite <- HM; apply set_mem_false, E|].
      unfold set_remove, members, bind, get, ret. rewrite E. reflexivity.
  Qed.

  Lemma ss_pop_ok i s l : SInv s l ->
    (out_of_range i l /\ exists s', ss_pop T eqb i s = (Err IndexError, s') /\ SInv s' l /\ ld (s_list s') = ld (s_list s)) \/
    (exists a x b s', at_pos i l a x b /\ ss_pop T eqb i s = (Ok x, s') /\ SInv s' (a ++ b) /\
       ld (s_list s') = ld (s_list s)).
  Proof.
    intros HI. pose proof HI as (HR & HD & HP). unfold ss_pop, bind, onlist, zoom.
    destruct (k_pop _ _ _ _ _ _ _ HK i _ _ HR) as (sl & El & HR' & Hl). rewrite El. unfold sp_pop in *.
    destruct (sp_del_cases l i) as [(a & x & b & Hl0 & Hp & Ed & Eg)|(Hn & Ed & Eg)];
      rewrite Ed, Eg in *; cbn [fst snd] in *.
    - right. exists a, x, b. rewrite set_remove_ok.
      2:{ cbn. apply (sinv_mem s l x HI). apply mem_In; [exact HE|]. rewrite Hl0. apply in_elt. }
      destruct (take_out s l x a x b HI Hl0 (eqb_refl eqb HE x)) as [H1 H2].
      eexists. split; [split; assumption|]. split; [reflexivity|]. cbn. split; [split; auto|exact Hl].
    - left. split; [exact Hn|]. eexists. split; [reflexivity|]. split; [split; auto|exact Hl].
  Qed.

  Lemma ss_clear_ok s l : SInv s l -> exists s',
    ss_clear T s = (Ok tt, s') /\ SInv s' [] /\ ld (s_list s') = ld (s_list s).
  Proof.
    intros (HR & _). unfold ss_clear, bind, put_set, modify, onlist, zoom. cbn [s_list s_set s_tick].
    destruct (k_clear _ _ _ _ _ _ _ HK _ _ HR) as (sl & El & HR' & Hl). rewrite El.
    eexists. split; [reflexivity|]. split; [|exact Hl]. split; [exact HR'|]. cbn. split; [exact I|constructor].
  Qed.

  (** ** Positions *)
  Lemma ss_get_ok i s l : SInv s l -> exists s',
    ss_get T i s = (getz l i, s') /\ SInv s' l /\ s_set s' = s_set s /\ ld (s_list s') = ld (s_list s).
  Proof.
    intros (HR & HD & HP). unfold ss_get, onlist, zoom.
    destruct (k_get _ _ _ _ _ _ _ HK i _ _ HR) as (sl & El & HR' & Hl). rewrite El.
    eexists. split; [reflexivity|]. split; [split; auto|]. split; [reflexivity|exact Hl].
  Qed.
  Lemma ss_slice_ok sl s l : SInv s l -> exists s',
    ss_slice T sl s = (sp_slice sl l, s') /\ SInv s' l /\ s_set s' = s_set s /\ ld (s_list s') = ld (s_list s).
  Proof.
    intros (HR & HD & HP). unfold ss_slice, onlist, zoom.
    destruct (k_slice _ _ _ _ _ _ _ HK sl _ _ HR) as (x & El & HR' & Hl). rewrite El.
    eexists. split; [reflexivity|]. split; [split; auto|]. split; [reflexivity|exact Hl].
  Qed.
  Lemma ss_iter_ok s l : SInv s l -> ss_iter T s = (Ok l, s).
  Proof.
    intros (HR & _). unfold ss_iter, onlist, zoom. rewrite (k_iter _ _ _ _ _ _ _ HK _ _ HR).
    destruct s; reflexivity.
  Qed.
  Lemma ss_reversed_ok s l : SInv s l -> ss_reversed T s = (Ok (rev l), s).
  Proof.
    intros (HR & _). unfold ss_reversed, onlist, zoom. rewrite (k_reversed _ _ _ _ _ _ _ HK _ _ HR).
    destruct s; reflexivity.
  Qed.
  Lemma ss_del_ok i s l : SInv s l ->
    (out_of_range i l /\ exists s', ss_del T eqb i s = (Err IndexError, s') /\ SInv s' l /\ ld (s_list s') = ld (s_list s)) \/
    (exists a x b s', at_pos i l a x b /\ ss_del T eqb i s = (Ok tt, s') /\ SInv s' (a ++ b) /\
       ld (s_list s') = ld (s_list s)).
  Proof.
    intros HI. pose proof HI as (HR & HD & HP). unfold ss_del, bind, onlist, zoom.
    destruct (k_get _ _ _ _ _ _ _ HK i _ _ HR) as (sl & El & HR1 & Hl). rewrite El.
    destruct (sp_del_cases l i) as [(a & x & b & Hl0 & Hp & Ed & Eg)|(Hn & Ed & Eg)]; rewrite Eg.
    - right. exists a, x, b. rewrite set_remove_ok.
      2:{ cbn. apply (sinv_mem s l x HI). apply mem_In; [exact HE|]. rewrite Hl0. apply in_elt. }
      cbn [s_list s_set s_tick]. destruct (k_del _ _ _ _ _ _ _ HK i _ _ HR1) as (sl2 & El2 & HR2 & Hl2).
      rewrite El2. rewrite Ed in *. cbn [upd fst snd] in *.
      destruct (take_out s l x a x b HI Hl0 (eqb_refl eqb HE x)) as [H1 H2].
      eexists. split; [split; assumption|]. split; [reflexivity|]. cbn. split; [split; auto|congruence].
    - left. split; [exact Hn|]. eexists. split; [reflexivity|]. split; [split; auto|exact Hl].
  Qed.
  Lemma ss_del_slice_ok sl s l : SInv s l ->
    (s_step sl = Some 0%Z /\ exists s', ss_del_slice T eqb sl s = (Err ValueError, s') /\ SInv s' l /\ ld (s_list s') = ld (s_list s)) \/
    (s_step sl <> Some 0%Z /\ exists l' s', ss_del_slice T eqb sl s = (Ok tt, s') /\ slice_deleted sl l l' /\ SInv s' l' /\
       ld (s_list s') = ld (s_list s)).
  Proof.
    intros HI. pose proof HI as (HR & HD & HP). pose proof (sinv_distinct _ _ HI) as HDl.
    unfold ss_del_slice, members, put_set, modify, get, ret, bind, onlist, zoom.
    destruct (k_slice _ _ _ _ _ _ _ HK sl _ _ HR) as (x & El & HR1 & Hl). rewrite El.
    destruct (slice_indices_cases sl (length l)) as [[Ei Hs]|(Hs & st & sp & step & Ei)].
    - left. unfold sp_slice. rewrite Ei. cbn. split; [exact Hs|]. eexists. split; [reflexivity|].
      split; [split; auto|exact Hl].
    - right. split; [exact Hs|]. destruct (sp_slice_is sl l Hs) as (vs & Ev & _). rewrite Ev.
      destruct (sp_del_slice_is sl l Hs) as (l' & Ed & Hd).
      destruct (slice_diff eqb HE sl l vs HDl Ev) as (l2 & Ed2 & Hdiff).
      cbn [s_list s_set s_tick].
      destruct (k_del_slice _ _ _ _ _ _ _ HK sl _ _ HR1) as (sl2 & El2 & HR2 & Hl2).
      rewrite El2. rewrite Ed in *. cbn [upd fst snd] in *. injection Ed2 as <-.
      eexists l', _. split; [reflexivity|]. split; [exact Hd|]. cbn. split; [|congruence].
      split; [exact HR2|]. cbn. split; [apply set_diff_distinct; auto|].
      rewrite (set_diff_perm eqb HE vs _ _ HP), Hdiff. reflexivity.
  Qed.

  (** ** Rebuilding the list *)
  Lemma relist_ok s l0 : R (s_list s) l0 -> distinct eqb (s_set s) -> exists s' l',
    relist T ord s = (Ok tt, s') /\ s_set s' = s_set s /\ SInv s' l' /\ ld (s_list s') = ld (s_list s).
  Proof.
    intros HR HD. unfold relist, members, visit, modify, get, ret, bind, onlist, zoom.
    destruct (k_clear _ _ _ _ _ _ _ HK _ _ HR) as (s1 & E1 & HR1 & L1). rewrite E1. cbn [s_list s_set s_tick].
    destruct (k_update _ _ _ _ _ _ _ HK (ord (s_tick s) (s_set s)) _ _ HR1) as (s2 & E2 & HR2 & L2).
    rewrite E2. eexists _, _. split; [reflexivity|]. cbn. split; [reflexivity|]. split; [|congruence].
    split; [exact HR2|]. split; [exact HD|]. cbn [s_set].
    rewrite (sp_sort_perm ltb HW). cbn [app]. rewrite (HO _ _). reflexivity.
  Qed.

  Lemma rebuild_ok s l x : SInv s l -> distinct eqb x -> exists s' l',
    (put_set x ;;; relist T ord) s = (Ok tt, s') /\ s_set s' = x /\ SInv s' l' /\ ld (s_list s') = ld (s_list s).
  Proof.
    intros (HR & _) HD. unfold bind at 1. cbn [put_set modify].
    destruct (relist_ok (mksset x (s_list s) (s_tick s)) l HR HD) as (s' & l' & E & H1 & H2 & H3).
    exists s', l'. auto.
  Qed.

  Lemma add_all vs : forall s l, SInv s l -> exists s' l',
    forM (ss_add T eqb) vs s = (Ok tt, s') /\ s_set s' = set_union eqb (s_set s) vs /\ SInv s' l' /\
    ld (s_list s') = ld (s_list s).
  Proof.
    induction vs as [|v vs IH]; intros s l HI.
    - exists s, l. repeat split; auto; apply HI.
    - cbn [forM]. unfold bind at 1. destruct (ss_add_ok v s l HI) as (s1 & l1 & E & HI1 & Hs & Hl & _).
      rewrite E. destruct (IH s1 l1 HI1) as (s2 & l2 & E2 & Hs2 & HI2 & Hl2).
      exists s2, l2. split; [exact E2|]. split; [|split; [exact HI2|congruence]].
      rewrite Hs2, Hs. reflexivity.
  Qed.
  Lemma discard_all vs : forall s l, SInv s l -> exists s' l',
    forM (ss_discard T eqb) vs s = (Ok tt, s') /\ s_set s' = set_diff eqb (s_set s) vs /\ SInv s' l' /\
    ld (s_list s') = ld (s_list s).
  Proof.
    induction vs as [|v vs IH]; intros s l HI.
    - exists s, l. repeat split; auto; apply HI.
    - cbn [forM]. unfold bind at 1. destruct (ss_discard_ok v s l HI) as (s1 & l1 & E & HI1 & Hs & Hl & _).
      rewrite E. destruct (IH s1 l1 HI1) as (s2 & l2 & E2 & Hs2 & HI2 & Hl2).
      exists s2, l2. split; [exact E2|]. split; [|split; [exact HI2|congruence]].
      rewrite Hs2, Hs. reflexivity.
  Qed.

  Lemma visit_ok x s : visit (S:=S) ord x s = (Ok (ord (s_tick s) x), mksset (s_set s) (s_list s) (s_tick s + 1)).
  Proof. reflexivity. Qed.
  Lemma sinv_tick s l t : SInv s l -> SInv (mksset (s_set s) (s_list s) t) l.
  Proof. intros H. exact H. Qed.

  (** What the members become, seen from the lists. *)
  Definition union_of (l : list V) (its : list (arg (V:=V))) (l' : list V) : Prop :=
    (forall x, mem x l' <-> mem x l \/ in_any eqb x its) /\
    (forall x, In x l -> In x l') /\
    (forall x, In x l' -> In x l \/ exists a, In a its /\ In x (items a)).

  Lemma union_lists s l s' l' its vs : SInv s l -> SInv s' l' ->
    (forall x, mem x vs <-> mem x (concat (map (@items V) its))) ->
    (forall x, In x vs -> In x (concat (map (@items V) its))) ->
    s_set s' = set_union eqb (s_set s) vs -> union_of l its l'.
  Proof.
    intros HI HI' Hm Hi Hs. pose proof HI as (_ & HD & _).
    destruct (set_union_spec eqb HE vs (s_set s) HD) as (_ & H2 & H3 & H4). rewrite <- Hs in H2, H3, H4.
    split; [|split].
    - intros x. rewrite <- (sinv_mem _ _ x HI'), H2, (sinv_mem _ _ x HI), Hm, in_any_concat by exact HE. reflexivity.
    - intros x Hx. apply (sinv_In _ _ x HI'), H3, (sinv_In _ _ x HI), Hx.
    - intros x Hx. apply (sinv_In _ _ x HI') in Hx. apply H4 in Hx as [Hx|Hx].
      + left. apply (sinv_In _ _ x HI), Hx.
      + right. apply Hi in Hx. apply In_concat_items in Hx. exact Hx.
  Qed.

  Lemma ss_update_ok its s l : SInv s l -> exists s' l',
    ss_update T eqb ord its s = (Ok tt, s') /\ SInv s' l' /\ union_of l its l' /\
    ld (s_list s') = ld (s_list s).
  Proof.
    intros HI. unfold ss_update. unfold bind at 1. cbn [members bind get ret].
    set (vals := set_of eqb (concat (map (@items V) its))).
    destruct (set_of_spec eqb HE (concat (map (@items V) its))) as (Hd & Hm & Hi). fold vals in Hd, Hm, Hi.
    unfold bind at 1, get, ret. destruct (_ <? _).
    - destruct (rebuild_ok s l (set_union eqb (s_set s) vals) HI) as (s' & l' & E & Hs & HI' & Hl).
      { apply set_union_spec; [exact HE|apply HI]. }
      exists s', l'. split; [exact E|]. split; [exact HI'|]. split; [|exact Hl].
      eapply union_lists; eauto.
    - unfold bind at 1. rewrite visit_ok.
      destruct (add_all (ord (s_tick s) vals) _ l (sinv_tick s l (s_tick s + 1) HI)) as (s' & l' & E & Hs & HI' & Hl).
      exists s', l'. split; [exact E|]. split; [exact HI'|]. split; [|exact Hl].
      eapply (union_lists s l s' l' its); [exact HI|exact HI'| | |exact Hs].
      + intros x. rewrite <- Hm. apply mem_perm, HO.
      + intros x Hx. apply Hi. eapply Permutation_in; [apply HO|exact Hx].
  Qed.

  Definition diff_of (l : list V) (its : list (arg (V:=V))) (l' : list V) : Prop :=
    forall x, In x l' <-> In x l /\ ~ in_any eqb x its.

  Lemma ss_difference_update_ok its s l : SInv s l -> exists s' l',
    ss_difference_update T eqb ord its s = (Ok tt, s') /\ SInv s' l' /\ diff_of l its l' /\
    ld (s_list s') = ld (s_list s).
  Proof.
    intros HI. pose proof HI as (_ & HD & _). unfold ss_difference_update. unfold bind at 1. cbn [members bind get ret].
    set (vals := set_of eqb (concat (map (@items V) its))).
    destruct (set_of_spec eqb HE (concat (map (@items V) its))) as (Hd & Hm & Hi). fold vals in Hd, Hm, Hi.
    assert (HF : forall s' l' vs, SInv s' l' -> (forall x, mem x vs <-> mem x vals) ->
              s_set s' = set_diff eqb (s_set s) vs -> diff_of l its l').
    { intros s' l' vs HI' Hv Hs x.
      rewrite <- (sinv_In _ _ x HI'), Hs, set_diff_In, (sinv_In _ _ x HI), Hv, Hm, in_any_concat by exact HE. reflexivity. }
    unfold bind at 1, get, ret. destruct (_ <? _).
    - destruct (rebuild_ok s l (set_diff eqb (s_set s) vals) HI) as (s' & l' & E & Hs & HI' & Hl).
      { apply set_diff_distinct; auto. }
      exists s', l'. split; [exact E|]. split; [exact HI'|]. split; [|exact Hl].
      eapply HF; eauto. reflexivity.
    - unfold bind at 1. rewrite visit_ok.
      destruct (discard_all (ord (s_tick s) vals) _ l (sinv_tick s l (s_tick s + 1) HI)) as (s' & l' & E & Hs & HI' & Hl).
      exists s', l'. split; [exact E|]. split; [exact HI'|]. split; [|exact Hl].
      eapply HF; [exact HI'| |exact Hs]. intros x. apply mem_perm, HO.
  Qed.

  Definition inter_of (l : list V) (its : list (arg (V:=V))) (l' : list V) : Prop :=
    (forall x, mem x l' <-> mem x l /\ forall a, In a its -> mem x (items a)) /\
    (forall x, In x l' -> In x l \/ exists a, In a its /\ In x (items a)).
  Lemma inter_lists s l s' l' its : SInv s l -> SInv s' l' ->
    s_set s' = fold_left (set_inter eqb) its (s_set s) -> inter_of l its l'.
  Proof.
    intros HI HI' Hs. pose proof HI as (_ & HD & _).
    destruct (fold_inter eqb HE its (s_set s) HD) as (_ & H2 & H3). rewrite <- Hs in H2, H3. split.
    - intros x. rewrite <- (sinv_mem _ _ x HI'), H2, (sinv_mem _ _ x HI). reflexivity.
    - intros x Hx. apply (sinv_In _ _ x HI') in Hx. apply H3 in Hx as [Hx|Hx]; [|auto].
      left. apply (sinv_In _ _ x HI), Hx.
  Qed.
  Lemma ss_intersection_update_ok its s l : SInv s l -> exists s' l',
    ss_intersection_update T eqb ord its s = (Ok tt, s') /\ SInv s' l' /\ inter_of l its l' /\
    ld (s_list s') = ld (s_list s).
  Proof.
    intros HI. pose proof HI as (_ & HD & _). unfold ss_intersection_update.
    unfold bind at 1. cbn [members bind get ret]. unfold bind at 1, get, ret.
    destruct (rebuild_ok s l (fold_left (set_inter eqb) its (s_set s)) HI) as (s' & l' & E & Hs & HI' & Hl).
    { apply fold_inter; auto. }
    exists s', l'. split; [exact E|]. split; [exact HI'|]. split; [|exact Hl]. eapply inter_lists; eauto.
  Qed.

  Definition sym_of (l : list V) (it : arg (V:=V)) (l' : list V) : Prop :=
    (forall x, mem x l' <-> (mem x l /\ ~ mem x (items it)) \/ (~ mem x l /\ mem x (items it))) /\
    (forall x, In x l' -> In x l \/ In x (items it)).
  Lemma sym_lists s l s' l' it : SInv s l -> SInv s' l' ->
    s_set s' = set_sym eqb (s_set s) (items it) \/ s_set s' = set_sym_new eqb (s_set s) (items it) ->
    sym_of l it l'.
  Proof.
    intros HI HI' Hs. pose proof HI as (_ & HD & _).
    assert (HF : (forall x, mem x (s_set s') <-> (mem x (s_set s) /\ ~ mem x (items it)) \/ (~ mem x (s_set s) /\ mem x (items it))) /\
                 (forall x, In x (s_set s') -> In x (s_set s) \/ In x (items it))).
    { destruct Hs as [->| ->]; [apply set_sym_spec|apply set_sym_new_spec]; auto. }
    destruct HF as [H2 H3]. split.
    - intros x. rewrite <- (sinv_mem _ _ x HI'), H2, (sinv_mem _ _ x HI). reflexivity.
    - intros x Hx. apply (sinv_In _ _ x HI') in Hx. apply H3 in Hx as [Hx|Hx]; [|auto].
      left. apply (sinv_In _ _ x HI), Hx.
  Qed.
  Lemma ss_symmetric_difference_update_ok it s l : SInv s l -> exists s' l',
    ss_symmetric_difference_update T eqb ord it s = (Ok tt, s') /\ SInv s' l' /\ sym_of l it l' /\
    ld (s_list s') = ld (s_list s).
  Proof.
    intros HI. pose proof HI as (_ & HD & _). unfold ss_symmetric_difference_update.
    unfold bind at 1. cbn [members bind get ret]. unfold bind at 1, get, ret.
    destruct (rebuild_ok s l (set_sym eqb (s_set s) (items it)) HI) as (s' & l' & E & Hs & HI' & Hl).
    { apply set_sym_spec; auto. }
    exists s', l'. split; [exact E|]. split; [exact HI'|]. split; [|exact Hl]. eapply sym_lists; eauto.
  Qed.

  (** ** New objects *)
  Lemma ss_fromset_ok t x : distinct eqb x -> exists s' l',
    ss_fromset T ord t x = Ok s' /\ s_set s' = x /\ SInv s' l' /\ ld (s_list s') = dflt.
  Proof.
    intros HD. unfold ss_fromset. destruct (k_new _ _ _ _ _ _ _ HK (ord t x)) as (sl & E & HR & Hl). rewrite E.
    eexists _, _. split; [reflexivity|]. split; [reflexivity|]. cbn. split; [|exact Hl].
    split; [exact HR|]. split; [exact HD|]. cbn [s_set]. rewrite (sp_sort_perm ltb HW), (HO _ _). reflexivity.
  Qed.
  Lemma ss_new_ok t it : exists s' l', ss_new T eqb ord t it = Ok s' /\ SInv s' l' /\
    union_of [] (match it with Some a => [a] | None => [] end) l' /\ ld (s_list s') = dflt.
  Proof.
    unfold ss_new. destruct (ss_fromset_ok t [] I) as (s0 & l0 & E & Hs & HI & Hl). rewrite E. cbn [rbind].
    assert (l0 = []) as ->. { destruct HI as (_ & _ & HP). rewrite Hs in HP. apply Permutation_nil, HP. }
    destruct it as [a|].
    - destruct (ss_update_ok [a] s0 [] HI) as (s1 & l1 & E1 & HI1 & Hu & Hl1). rewrite E1.
      exists s1, l1. split; [reflexivity|]. split; [exact HI1|]. split; [exact Hu|congruence].
    - exists s0, []. split; [reflexivity|]. split; [exact HI|]. split; [|exact Hl].
      split; [|split]; [|intros x []|intros x []].
      intros x. split; [auto|]. intros [H|(a & [] & _)]. exact H.
  Qed.

  Lemma ss_copy_ok s l : SInv s l -> exists n l', ss_copy T ord s = (Ok n, s) /\ SInv n l' /\
    Permutation l' l /\ ld (s_list n) = dflt.
  Proof.
    intros (HR & HD & HP). unfold ss_copy, fresh, members, bind, get, ret, liftr.
    destruct (ss_fromset_ok (s_tick s) (s_set s) HD) as (n & l' & E & Hs & HI & Hl). rewrite E.
    exists n, l'. split; [reflexivity|]. split; [exact HI|]. split; [|exact Hl].
    destruct HI as (_ & _ & HP'). rewrite <- HP', Hs. exact HP.
  Qed.
  Lemma ss_difference_ok its s l : SInv s l -> exists n l', ss_difference T eqb ord its s = (Ok n, s) /\ SInv n l' /\
    diff_of l its l' /\ ld (s_list n) = dflt.
  Proof.
    intros HI. pose proof HI as (HR & HD & HP). unfold ss_difference, fresh, members, bind, get, ret, liftr.
    destruct (fold_diff eqb HE its (s_set s)) as [HF HF'].
    destruct (ss_fromset_ok (s_tick s) _ (HF' HD)) as (n & l' & E & Hs & HI' & Hl). rewrite E.
    exists n, l'. split; [reflexivity|]. split; [exact HI'|]. split; [|exact Hl].
    intros x. rewrite <- (sinv_In _ _ x HI'), Hs, HF, (sinv_In _ _ x HI). reflexivity.
  Qed.
  Lemma ss_intersection_ok its s l : SInv s l -> exists n l', ss_intersection T eqb ord its s = (Ok n, s) /\ SInv n l' /\
    inter_of l its l' /\ ld (s_list n) = dflt.
  Proof.
    intros HI. pose proof HI as (HR & HD & HP). unfold ss_intersection, fresh, members, bind, get, ret, liftr.
    destruct (ss_fromset_ok (s_tick s) (fold_left (set_inter eqb) its (s_set s))) as (n & l' & E & Hs & HI' & Hl).
    { apply fold_inter; auto. }
    rewrite E. exists n, l'. split; [reflexivity|]. split; [exact HI'|]. split; [|exact Hl]. eapply inter_lists; eauto.
  Qed.
  Lemma ss_symmetric_difference_ok it s l : SInv s l -> exists n l',
    ss_symmetric_difference T eqb ord it s = (Ok n, s) /\ SInv n l' /\ sym_of l it l' /\ ld (s_list n) = dflt.
  Proof.
    intros HI. pose proof HI as (HR & HD & HP). unfold ss_symmetric_difference, fresh, members, bind, get, ret, liftr.
    destruct (ss_fromset_ok (s_tick s) (set_sym_new eqb (s_set s) (items it))) as (n & l' & E & Hs & HI' & Hl).
    { apply set_sym_new_spec; auto. }
    rewrite E. exists n, l'. split; [reflexivity|]. split; [exact HI'|]. split; [|exact Hl]. eapply sym_lists; eauto.
  Qed.
  (** The members of [l] come first, so they are the ones kept. *)
  Lemma distinct_prefix_kept l m : distinct eqb l -> forall x, In x l -> In x (set_of eqb (l ++ m)).
  Proof.
    intros HD x Hx. unfold set_of, set_union. rewrite fold_left_app.
    change (fold_left (fun s x => set_add eqb x s) l []) with (set_of eqb l).
    rewrite set_of_distinct by auto. apply set_union_spec; auto.
  Qed.
  Lemma ss_union_ok its s l : SInv s l -> exists n l', ss_union T eqb ord its s = (Ok n, s) /\ SInv n l' /\
    union_of l its l' /\ ld (s_list n) = dflt.
  Proof.
    intros HI. pose proof (sinv_distinct _ _ HI) as HDl.
    unfold ss_union. unfold bind at 1. fold (ss_iter T). rewrite (ss_iter_ok s l HI).
    unfold fresh, bind, get, liftr.
    set (m := concat (map (@items V) its)).
    unfold ss_new. destruct (ss_fromset_ok (s_tick s) [] I) as (s0 & l0 & E & Hs & HI0 & Hl). rewrite E. cbn [rbind].
    assert (l0 = []) as ->. { destruct HI0 as (_ & _ & HP). rewrite Hs in HP. apply Permutation_nil, HP. }
    (* the bulk path is taken unless both sides are empty *)
    unfold ss_update. unfold bind at 1. cbn [members bind get ret]. unfold bind at 1, get, ret. rewrite Hs.
    cbn [map items concat]. rewrite app_nil_r. set (vals := set_of eqb (l ++ m)).
    destruct (set_of_spec eqb HE (l ++ m)) as (Hd & Hm & Hi). fold vals in Hd, Hm, Hi.
    assert (HF : forall n l', SInv n l' -> s_set n = vals -> union_of l its l').
    { intros n l' HI' Hn. split; [|split].
      - intros x. rewrite <- (sinv_mem _ _ x HI'), Hn, Hm, mem_app, <- (in_any_concat eqb x its). reflexivity.
      - intros x Hx. apply (sinv_In _ _ x HI'). rewrite Hn. apply distinct_prefix_kept; assumption.
      - intros x Hx. apply (sinv_In _ _ x HI') in Hx. rewrite Hn in Hx. apply Hi, in_app_iff in Hx as [Hx|Hx]; [auto|].
        right. apply In_concat_items, Hx. }
    destruct (_ <? _) eqn:El.
    - destruct (rebuild_ok s0 [] (set_union eqb [] vals) HI0) as (s1 & l1 & E1 & Hs1 & HI1 & Hl1).
      { apply set_union_spec; [exact HE|exact I]. }
      unfold bind in E1. rewrite E1. exists s1, l1. split; [reflexivity|]. split; [exact HI1|]. split; [|congruence].
      apply (HF s1 l1 HI1). rewrite Hs1. change (set_union eqb [] vals) with (set_of eqb vals). apply set_of_distinct; auto.
    - apply Nat.ltb_ge in El. cbn [length] in El. assert (Hv : vals = []) by (destruct vals; [reflexivity|cbn in El; lia]).
      unfold bind at 1. rewrite visit_ok.
      assert (Ho : ord (s_tick s0) vals = []).
      { rewrite Hv. apply Permutation_nil. symmetry. apply HO. }
      rewrite Ho. cbn [forM ret]. eexists _, []. split; [reflexivity|]. split; [exact HI0|]. split; [|exact Hl].
      apply (HF _ _ HI0). congruence.
  Qed.
  Lemma ss_reduce_ok s l : SInv s l -> exists n l' s1, ss_reduce T eqb ord s = (Ok n, s1) /\ SInv s1 l /\ SInv n l' /\
    Permutation l' l /\ ld (s_list n) = dflt.
  Proof.
    intros HI. pose proof HI as (HR & HD & HP). unfold ss_reduce. unfold members, bind, get, ret, visit, modify, bind.
    unfold get, ret, fresh, bind, get, liftr.
    set (vs := ord (s_tick s) (s_set s)). assert (HPv : Permutation vs l) by (unfold vs; rewrite (HO _ _); exact HP).
    cbn [s_tick]. destruct (ss_new_ok (s_tick s + 1) (Some (ASet vs))) as (n & l' & E & HI' & Hu & Hl). rewrite E.
    eexists n, l', _. split; [reflexivity|]. split; [exact HI|]. split; [exact HI'|]. split; [|exact Hl].
    destruct Hu as (Hu1 & _ & Hu3).
    pose proof (sinv_distinct _ _ HI') as HD'. pose proof (sinv_distinct _ _ HI) as HDl.
    assert (ND : forall x, distinct eqb x -> NoDup x).
    { induction x as [|y x IH]; intros Hx; constructor; [|apply IH, Hx].
      intros Hy. destruct Hx as [Hx _]. specialize (Hx y Hy). rewrite (eqb_refl eqb HE) in Hx. discriminate. }
    apply NoDup_Permutation; [apply ND, HD'|apply ND, HDl|].
    intros x. split; intros Hx.
    - apply Hu3 in Hx as [[]|(a & [<-|[]] & Hx)]. cbn in Hx. eapply Permutation_in; [exact HPv|exact Hx].
    - assert (Hm : mem x l') by (apply Hu1; right; exists (ASet vs); cbn; split; [auto|];
        apply (mem_perm eqb x _ _ HPv), mem_In; auto).
      destruct Hm as (y & Hy & Ey). pose proof Hy as Hy'. apply Hu3 in Hy' as [[]|(a & [<-|[]] & Hy')]. cbn in Hy'.
      eapply Permutation_in in Hy'; [|exact HPv].
      apply In_nth_error in Hy' as [i Hi]. apply In_nth_error in Hx as [j Hj].
      pose proof (distinct_nth eqb HE l i j y x HDl Hi Hj Ey) as ->. rewrite Hi in Hj. injection Hj as ->. exact Hy.
  Qed.

  (** ** Self check *)
  Lemma ss_check_ok s l : SInv s l -> 4 <= ld (s_list s) -> ss_check T eqb s = (Ok tt, s).
  Proof.
    intros HI Hl. pose proof HI as (HR & HD & HP). unfold ss_check, bind, get, liftr.
    rewrite (k_check _ _ _ _ _ _ _ HK _ _ HR Hl). unfold onlist, zoom.
    rewrite (k_len _ _ _ _ _ _ _ HK _ _ HR). cbn [s_set s_list s_tick].
    rewrite (Permutation_length HP), Nat.eqb_refl. cbn [assertR rbind].
    rewrite (k_iter _ _ _ _ _ _ _ HK _ _ HR).
    replace (forallb _ l) with true; [destruct s; reflexivity|].
    symmetry. apply forallb_forall. intros x Hx. apply set_mem_iff, (sinv_mem _ _ x HI), mem_In; auto.
  Qed.

  (** ** One step of a history *)
  Definition load_kept (o : sop V K) (s s' : SS) : Prop :=
    ld (s_list s') = ld (s_list s) \/ ld (s_list s') = dflt \/
    exists n, o = SFwd (FReset n) /\ ld (s_list s') = n.

  Lemma ss_step_ok o s l : SInv s l -> sop_ok o -> exists r s' l',
    ss_step T eqb ord o s = (r, s') /\ set_effect eqb fref o l r l' /\ SInv s' l' /\ load_kept o s s'.
  Proof.
    intros HI Ho. pose proof HI as (HR & HD & HP).
    assert (HM : forall x, mem x (s_set s) <-> mem x l) by (intros; apply sinv_mem, HI).
    assert (HA : forall b P, (b = true <-> P) -> answers (RBool (V:=V) b) P) by (intros b P Hb; exists b; auto).
    destruct o; cbn [ss_step set_effect]; unfold observe, rebind.
    - destruct (ss_add_ok v s l HI) as (s' & l' & E & HI' & _ & Hl & Hc). rewrite E.
      exists RUnit, s', l'. unfold load_kept. intuition auto.
    - destruct (ss_discard_ok v s l HI) as (s' & l' & E & HI' & _ & Hl & Hc). rewrite E.
      exists RUnit, s', l'. unfold load_kept. intuition auto.
    - destruct (ss_remove_ok v s l HI) as [[Hm E]|[Hm E]]; rewrite E.
      + destruct (ss_discard_ok v s l HI) as (s' & l' & E' & HI' & _ & Hl & [Hc|(a & x & b & Hc)]); [tauto|]. rewrite E'.
        exists RUnit, s', l'. unfold load_kept. split; [reflexivity|]. split; [|auto]. right. exists a, x, b. tauto.
      + exists (RExn KeyError), s, l. unfold load_kept. intuition auto.
    - destruct (ss_pop_ok i s l HI) as [(Hn & s' & E & HI' & Hl)|(a & x & b & s' & Hp & E & HI' & Hl)]; rewrite E.
      + exists (RExn IndexError), s', l. unfold load_kept. intuition auto.
      + exists (RVal x), s', (a ++ b). unfold load_kept. split; [reflexivity|]. split; [|auto].
        right. exists a, x, b. auto.
    - destruct (ss_clear_ok s l HI) as (s' & E & HI' & Hl). rewrite E.
      exists RUnit, s', []. unfold load_kept. intuition auto.
    - cbn. exists (RBool (set_mem eqb v (s_set s))), s, l. split; [reflexivity|]. unfold load_kept.
      split; [|auto]. split; [reflexivity|]. apply HA. rewrite set_mem_iff. apply HM.
    - cbn. eexists _, s, l. split; [reflexivity|]. unfold load_kept. split; [|auto]. split; [reflexivity|].
      destruct (set_mem eqb v (s_set s)) eqn:E.
      + left. apply set_mem_iff in E. split; [apply HM, E|reflexivity].
      + right. apply set_mem_false in E. rewrite <- HM. auto.
    - cbn. exists (RNat (length l)), s, l. rewrite (Permutation_length HP). unfold load_kept. auto.
    - rewrite (ss_iter_ok s l HI). exists (RList l), s, l. unfold load_kept. auto.
    - rewrite (ss_reversed_ok s l HI). exists (RList (rev l)), s, l. unfold load_kept. auto.
    - destruct (ss_get_ok i s l HI) as (s' & E & HI' & _ & Hl). rewrite E.
      destruct (sp_del_cases l i) as [(a & x & b & Hl0 & Hp & _ & Eg)|(Hn & _ & Eg)]; rewrite Eg.
      + exists (RVal x), s', l. unfold load_kept. split; [reflexivity|]. split; [|auto]. split; [reflexivity|].
        right. exists a, x, b. split; [split; assumption|reflexivity].
      + exists (RExn IndexError), s', l. unfold load_kept. split; [reflexivity|]. split; [|auto]. split; [reflexivity|]. left. split; [exact Hn|reflexivity].
    - destruct (ss_slice_ok sl s l HI) as (s' & E & HI' & _ & Hl). rewrite E.
      destruct (slice_indices_cases sl (length l)) as [[Ei Hs]|(Hs & _)].
      + unfold sp_slice. rewrite Ei. cbn. exists (RExn ValueError), s', l. unfold load_kept. intuition auto.
      + destruct (sp_slice_is sl l Hs) as (vs & Ev & Hv). rewrite Ev. exists (RList vs), s', l.
        unfold load_kept. split; [reflexivity|]. split; [|auto]. split; [reflexivity|]. right. split; [exact Hs|]. exists vs. auto.
    - destruct (ss_del_ok i s l HI) as [(Hn & s' & E & HI' & Hl)|(a & x & b & s' & Hp & E & HI' & Hl)]; rewrite E.
      + exists (RExn IndexError), s', l. unfold load_kept. intuition auto.
      + exists RUnit, s', (a ++ b). unfold load_kept. split; [reflexivity|]. split; [|auto].
        right. exists a, x, b. auto.
    - destruct (ss_del_slice_ok sl s l HI) as [(Hn & s' & E & HI' & Hl)|(Hn & l' & s' & E & Hd & HI' & Hl)]; rewrite E.
      + exists (RExn ValueError), s', l. unfold load_kept. intuition auto.
      + exists RUnit, s', l'. unfold load_kept. split; [reflexivity|]. split; [|auto]. right. auto.
    - destruct (ss_update_ok its s l HI) as (s' & l' & E & HI' & Hu & Hl). rewrite E.
      exists RUnit, s', l'. unfold load_kept. split; [reflexivity|]. split; [split; [reflexivity|exact Hu]|auto].
    - destruct (ss_difference_update_ok its s l HI) as (s' & l' & E & HI' & Hu & Hl). rewrite E.
      exists RUnit, s', l'. unfold load_kept. split; [reflexivity|]. split; [split; [reflexivity|exact Hu]|auto].
    - destruct (ss_intersection_update_ok its s l HI) as (s' & l' & E & HI' & Hu & Hl). rewrite E.
      exists RUnit, s', l'. unfold load_kept. split; [reflexivity|]. split; [split; [reflexivity|exact Hu]|auto].
    - destruct (ss_symmetric_difference_update_ok it s l HI) as (s' & l' & E & HI' & Hu & Hl). rewrite E.
      exists RUnit, s', l'. unfold load_kept. split; [reflexivity|]. split; [split; [reflexivity|exact Hu]|auto].
    - destruct (ss_union_ok its s l HI) as (n & l' & E & HI' & Hu & Hl). rewrite E.
      exists RUnit, n, l'. unfold load_kept. split; [reflexivity|]. split; [split; [reflexivity|exact Hu]|auto].
    - destruct (ss_difference_ok its s l HI) as (n & l' & E & HI' & Hu & Hl). rewrite E.
      exists RUnit, n, l'. unfold load_kept. split; [reflexivity|]. split; [split; [reflexivity|exact Hu]|auto].
    - destruct (ss_intersection_ok its s l HI) as (n & l' & E & HI' & Hu & Hl). rewrite E.
      exists RUnit, n, l'. unfold load_kept. split; [reflexivity|]. split; [split; [reflexivity|exact Hu]|auto].
    - destruct (ss_symmetric_difference_ok it s l HI) as (n & l' & E & HI' & Hu & Hl). rewrite E.
      exists RUnit, n, l'. unfold load_kept. split; [reflexivity|]. split; [split; [reflexivity|exact Hu]|auto].
    - destruct (ss_copy_ok s l HI) as (n & l' & E & HI' & Hu & Hl). rewrite E.
      exists RUnit, n, l'. unfold load_kept. split; [reflexivity|]. split; [split; [reflexivity|exact Hu]|auto].
    - destruct (ss_reduce_ok s l HI) as (n & l' & s1 & E & _ & HI' & Hu & Hl). rewrite E.
      exists RUnit, n, l'. unfold load_kept. split; [reflexivity|]. split; [split; [reflexivity|exact Hu]|auto].
    - cbn. eexists _, s, l. split; [reflexivity|]. unfold load_kept. split; [|auto]. split; [reflexivity|].
      intros Hd. apply HA. rewrite (set_cmp_spec eqb HE op (s_set s) other HD Hd).
      pose proof (subset_perm eqb _ _ _ _ HP (Permutation_refl other)) as H1.
      pose proof (subset_perm eqb _ _ _ _ (Permutation_refl other) HP) as H2.
      destruct op; cbn [set_cmp_means]; tauto.
    - cbn. eexists _, s, l. split; [reflexivity|]. unfold load_kept. split; [|auto]. split; [reflexivity|].
      apply HA. rewrite (isdisjoint_spec eqb HE). unfold disjoint. split; intros H x; specialize (H x); rewrite HM in *; exact H.
    - cbn. eexists _, s, l. split; [reflexivity|]. unfold load_kept. split; [|auto]. split; [reflexivity|].
      destruct (set_of_spec eqb HE (items a)) as (H1 & H2 & _).
      apply HA. rewrite (set_le_spec eqb HE) by exact HD. unfold subset.
      split; intros H x; specialize (H x); rewrite HM, H2 in *; exact H.
    - cbn. eexists _, s, l. split; [reflexivity|]. unfold load_kept. split; [|auto]. split; [reflexivity|].
      destruct (set_of_spec eqb HE (items a)) as (H1 & H2 & _).
      apply HA. rewrite (set_le_spec eqb HE) by exact H1. unfold subset.
      split; intros H x; specialize (H x); rewrite HM, H2 in *; exact H.
    - unfold ss_fwd. destruct (k_fwd _ _ _ _ _ _ _ HK f _ _ HR) as (sl & E & HR' & Hl).
      { destruct f; try exact I. exact Ho. }
      rewrite E. eexists _, _, l. split; [reflexivity|]. split; [auto|]. cbn. split; [split; auto|].
      unfold load_kept. cbn. rewrite Hl. destruct f; cbn; auto. right. right. eauto.
  Qed.

  Lemma ss_run_ok ops : forall s l, SInv s l -> Forall sop_ok ops -> exists rs s' l',
    ss_run T eqb ord ops s = (rs, s') /\ set_history ltb eqb fref ops l rs l' /\ SInv s' l' /\
    (Forall (resets_from 4) ops -> 4 <= dflt -> 4 <= ld (s_list s) -> 4 <= ld (s_list s')).
  Proof.
    induction ops as [|o ops IH]; intros s l HI HF.
    - exists [], s, l. split; [reflexivity|]. split; [constructor|]. split; [exact HI|auto].
    - apply Forall_cons_iff in HF as [Ho HF].
      destruct (ss_step_ok o s l HI Ho) as (r & s1 & l1 & E & He & HI1 & HL).
      destruct (IH s1 l1 HI1 HF) as (rs & s2 & l2 & E2 & Hh & HI2 & HL2).
      exists (r :: rs), s2, l2. unfold ss_run in *. cbn [run]. rewrite E, E2. split; [reflexivity|].
      split; [econstructor; eauto; [eapply sinv_sorted|eapply sinv_distinct]; eauto|]. split; [exact HI2|].
      intros HR4 Hd Hs. apply Forall_cons_iff in HR4 as [Hr HR4]. apply HL2; auto.
      destruct HL as [->|[->|(n & -> & ->)]]; auto.
  Qed.
  Lemma ss_reach_ok s : ss_reach T eqb ord s -> exists l, SInv s l.
  Proof.
    intros (t & it & s0 & ops & E0 & HF & ->).
    destruct (ss_new_ok t it) as (s1 & l1 & E1 & HI1 & _). rewrite E1 in E0. injection E0 as ->.
    destruct (ss_run_ok ops s0 l1 HI1 HF) as (rs & s' & l' & E & _ & HI & _). rewrite E. eauto.
  Qed.
  Lemma ss_shows_ok s l : ss_reach T eqb ord s -> ss_shows T s l -> SInv s l.
  Proof.
    intros HR HS. destruct (ss_reach_ok s HR) as [l' HI]. unfold ss_shows in HS.
    rewrite (ss_iter_ok s l' HI) in HS. congruence.
  Qed.
  Lemma ss_inv_shows s l : SInv s l -> ss_shows T s l.
  Proof. apply ss_iter_ok. Qed.
  Lemma ss_reach_step s o : ss_reach T eqb ord s -> sop_ok o -> ss_reach T eqb ord (snd (ss_step T eqb ord o s)).
  Proof.
    intros (t & it & s0 & ops & E0 & HF & ->) Ho. exists t, it, s0, (ops ++ [o]).
    split; [exact E0|]. split; [apply Forall_app; split; auto|].
    unfold ss_run. rewrite run_app. cbn. destruct (ss_step T eqb ord o (snd (run (ss_step T eqb ord) ops s0))). reflexivity.
  Qed.
End SetFacts.

(** * Lemmas: operations after which an object is as it should be, whatever it was before *)
From Coq Require Import Lia Permutation.
From Verif Require Import PyBase Model Spec History BaseFacts SpecFacts Reach CoreFacts Shape KeyFacts ListSim ListFacts HistFacts ListProps KeyProps
  ListClass ClassSpec ClassFacts ModelSet SetSpec HashFacts SetFacts ModelDict DictSpec MapFacts DictFacts ModelAgain RecoverSpec.
Local Unset Implicit Arguments.

(** ** SortedList *)
Section Plain.
  Context {V : Type}.
  Variables ltb eqb : V -> V -> bool.
  Variable dflt : nat.
  Hypothesis HT : TotalOrder ltb eqb.
  Hypothesis Hd : 1 <= dflt.
  Notation lt := (total2 ltb).

  Lemma linv_behaves c : LInv ltb c -> sl_behaves ltb eqb dflt c (contents c).
  Proof.
    intros HI. split; [apply shows_contents|]. split; [apply HI|]. intros ops Ho.
    destruct (sl_run_ok ltb eqb HT dflt Hd ops c HI Ho) as (c' & E & _ & Ec & _). exists c'. split; [exact E|]. apply shows_iff. exact Ec.
  Qed.
  Lemma linv_empty ld : 1 <= ld -> LInv ltb (mkcore [] [] [] 0 0 ld).
  Proof. intros H. split; [apply lshape_empty; exact H|apply sorted_nil]. Qed.
  Lemma refill it ld : 1 <= ld -> exists c', sl_update lt it (mkcore [] [] [] 0 0 ld) = (Ok tt, c') /\ sl_behaves ltb eqb dflt c' (sp_sort ltb it).
  Proof.
    intros H. destruct (sl_step_inv ltb eqb HT dflt Hd (LUpdate it) _ (linv_empty ld H) I) as (c' & E & HI & Ec & _).
    cbn [sl_step sp_step fst snd] in E, Ec. unfold observe in E. destruct (sl_update lt it _) as [[[]|e] c1]; [|discriminate E]. injection E as <-.
    exists c1. split; [reflexivity|]. change (sp_sort ltb it) with (sp_update ltb it []). cbn [contents lists concat] in Ec. rewrite <- Ec. apply linv_behaves, HI.
  Qed.
  Lemma anew it : exists c', sl_new lt dflt it = Ok c' /\ sl_behaves ltb eqb dflt c' (sp_sort ltb it).
  Proof.
    destruct (refill it dflt Hd) as (c' & E & H). exists c'. split; [|exact H]. unfold sl_new, core_empty. rewrite E. reflexivity.
  Qed.
End Plain.

Lemma c109_list : forall V (ltb eqb : V -> V -> bool) dflt (c : core V V) l o m,
  TotalOrder ltb eqb -> 1 <= dflt -> 1 <= load c -> shows c l -> lop_ok o -> renews o l = Some m ->
  exists c', sl_do ltb eqb dflt o c = (RUnit, c') /\ sl_behaves ltb eqb dflt c' (sp_sort ltb m).
Proof.
  intros V ltb eqb dflt c l o m HT Hd Hld Hl Ho Hr. apply shows_iff in Hl. subst l. unfold sl_do.
  destruct o; try discriminate Hr; injection Hr as <-; cbn [sl_step].
  - eexists. split; [reflexivity|]. apply (linv_behaves ltb eqb dflt HT Hd (mkcore [] [] [] 0 0 (load c))), linv_empty, Hld.
  - destruct (refill ltb eqb dflt HT Hd (contents c) ld Ho) as (c' & E & H). exists c'. split; [|exact H].
    unfold observe, reset, oncore, zoom, bind, get, modify. cbn [vt_get vt_put vt_clear vt_update sl_vt]. unfold sl_clear, modify, set_load. cbn [load lists maxes index offset len].
    rewrite E. reflexivity.
  - destruct (refill ltb eqb dflt HT Hd (list_mul (contents c) n) (load c) Hld) as (c' & E & H). exists c'. split; [|exact H].
    unfold observe, imul, oncore, zoom, bind, get. cbn [vt_get vt_put vt_clear vt_update sl_vt]. unfold sl_clear, modify. rewrite E. reflexivity.
  - destruct (anew ltb eqb dflt HT Hd (contents c)) as (c' & E & H). exists c'. split; [|exact H].
    unfold rebind, sl_copy, bind, get, liftr. fold (contents c). rewrite E. reflexivity.
  - destruct (anew ltb eqb dflt HT Hd (contents c ++ it)) as (c' & E & H). exists c'. split; [|exact H].
    unfold rebind, sl_plus, sl_mul, sl_reduce, bind, get, liftr. rewrite E. reflexivity.
  - destruct (anew ltb eqb dflt HT Hd (list_mul (contents c) n)) as (c' & E & H). exists c'. split; [|exact H].
    unfold rebind, sl_plus, sl_mul, sl_reduce, bind, get, liftr. rewrite E. reflexivity.
  - destruct (anew ltb eqb dflt HT Hd (contents c)) as (c' & E & H). exists c'. split; [|exact H].
    unfold rebind, sl_plus, sl_mul, sl_reduce, bind, get, liftr. rewrite E. reflexivity.
Qed.

Lemma c110_list : forall V (ltb eqb : V -> V -> bool) dflt (c : core V V) it,
  TotalOrder ltb eqb -> 1 <= dflt ->
  exists c', sl_again (total2 ltb) dflt it c = (Ok tt, c') /\ sl_behaves ltb eqb dflt c' (sp_sort ltb it).
Proof.
  intros V ltb eqb dflt c it HT Hd. destruct (refill ltb eqb dflt HT Hd it dflt Hd) as (c' & E & H). exists c'. split; [exact E|exact H].
Qed.

(** ** SortedKeyList *)
Section Keyed.
  Context {V K : Type}.
  Variable key : V -> K.
  Variables kltb keqb : K -> K -> bool.
  Variables vltb eqb : V -> V -> bool.
  Variable dflt : nat.
  Hypothesis HKT : TotalOrder kltb keqb.
  Hypothesis HE : EqCompat (by_key key kltb) eqb.
  Hypothesis Hd : 1 <= dflt.
  Notation klt := (total2 kltb).
  Notation kf := (total1 key).

  Lemma kinv_behaves s : KInv key kltb s -> skl_behaves key kltb keqb vltb eqb dflt s (contents (kc s)).
  Proof.
    intros HI. split; [apply shows_contents|]. split; [apply HI|]. intros ops Ho Hc.
    destruct (skl_run_ok key kltb keqb vltb eqb HKT HE dflt Hd ops s HI Ho) as (c' & E & _ & Ec & _).
    { eapply Forall_impl; [|exact Hc]. intros o. apply comparable_ok. }
    exists c'. split; [exact E|]. apply shows_iff. exact Ec.
  Qed.
  Lemma kinv_empty off ld : 1 <= ld -> KInv key kltb (mkskl (mkcore [] [] [] off 0 ld) []).
  Proof. intros H. split; [apply shape_empty; exact H|apply sorted_nil]. Qed.
  Lemma krefill it off ld : 1 <= ld -> exists s', skl_update klt kf it (mkskl (mkcore [] [] [] off 0 ld) []) = (Ok tt, s') /\
    skl_behaves key kltb keqb vltb eqb dflt s' (sp_sort (by_key key kltb) it).
  Proof.
    intros H. destruct (skl_step_inv key kltb keqb vltb eqb HKT HE dflt Hd (KList (LUpdate it)) _ (kinv_empty off ld H) I I) as (c' & E & HI & Ec & _).
    cbn [skl_step skl_lstep sp_kstep sp_step fst snd] in E, Ec. unfold observe in E. destruct (skl_update klt kf it _) as [[[]|e] c1]; [|discriminate E]. injection E as <-.
    exists c1. split; [reflexivity|]. change (sp_sort (by_key key kltb) it) with (sp_update (by_key key kltb) it []). cbn [contents lists concat kc] in Ec. rewrite <- Ec. apply kinv_behaves, HI.
  Qed.
  Lemma kanew it : exists c', skl_new klt kf dflt it = Ok c' /\ skl_behaves key kltb keqb vltb eqb dflt c' (sp_sort (by_key key kltb) it).
  Proof.
    destruct (krefill it 0 dflt Hd) as (c' & E & H). exists c'. split; [|exact H]. unfold skl_new, skl_empty, core_empty. rewrite E. reflexivity.
  Qed.
End Keyed.

Lemma c109_keylist : forall V K (key : V -> K) (kltb keqb : K -> K -> bool) (vltb eqb : V -> V -> bool) dflt (s : skl V K) l o m,
  TotalOrder kltb keqb -> EqCompat (by_key key kltb) eqb -> 1 <= dflt -> 1 <= load (kc s) -> kshows s l -> lop_ok o -> renews o l = Some m ->
  exists s', skl_do key kltb keqb vltb eqb dflt (KList o) s = (RUnit, s') /\
    skl_behaves key kltb keqb vltb eqb dflt s' (sp_sort (by_key key kltb) m).
Proof.
  intros V K key kltb keqb vltb eqb dflt s l o m HT HE Hd Hld Hl Ho Hr. apply shows_iff in Hl. subst l. unfold skl_do.
  pose proof (krefill key kltb keqb vltb eqb dflt HT HE Hd) as RF. pose proof (kanew key kltb keqb vltb eqb dflt HT HE Hd) as AN.
  destruct o; try discriminate Hr; injection Hr as <-; cbn [skl_step skl_lstep].
  - eexists. split; [reflexivity|]. apply (kinv_behaves key kltb keqb vltb eqb dflt HT HE Hd (mkskl (mkcore [] [] [] (offset (kc s)) 0 (load (kc s))) [])), kinv_empty, Hld.
  - destruct (RF (contents (kc s)) (offset (kc s)) ld Ho) as (c' & E & H). exists c'. split; [|exact H].
    unfold observe, reset, oncore, zoom, bind, get, modify. cbn [vt_get vt_put vt_clear vt_update skl_vt]. unfold skl_clear, modify, set_load, set_kc. cbn [kc keys load lists maxes index offset len].
    rewrite E. reflexivity.
  - destruct (RF (list_mul (contents (kc s)) n) (offset (kc s)) (load (kc s)) Hld) as (c' & E & H). exists c'. split; [|exact H].
    unfold observe, imul, oncore, zoom, bind, get. cbn [vt_get vt_put vt_clear vt_update skl_vt]. unfold skl_clear, modify, set_kc. destruct s as [c ks]. cbn [kc keys] in *. rewrite E. reflexivity.
  - destruct (AN (contents (kc s))) as (c' & E & H). exists c'. split; [|exact H].
    unfold rebind, skl_copy, bind, get, liftr. fold (contents (kc s)). rewrite E. reflexivity.
  - destruct (AN (contents (kc s) ++ it)) as (c' & E & H). exists c'. split; [|exact H].
    unfold rebind, skl_plus, bind, get, liftr. rewrite E. reflexivity.
  - destruct (AN (list_mul (contents (kc s)) n)) as (c' & E & H). exists c'. split; [|exact H].
    unfold rebind, skl_mul, bind, get, liftr. rewrite E. reflexivity.
  - destruct (AN (contents (kc s))) as (c' & E & H). exists c'. split; [|exact H].
    unfold rebind, skl_reduce, bind, get, liftr. rewrite E. reflexivity.
Qed.

Lemma c110_keylist : forall V K (key : V -> K) (kltb keqb : K -> K -> bool) (vltb eqb : V -> V -> bool) dflt (s : skl V K) it,
  TotalOrder kltb keqb -> EqCompat (by_key key kltb) eqb -> 1 <= dflt ->
  exists s', skl_again (total2 kltb) (total1 key) dflt it s = (Ok tt, s') /\
    skl_behaves key kltb keqb vltb eqb dflt s' (sp_sort (by_key key kltb) it).
Proof.
  intros V K key kltb keqb vltb eqb dflt s it HT HE Hd. destruct (krefill key kltb keqb vltb eqb dflt HT HE Hd it 0 dflt Hd) as (c' & E & H).
  exists c'. split; [exact E|exact H].
Qed.

(** ** SortedSet *)
Section Sets.
  Context {S V K : Type}.
  Variable T : listcls S V K.
  Variables ltb eqb : V -> V -> bool.
  Variable fref : fwd V K -> list V -> out V * list V.
  Variable dflt : nat.
  Variable R : S -> list V -> Prop.
  Variable ld : S -> nat.
  Hypothesis HK : ClsOK T ltb eqb fref dflt R ld.
  Variable ord : nat -> list V -> list V.
  Hypothesis HO : any_order ord.
  Let HE : Equiv eqb := k_equiv _ _ _ _ _ _ _ HK.
  Let HW : SWO ltb := k_swo _ _ _ _ _ _ _ HK.
  Notation SI := (SInv eqb R).

  Lemma sinv_behaves s l : SI s l -> ss_behaves T ltb eqb fref ord s l.
  Proof.
    intros HI. split; [exact (ss_inv_shows T ltb eqb fref dflt R ld HK s l HI)|]. split; [exact (sinv_sorted T ltb eqb fref dflt R ld HK s l HI)|].
    split; [exact (sinv_distinct T ltb eqb fref dflt R ld HK s l HI)|].
    intros ops Ho. destruct (ss_run_ok T ltb eqb fref dflt R ld HK ord HO ops s l HI Ho) as (rs & s' & l' & E & Hh & HI' & _).
    exists rs, s', l'. split; [exact E|]. split; [exact Hh|]. exact (ss_inv_shows T ltb eqb fref dflt R ld HK s' l' HI').
  Qed.
  Lemma anyrelist s x : (exists x', l_clear T (s_list s) = (Ok tt, x') /\ R x' []) -> distinct eqb x ->
    exists s' l', (put_set x ;;; relist T ord) s = (Ok tt, s') /\ s_set s' = x /\ SI s' l'.
  Proof.
    intros (x' & E1 & HR1) HD. unfold relist, members, visit, put_set, modify, get, ret, bind, onlist, zoom. cbn [s_list s_set s_tick].
    rewrite E1. cbn [s_list s_set s_tick]. destruct (k_update _ _ _ _ _ _ _ HK (ord (s_tick s) x) _ _ HR1) as (s2 & E2 & HR2 & L2).
    rewrite E2. eexists _, _. split; [reflexivity|]. split; [reflexivity|]. split; [exact HR2|]. split; [exact HD|]. cbn [s_set].
    rewrite (sp_sort_perm ltb HW). cbn [app]. rewrite (HO _ _). reflexivity.
  Qed.
  Lemma set_renewed s o : (exists x', l_clear T (s_list s) = (Ok tt, x') /\ R x' []) -> distinct eqb (s_set s) -> set_renews eqb o (s_set s) = true ->
    exists l r s' l', Permutation l (s_set s) /\ sorted ltb l /\ ss_step T eqb ord o s = (r, s') /\ set_effect eqb fref o l r l' /\ SI s' l'.
  Proof.
    intros HC HD Hr.
    destruct (ss_fromset_ok T ltb eqb fref dflt R ld HK ord HO (s_tick s) (s_set s) HD) as (s2 & l & E2 & Es & HI & _).
    unfold ss_fromset in E2. destruct (l_new T (ord (s_tick s) (s_set s))) as [x2|e]; [|discriminate E2]. injection E2 as <-. clear Es.
    assert (HI2 : SI (mksset (s_set s) x2 (s_tick s)) l) by exact HI. clear HI. set (s2 := mksset (s_set s) x2 (s_tick s)) in *.
    exists l. assert (HP : Permutation l (s_set s)) by (symmetry; apply HI2).
    assert (HS : sorted ltb l) by exact (sinv_sorted T ltb eqb fref dflt R ld HK s2 l HI2).
    assert (W : (exists r s' l', ss_step T eqb ord o s = (r, s') /\ set_effect eqb fref o l r l' /\ SI s' l') ->
      exists r s' l', Permutation l (s_set s) /\ sorted ltb l /\ ss_step T eqb ord o s = (r, s') /\ set_effect eqb fref o l r l' /\ SI s' l').
    { intros (r & s' & l' & H). exists r, s', l'. split; [exact HP|]. split; [exact HS|exact H]. }
    apply W. clear W.
    assert (Same : forall m : M (sset S V) (sset S V), ss_step T eqb ord o s = rebind m s -> ss_step T eqb ord o s2 = rebind m s2 ->
      sop_ok o -> fst (m s) = fst (m s2) -> (exists n, fst (m s2) = Ok n) -> exists r s' l', ss_step T eqb ord o s = (r, s') /\ set_effect eqb fref o l r l' /\ SI s' l').
    { intros m E E' Hok Em [n En]. destruct (ss_step_ok T ltb eqb fref dflt R ld HK ord HO o s2 l HI2 Hok) as (r & s' & l' & E1 & He & HI' & _).
      exists r, s', l'. split; [|split; assumption]. rewrite E. rewrite E' in E1. unfold rebind in *.
      destruct (m s) as [x1 y1], (m s2) as [x3 y3]. cbn in Em, En. subst x1 x3. exact E1. }
    destruct o; try discriminate Hr; cbn [set_renews] in Hr.
    - destruct HC as (x' & E1 & HR1). eexists RUnit, _, []. split; [cbn [ss_step]; unfold observe, ss_clear, put_set, modify, bind, onlist, zoom; cbn [s_list s_set s_tick]; rewrite E1; reflexivity|].
      split; [split; reflexivity|]. split; [exact HR1|]. split; [exact I|constructor].
    - destruct (set_of_spec eqb HE (concat (map (@items V) its))) as (Hd & Hm & Hi).
      destruct (anyrelist s (set_union eqb (s_set s) (set_of eqb (concat (map (@items V) its)))) HC) as (s' & l' & E & Hs & HI').
      { apply set_union_spec; [exact HE|exact HD]. }
      exists RUnit, s', l'. split; [|split; [|exact HI']].
      + cbn [ss_step]. unfold observe, ss_update. unfold bind at 1. unfold members. unfold bind at 1. unfold get at 1, ret at 1. rewrite Hr, E. reflexivity.
      + split; [reflexivity|]. eapply (union_lists T ltb eqb fref dflt R ld HK s2 l s' l' its); [exact HI2|exact HI'|exact Hm|exact Hi|exact Hs].
    - destruct (set_of_spec eqb HE (concat (map (@items V) its))) as (Hd & Hm & Hi).
      destruct (anyrelist s (set_diff eqb (s_set s) (set_of eqb (concat (map (@items V) its)))) HC) as (s' & l' & E & Hs & HI').
      { apply set_diff_distinct; auto. }
      exists RUnit, s', l'. split; [|split; [|exact HI']].
      + cbn [ss_step]. unfold observe, ss_difference_update. unfold bind at 1. unfold members. unfold bind at 1. unfold get at 1, ret at 1. rewrite Hr, E. reflexivity.
      + split; [reflexivity|]. intros x.
        rewrite <- (sinv_In eqb R _ _ x HI'), Hs, set_diff_In, <- (sinv_In eqb R _ _ x HI2), Hm, in_any_concat by exact HE. reflexivity.
    - destruct (anyrelist s (fold_left (set_inter eqb) its (s_set s)) HC) as (s' & l' & E & Hs & HI').
      { apply fold_inter; auto. }
      exists RUnit, s', l'. split; [|split; [|exact HI']].
      + cbn [ss_step]. unfold observe, ss_intersection_update. unfold bind at 1. unfold members. unfold bind at 1. unfold get at 1, ret at 1. rewrite E. reflexivity.
      + split; [reflexivity|]. exact (inter_lists T ltb eqb fref dflt R ld HK s2 l s' l' its HI2 HI' Hs).
    - destruct (anyrelist s (set_sym eqb (s_set s) (items it)) HC) as (s' & l' & E & Hs & HI').
      { apply set_sym_spec; auto. }
      exists RUnit, s', l'. split; [|split; [|exact HI']].
      + cbn [ss_step]. unfold observe, ss_symmetric_difference_update. unfold bind at 1. unfold members. unfold bind at 1. unfold get at 1, ret at 1. rewrite E. reflexivity.
      + split; [reflexivity|]. exact (sym_lists T ltb eqb fref dflt R ld HK s2 l s' l' it HI2 HI' (or_introl Hs)).
    - apply (Same (ss_difference T eqb ord its) eq_refl eq_refl I eq_refl).
      destruct (ss_difference_ok T ltb eqb fref dflt R ld HK ord HO its s2 l HI2) as (n & l' & E & _). rewrite E. exists n. reflexivity.
    - apply (Same (ss_intersection T eqb ord its) eq_refl eq_refl I eq_refl).
      destruct (ss_intersection_ok T ltb eqb fref dflt R ld HK ord HO its s2 l HI2) as (n & l' & E & _). rewrite E. exists n. reflexivity.
    - apply (Same (ss_symmetric_difference T eqb ord it) eq_refl eq_refl I eq_refl).
      destruct (ss_symmetric_difference_ok T ltb eqb fref dflt R ld HK ord HO it s2 l HI2) as (n & l' & E & _). rewrite E. exists n. reflexivity.
    - apply (Same (ss_copy T ord) eq_refl eq_refl I eq_refl).
      destruct (ss_copy_ok T ltb eqb fref dflt R ld HK ord HO s2 l HI2) as (n & l' & E & _). rewrite E. exists n. reflexivity.
    - apply (Same (ss_reduce T eqb ord) eq_refl eq_refl I eq_refl).
      destruct (ss_reduce_ok T ltb eqb fref dflt R ld HK ord HO s2 l HI2) as (n & l' & s1 & E & _). rewrite E. exists n. reflexivity.
  Qed.
  Lemma again_ok {S0} (s : sset S0 V) it : distinct eqb (s_set s) ->
    exists l s' l', Permutation l (s_set s) /\ sorted ltb l /\ ss_again T eqb ord it s = Ok s' /\
      set_effect eqb fref (SUpdate (match it with Some a => [a] | None => [] end)) l RUnit l' /\ SI s' l'.
  Proof.
    intros HD. unfold ss_again.
    destruct (ss_fromset_ok T ltb eqb fref dflt R ld HK ord HO (s_tick s) (s_set s) HD) as (s2 & l & E2 & Es & HI & _).
    rewrite E2. cbn [rbind]. exists l. assert (HP : Permutation l (s_set s)) by (rewrite <- Es; symmetry; apply HI).
    pose proof (sinv_sorted T ltb eqb fref dflt R ld HK s2 l HI) as HS. destruct it as [a|].
    - destruct (ss_update_ok T ltb eqb fref dflt R ld HK ord HO [a] s2 l HI) as (s' & l' & E & HI' & Hu & _). rewrite E.
      exists s', l'. split; [exact HP|]. split; [exact HS|]. split; [reflexivity|]. split; [split; [reflexivity|exact Hu]|exact HI'].
    - exists s2, l. split; [exact HP|]. split; [exact HS|]. split; [reflexivity|]. split; [|exact HI]. split; [reflexivity|].
      split; [|split; [auto|auto]]. intros x. split; [auto|]. intros [H|(a & [] & _)]. exact H.
  Qed.
End Sets.

Lemma c109_set_plain : forall V K (ltb eqb : V -> V -> bool) dflt (ord : nat -> list V -> list V) (s : sset (core V V) V) (o : sop V K),
  TotalOrder ltb eqb -> 1 <= dflt -> any_order ord -> 1 <= load (s_list s) -> distinct eqb (s_set s) -> set_renews eqb o (s_set s) = true ->
  let T := plain (total2 ltb) (total2 eqb) dflt in
  exists l r s' l', Permutation l (s_set s) /\ sorted ltb l /\ ss_step T eqb ord o s = (r, s') /\
    set_effect eqb (fwd_plain ltb eqb) o l r l' /\ ss_behaves T ltb eqb (fwd_plain ltb eqb) ord s' l'.
Proof.
  intros V K ltb eqb dflt ord s o HT Hd HO Hld HD Hr T. pose proof (plain_ok (K:=K) ltb eqb HT dflt Hd) as HK.
  destruct (set_renewed T ltb eqb _ dflt _ _ HK ord HO s o) as (l & r & s' & l' & H1 & H2 & H3 & H4 & H5); [|exact HD|exact Hr|].
  - eexists. split; [reflexivity|]. split; [apply linv_empty, Hld|reflexivity].
  - exists l, r, s', l'. split; [exact H1|]. split; [exact H2|]. split; [exact H3|]. split; [exact H4|].
    exact (sinv_behaves T ltb eqb _ dflt _ _ HK ord HO s' l' H5).
Qed.
Lemma c109_set_keyed : forall V K (key : V -> K) (kltb keqb : K -> K -> bool) (eqb : V -> V -> bool) dflt (ord : nat -> list V -> list V)
  (s : sset (skl V K) V) (o : sop V K),
  TotalOrder kltb keqb -> Equiv eqb -> EqCompat (by_key key kltb) eqb -> 1 <= dflt -> any_order ord ->
  1 <= load (kc (s_list s)) -> distinct eqb (s_set s) -> set_renews eqb o (s_set s) = true ->
  let T := keyed (total2 eqb) (total2 kltb) (total2 keqb) (total1 key) dflt in
  exists l r s' l', Permutation l (s_set s) /\ sorted (by_key key kltb) l /\ ss_step T eqb ord o s = (r, s') /\
    set_effect eqb (fwd_keyed key kltb eqb) o l r l' /\ ss_behaves T (by_key key kltb) eqb (fwd_keyed key kltb eqb) ord s' l'.
Proof.
  intros V K key kltb keqb eqb dflt ord s o HT HE HC Hd HO Hld HD Hr T. pose proof (keyed_ok key kltb keqb eqb HT HE HC dflt Hd) as HK.
  destruct (set_renewed T _ eqb _ dflt _ _ HK ord HO s o) as (l & r & s' & l' & H1 & H2 & H3 & H4 & H5); [|exact HD|exact Hr|].
  - eexists. split; [reflexivity|]. split; [apply kinv_empty, Hld|reflexivity].
  - exists l, r, s', l'. split; [exact H1|]. split; [exact H2|]. split; [exact H3|]. split; [exact H4|].
    exact (sinv_behaves T _ eqb _ dflt _ _ HK ord HO s' l' H5).
Qed.
Lemma c110_set : forall S0 S V K (T : listcls S V K) (ltb eqb : V -> V -> bool) fref dflt (ord : nat -> list V -> list V)
  (s : sset S0 V) (it : option (arg (V:=V))),
  list_class T ltb eqb fref dflt -> any_order ord -> distinct eqb (s_set s) ->
  exists l s' l', Permutation l (s_set s) /\ sorted ltb l /\ ss_again T eqb ord it s = Ok s' /\
    set_effect eqb fref (SUpdate (match it with Some a => [a] | None => [] end)) l RUnit l' /\ ss_behaves T ltb eqb fref ord s' l'.
Proof.
  intros S0 S V K T ltb eqb fref dflt ord s it HC HO HD. destruct (class_ok T ltb eqb fref dflt HC) as (R & ld & HK).
  destruct (again_ok T ltb eqb fref dflt R ld HK ord HO s it HD) as (l & s' & l' & H1 & H2 & H3 & H4 & H5).
  exists l, s', l'. split; [exact H1|]. split; [exact H2|]. split; [exact H3|]. split; [exact H4|].
  exact (sinv_behaves T ltb eqb fref dflt R ld HK ord HO s' l' H5).
Qed.

(** ** SortedDict *)
Section Dicts.
  Context {S A B K : Type}.
  Variable T : listcls S A K.
  Variables ltb eqb : A -> A -> bool.
  Variable veqb : B -> B -> bool.
  Variable fref : fwd A K -> list A -> out A * list A.
  Variable dflt : nat.
  Variable R : S -> list A -> Prop.
  Variable ld : S -> nat.
  Hypothesis HK : ClsOK T ltb eqb fref dflt R ld.
  Let HE : Equiv eqb := k_equiv _ _ _ _ _ _ _ HK.

  Lemma dinv_behaves (s : sdict S A B) : DInv ltb eqb R s -> sd_behaves T ltb eqb veqb fref s (d_items s).
  Proof.
    intros HI. split; [exact (sd_shows_ok T ltb eqb fref dflt R ld HK s HI)|]. intros ops Ho.
    destruct (sd_run_ok T ltb eqb veqb fref dflt R ld HK ops s HI Ho) as (s' & E & Hd & HI' & _). exists s'. split; [exact E|].
    rewrite <- Hd. exact (sd_shows_ok T ltb eqb fref dflt R ld HK s' HI').
  Qed.
  Lemma dict_renewed (s : sdict S A B) o : (exists x', l_clear T (d_list s) = (Ok tt, x') /\ R x' []) -> distinct_keys eqb (d_items s) ->
    dict_renews eqb o (d_items s) = true ->
    exists s', sd_step T eqb veqb o s = (ONone, s') /\ DInv ltb eqb R s' /\ d_items s' = snd (ref_step ltb eqb veqb fref o (d_items s)).
  Proof.
    intros (x' & E1 & HR1) HD Hr.
    assert (U : forall pairs, exists s', (put_items (d_update eqb (d_items s) pairs) ;;; onkeys (l_clear T) ;;; keys_update T) s = (Ok tt, s') /\
              DInv ltb eqb R s' /\ d_items s' = merge eqb (d_items s) pairs).
    { intros pairs. rewrite d_update_merge. unfold bind, put_items, modify, onkeys at 1, zoom. cbn [d_list d_items]. rewrite E1.
      destruct (fill T ltb eqb fref dflt R ld HK (merge eqb (d_items s) pairs) x' (merge_dk eqb pairs _ HD) HR1) as (s' & E & Hd & HI & _).
      exists s'. split; [exact E|]. split; [exact HI|exact Hd]. }
    assert (UU : forall a, dict_renews eqb (DUpdate (K:=K) a) (d_items s) = true -> exists s', sd_update T eqb a s = (Ok tt, s') /\
              DInv ltb eqb R s' /\ d_items s' = merge eqb (d_items s) (pairs_of a)).
    { intros a Ha. destruct a as [ps|ps]; cbn [dict_renews] in Ha; apply andb_true_iff in Ha as [Ha1 Ha2]; apply negb_true_iff in Ha1.
      - destruct (U ps) as (s' & E & HI & Hd). exists s'. split; [|split; assumption].
        unfold sd_update, items_of. unfold bind at 1. unfold bind at 1. unfold get at 1, ret at 1. rewrite Ha1, Ha2. exact E.
      - destruct (U (d_of eqb ps)) as (s' & E & HI & Hd). exists s'. split; [|split; [assumption|]].
        + unfold sd_update, items_of. unfold bind at 1. unfold bind at 1. unfold get at 1, ret at 1. rewrite Ha1.
          assert (Em : d_of eqb ps = merge eqb [] ps) by (unfold d_of; apply d_update_merge). rewrite Em in *. rewrite Ha2. exact E.
        + rewrite Hd. cbn [pairs_of]. unfold d_of. rewrite d_update_merge. apply merge_of, HE. }
    destruct o; try discriminate Hr; cbn [sd_step ref_step snd].
    - eexists. split; [unfold dsee, sd_clear, put_items, modify, bind, onkeys, zoom; cbn [d_list d_items]; rewrite E1; reflexivity|].
      split; [split; [exact HR1|exact I]|reflexivity].
    - destruct (UU _ Hr) as (s' & E & HI & Hd). exists s'. unfold dsee. rewrite E. split; [reflexivity|]. split; assumption.
    - destruct (UU _ Hr) as (s' & E & HI & Hd). exists s'. unfold dsee, sd_ior. rewrite E. split; [reflexivity|]. split; assumption.
    - destruct insertion; [|discriminate Hr]. destruct (new_ok T ltb eqb fref dflt R ld HK (ADict (d_items s))) as (s' & E & Hd & HI & _).
      exists s'. unfold drebind, sd_reduce, items_of, bind, get, ret, liftr. rewrite E. split; [reflexivity|]. split; [exact HI|].
      rewrite Hd. cbn [pairs_of]. apply merge_self, HD.
  Qed.
End Dicts.

Lemma c109_dict_plain : forall A B K (ltb eqb : A -> A -> bool) (veqb : B -> B -> bool) dflt (s : sdict (core A A) A B) (o : dop A B K),
  TotalOrder ltb eqb -> 1 <= dflt -> 1 <= load (d_list s) -> distinct_keys eqb (d_items s) -> dict_renews eqb o (d_items s) = true ->
  let T := plain (total2 ltb) (total2 eqb) dflt in
  let fref := fwd_plain ltb eqb in
  exists s', sd_step T eqb veqb o s = (ONone, s') /\ sd_behaves T ltb eqb veqb fref s' (snd (ref_step ltb eqb veqb fref o (d_items s))).
Proof.
  intros A B K ltb eqb veqb dflt s o HT Hd Hld HD Hr T fref. pose proof (plain_ok (K:=K) ltb eqb HT dflt Hd) as HK.
  destruct (dict_renewed T ltb eqb veqb _ dflt _ _ HK s o) as (s' & H1 & H2 & H3); [|exact HD|exact Hr|].
  - eexists. split; [reflexivity|]. split; [apply linv_empty, Hld|reflexivity].
  - exists s'. split; [exact H1|]. unfold fref. rewrite <- H3. exact (dinv_behaves T ltb eqb veqb _ dflt _ _ HK s' H2).
Qed.
Lemma c109_dict_keyed : forall A B K (key : A -> K) (kltb keqb : K -> K -> bool) (eqb : A -> A -> bool) (veqb : B -> B -> bool) dflt
  (s : sdict (skl A K) A B) (o : dop A B K),
  TotalOrder kltb keqb -> Equiv eqb -> EqCompat (by_key key kltb) eqb -> 1 <= dflt ->
  1 <= load (kc (d_list s)) -> distinct_keys eqb (d_items s) -> dict_renews eqb o (d_items s) = true ->
  let T := keyed (total2 eqb) (total2 kltb) (total2 keqb) (total1 key) dflt in
  let fref := fwd_keyed key kltb eqb in
  exists s', sd_step T eqb veqb o s = (ONone, s') /\
    sd_behaves T (by_key key kltb) eqb veqb fref s' (snd (ref_step (by_key key kltb) eqb veqb fref o (d_items s))).
Proof.
  intros A B K key kltb keqb eqb veqb dflt s o HT HE HC Hd Hld HD Hr T fref. pose proof (keyed_ok key kltb keqb eqb HT HE HC dflt Hd) as HK.
  destruct (dict_renewed T _ eqb veqb _ dflt _ _ HK s o) as (s' & H1 & H2 & H3); [|exact HD|exact Hr|].
  - eexists. split; [reflexivity|]. split; [apply kinv_empty, Hld|reflexivity].
  - exists s'. split; [exact H1|]. unfold fref. rewrite <- H3. exact (dinv_behaves T _ eqb veqb _ dflt _ _ HK s' H2).
Qed.

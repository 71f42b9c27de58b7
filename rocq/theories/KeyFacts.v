(** * SortedKeyList: invariant of the mutators (proofs) *)
From Verif Require Import PyBase BaseFacts Spec SpecFacts SliceFacts Model IndexFacts Shape CoreFacts VtFacts.
From Coq Require Import Sorting.Permutation Sorting.Sorted.
Local Unset Implicit Arguments.

Section KeyShape.
  Context {V K : Type}.
  Variable klt : K -> K -> res bool.
  Variable kf : V -> res K.
  Notation SKL := (skl V K).
  Notation Shape := (Shape kf).
  Notation Shape0 := (Shape0 kf).

  Lemma shape0_clens s rows : Shape0 s rows -> clens (kc s) = lens_of rows.
  Proof. intros H. unfold clens, lens_of. rewrite (sh_lists _ _ _ H), map_map. reflexivity. Qed.

  Lemma shape_core s : Shape s -> CoreOK (kc s).
  Proof.
    intros (rows & H & Hl). constructor.
    - rewrite (sh_lists _ _ _ H). apply Forall_map. eapply Forall_impl; [|apply (sh_rows _ _ _ H)].
      intros r Hr E. apply row_ok_ne in Hr. rewrite E in Hr. cbn in Hr. lia.
    - exact Hl.
    - rewrite (shape0_clens _ _ H). apply (sh_index _ _ _ H).
  Qed.

  Lemma shape0_touch s rows c : Shape0 s rows -> touch (kc s) c -> Shape0 (set_kc c s) rows.
  Proof.
    intros H (ix & off & -> & HI). destruct H as [H1 H2 H3 H4 H5 H6 H7] eqn:E.
    constructor; ev; auto. rewrite <- (shape0_clens _ _ H). exact HI.
  Qed.
  Lemma shape_touch s c : Shape s -> touch (kc s) c -> Shape (set_kc c s).
  Proof.
    intros (rows & H & Hl) Ht. exists rows. split; [apply shape0_touch; assumption|].
    cbn [set_kc kc]. rewrite (touch_len _ _ Ht), (touch_contents _ _ Ht). exact Hl.
  Qed.

  Lemma shape_empty off ld : 1 <= ld -> Shape (mkskl (mkcore [] [] [] off 0 ld) []).
  Proof.
    intros H. exists []. split; [|reflexivity]. constructor; cbn; auto.
    - split; constructor.
    - left. reflexivity.
  Qed.

  Lemma shape0_contents_nil s rows : Shape0 s rows -> contents (kc s) = [] -> rows = [].
  Proof.
    intros H E. destruct rows as [|r rows]; [reflexivity|]. exfalso.
    unfold contents in E. rewrite (sh_lists _ _ _ H) in E. cbn in E.
    pose proof (sh_rows _ _ _ H) as HR. inversion HR as [|? ? Hr _]; subst.
    apply row_ok_ne in Hr. apply app_eq_nil in E as [E _]. rewrite E in Hr. cbn in Hr. lia.
  Qed.
  Lemma shape_nil_state s : Shape s -> contents (kc s) = [] ->
    exists ix off, s = mkskl (mkcore [] [] ix off 0 (load (kc s))) [] /\ IndexOK [] ix off.
  Proof.
    intros (rows & H & Hl) E. assert (rows = []) by (eapply shape0_contents_nil; eauto). subst rows.
    destruct H as [H1 H2 H3 H4 H5 H6 H7]. rewrite E in Hl.
    destruct s as [[ls ms ix off n ld] ks]. cbn in *. subst. exists ix, off. split; [reflexivity|exact H7].
  Qed.

  Lemma skl_vt_ok : VtOK (skl_vt klt kf) Shape.
  Proof.
    constructor; unfold vcont, skl_vt; cbn [vt_get vt_put vt_clear vt_delete].
    - apply shape_core.
    - reflexivity.
    - intros [c ks]. reflexivity.
    - intros c s. apply shape_touch.
    - intros s (rows & H & Hl). eexists. split; [reflexivity|].
      split; [apply shape_empty, (sh_load _ _ _ H)|]. split; reflexivity.
    - intros ld s H E Hld. destruct (shape_nil_state s H E) as (ix & off & -> & HI).
      exists []. split; [|reflexivity]. constructor; cbn; auto. split; constructor.
    - intros s a x b p i (rows & H & Hl) E (X & l & Y & EX & Hp & Hi & Hj).
      rewrite (sh_lists _ _ _ H) in EX. symmetry in EX.
      destruct (map_eq_app _ _ _ _ (eq_sym EX)) as (RA & RB' & -> & HRA & HRB').
      destruct RB' as [|r RB]; [discriminate|]. cbn in HRB'. injection HRB' as Hrl HRB.
      destruct (split_at l i Hi) as (a' & x' & b' & El & Ha'). subst l.
      destruct (skl_delete_ok kf s RA r RB a' x' b' H Hl El) as (s' & Hd & Hs & Hld & Hc).
      assert (Hp' : length RA = p) by (subst p X; rewrite map_length; reflexivity).
      rewrite Hp', Ha' in Hd. exists s'. split; [exact Hd|]. split; [exact Hs|]. split; [|exact Hld].
      rewrite Hc. unfold contents in E. rewrite (sh_lists _ _ _ H), concat_mid, El in E.
      rewrite HRA in *. 
      assert (E2 : a ++ x :: b = (concat X ++ a') ++ x' :: (b' ++ concat (map r_l RB))).
      { rewrite <- E, <- !app_assoc. reflexivity. }
      symmetry in E2.
      destruct (split_same _ _ _ _ _ _ E2) as (<- & _ & <-); [rewrite app_length; lia|].
      rewrite <- !app_assoc. reflexivity.
  Qed.

  (** ** Filling an empty list *)
  Lemma rows_of_chunks cs : forall nks, mapR (mapR kf) cs = Ok nks -> Forall (fun c => c <> []) cs ->
    exists rows ms, mapR getlast nks = Ok ms /\ cs = map r_l rows /\ nks = map r_k rows /\ ms = map r_m rows /\
      Forall (row_ok kf) rows.
  Proof.
    induction cs as [|c cs IH]; intros nks H HF.
    - injection H as <-. exists [], []. cbn. auto 10.
    - apply mapR_cons_inv in H as (ks & nks' & -> & Hk & H). inversion HF as [|? ? Hc HF']; subst.
      destruct (IH _ H HF') as (rows & ms & H1 & -> & -> & -> & HR).
      destruct (row_make kf c ks Hk Hc) as (m & Hm & Hr).
      exists (mkrow c ks m :: rows), (m :: map r_m rows).
      split; [apply mapR_cons_Ok; assumption|]. cbn. auto.
  Qed.

  Lemma mapR_concat cs : forall ks, mapR kf (concat cs) = Ok ks -> exists nks, mapR (mapR kf) cs = Ok nks.
  Proof.
    induction cs as [|c cs IH]; intros ks H; [eexists; reflexivity|].
    cbn [concat] in H. apply mapR_app_inv in H as (k1 & k2 & -> & H1 & H2).
    destruct (IH _ H2) as (nks & Hn). exists (k1 :: nks). apply mapR_cons_Ok; assumption.
  Qed.

  Lemma removelast_map {A B} (f : A -> B) l : removelast (map f l) = map f (removelast l).
  Proof.
    induction l as [|x l IH]; [reflexivity|]. destruct l; [reflexivity|].
    change (f x :: removelast (map f (a :: l)) = f x :: map f (removelast (a :: l))). rewrite IH. reflexivity.
  Qed.

  Lemma skl_fill_ok values ks ix off ld n : mapR kf values = Ok ks -> 1 <= ld ->
    exists s', skl_fill kf values (mkskl (mkcore [] [] ix off n ld) []) = (Ok tt, s') /\ Shape s' /\
      contents (kc s') = values /\ load (kc s') = ld.
  Proof.
    intros Hk Hld. unfold skl_fill, modifyR. cbn [kc load lists keys maxes app].
    destruct (chunks_ok ld values Hld) as (cs & Hcs & Hcc & HF & HR). rewrite Hcs. cbn [rbind].
    rewrite <- Hcc in Hk. destruct (mapR_concat cs ks Hk) as (nks & Hn). rewrite Hn. cbn [rbind].
    destruct (rows_of_chunks cs nks Hn) as (rows & ms & Hms & -> & -> & -> & Hrows).
    { eapply Forall_impl; [|exact HF]. intros c [H _]. exact H. }
    rewrite Hms. cbn [rbind]. eexists. split; [reflexivity|]. ev.
    assert (HS : SizesOK ld (map r_l rows)).
    { split.
      - eapply Forall_impl; [|exact HF]. intros c [_ H]. lia.
      - eapply Forall_impl; [|exact HR]. intros c H. cbv beta in H. rewrite H.
        apply Nat.div_le_upper_bound; lia. }
    split; [|split; [exact Hcc|reflexivity]]. exists rows. split.
    - constructor; cbn; auto. left. reflexivity.
    - cbn. unfold contents. cbn. rewrite Hcc. reflexivity.
  Qed.

  (** ** [update], for arbitrary comparisons *)
  Lemma skl_adds_gen values : forall s, Shape s ->
    exists r s' vs, forM (skl_add klt kf) values s = (r, s') /\ Shape s' /\ load (kc s') = load (kc s) /\
      Permutation (contents (kc s')) (contents (kc s) ++ vs) /\
      (exists ws, values = vs ++ ws /\ (r = Ok tt -> ws = [])).
  Proof.
    induction values as [|v values IH]; intros s HS.
    - exists (Ok tt), s, []. cbn. rewrite app_nil_r. split; [reflexivity|]. split; [exact HS|].
      split; [reflexivity|]. split; [reflexivity|]. exists []. auto.
    - cbn [forM]. destruct (skl_add_gen kf klt v s HS) as
        [(e & He & _)|(s1 & k & l1 & l2 & k1 & k2 & Ha & HS1 & Hld1 & _ & Ec & Ec' & _)].
      + rewrite (bind_err _ _ _ _ _ He). exists (Err e), s, []. rewrite app_nil_r.
        split; [reflexivity|]. split; [exact HS|]. split; [reflexivity|]. split; [reflexivity|].
        exists (v :: values). split; [reflexivity|discriminate].
      + rewrite (bind_ok _ _ _ _ _ Ha).
        destruct (IH s1 HS1) as (r & s2 & vs & Hf & HS2 & Hld2 & HP & ws & -> & Hr).
        exists r, s2, (v :: vs). split; [exact Hf|]. split; [exact HS2|]. split; [congruence|].
        split; [|exists ws; split; [reflexivity|exact Hr]].
        rewrite HP, Ec', Ec. rewrite <- !app_assoc. apply Permutation_app_head.
        cbn. rewrite <- Permutation_middle. reflexivity.
  Qed.
End KeyShape.

(** ** Total orders *)
Section KeyTotal.
  Context {V K : Type}.
  Variable key : V -> K.
  Variable kltb : K -> K -> bool.
  Hypothesis HK : SWO kltb.
  Notation klt := (total2 kltb).
  Notation kf := (total1 key).
  Notation ltb := (by_key key kltb).
  Notation Shape := (Shape kf).

  Lemma HOk : SWO ltb.
  Proof. apply by_key_swo. exact HK. Qed.

  Lemma mapR_key l : mapR kf l = Ok (map key l).
  Proof. apply mapR_map. Qed.

  Lemma skl_sorted_key l : py_sorted_key klt kf l = Ok (sp_sort ltb l).
  Proof. unfold total1. rewrite py_sorted_key_total. apply (py_sorted_sp _ HOk). Qed.

  Lemma MonoOn_map p l : MonoOn p (map key l) <-> MonoOn (fun v => p (key v)) l.
  Proof.
    induction l as [|x l IH]; [split; constructor|]. cbn. split; intros H.
    - apply StronglySorted_inv in H as [H HF]. constructor; [apply IH; exact H|].
      rewrite Forall_map in HF. exact HF.
    - apply StronglySorted_inv in H as [H HF]. constructor; [apply IH; exact H|].
      rewrite Forall_map. exact HF.
  Qed.

  Lemma skl_add_ok v s : Shape s -> sorted ltb (contents (kc s)) ->
    exists s', skl_add klt kf v s = (Ok tt, s') /\ Shape s' /\
      contents (kc s') = sp_add ltb v (contents (kc s)) /\ load (kc s') = load (kc s).
  Proof.
    intros HS Hs. destruct (skl_add_gen kf klt v s HS) as
      [(e & _ & [He|(k & y & _ & He)])|(s1 & k & l1 & l2 & k1 & k2 & Ha & HS1 & Hld1 & Hk & Ec & Ec' & Hk1 & Hk2 & Hsp)];
      [discriminate|discriminate|].
    exists s1. split; [exact Ha|]. split; [exact HS1|]. split; [|exact Hld1].
    injection Hk as <-. rewrite mapR_key in Hk1, Hk2. injection Hk1 as <-. injection Hk2 as <-.
    rewrite Ec, Ec'. symmetry. rewrite Ec in Hs.
    assert (HM : MonoOn (kltb (key v)) (map key l1 ++ map key l2)).
    { rewrite <- map_app. apply sorted_mono_gt; [exact HK|]. apply sorted_by_key. exact Hs. }
    destruct (split_filter _ _ _ HM Hsp) as (HF & HT & _ & _).
    apply sp_add_split; intros x Hx; unfold by_key.
    - apply HF, in_map, Hx.
    - apply HT, in_map, Hx.
  Qed.

  Lemma skl_adds_ok values : forall s, Shape s -> sorted ltb (contents (kc s)) ->
    exists s', forM (skl_add klt kf) values s = (Ok tt, s') /\ Shape s' /\
      contents (kc s') = sp_update ltb values (contents (kc s)) /\ load (kc s') = load (kc s).
  Proof.
    assert (G : forall s, Shape s -> sorted ltb (contents (kc s)) ->
      exists s', forM (skl_add klt kf) values s = (Ok tt, s') /\ Shape s' /\
      contents (kc s') = fold_left (fun acc v => sp_add ltb v acc) values (contents (kc s)) /\
      load (kc s') = load (kc s)).
    { induction values as [|v values IH]; intros s HS Hs; [exists s; auto|].
      cbn [forM fold_left]. destruct (skl_add_ok v s HS Hs) as (s1 & Ha & HS1 & Hc1 & Hl1).
      rewrite (bind_ok _ _ _ _ _ Ha). destruct (IH s1 HS1) as (s2 & Hf & HS2 & Hc2 & Hl2).
      - rewrite Hc1. apply (sp_add_sorted _ HOk). exact Hs.
      - exists s2. rewrite Hc1 in Hc2. split; [exact Hf|]. split; [exact HS2|]. split; [exact Hc2|congruence]. }
    intros s HS Hs. destruct (G s HS Hs) as (s' & H1 & H2 & H3 & H4).
    exists s'. split; [exact H1|]. split; [exact H2|]. split; [|exact H4].
    rewrite H3. apply (fold_add_sort _ HOk). exact Hs.
  Qed.

  Lemma skl_update_ok it s : Shape s -> sorted ltb (contents (kc s)) ->
    exists s', skl_update klt kf it s = (Ok tt, s') /\ Shape s' /\
      contents (kc s') = sp_update ltb it (contents (kc s)) /\ load (kc s') = load (kc s).
  Proof.
    intros HS Hs. pose proof HS as (rows & H0 & Hlen). unfold skl_update.
    rewrite (bind_lift _ _ _ _ (skl_sorted_key it)). rewrite bind_get.
    assert (Hld : 1 <= load (kc s)) by apply (sh_load _ _ _ H0).
    destruct (is_nil (maxes (kc s))) eqn:Hnil.
    { assert (rows = []) by (eapply shape_nil; eauto). subst rows.
      assert (Hc : contents (kc s) = []) by (unfold contents; rewrite (sh_lists _ _ _ H0); reflexivity).
      destruct (shape_nil_state kf s HS Hc) as (ix & off & Es & _). rewrite Es.
      destruct (skl_fill_ok kf (sp_sort ltb it) _ ix off (load (kc s)) 0 (mapR_key _) Hld) as (s' & H1 & H2 & H3 & H4).
      exists s'. split; [exact H1|]. split; [exact H2|]. split; [|exact H4].
      rewrite H3. reflexivity. }
    destruct (Nat.leb_spec (len (kc s)) (length (sp_sort ltb it) * 4)) as [Hb|Hb].
    - unfold bind at 1, modify at 1. rewrite bind_get.
      rewrite (bind_lift _ _ _ _ (skl_sorted_key _)). unfold bind at 1, skl_clear, modify.
      ev.
      destruct (skl_fill_ok kf (sp_sort ltb (concat (lists (kc s) ++ [sp_sort ltb it]))) _ [] (offset (kc s))
                  (load (kc s)) 0 (mapR_key _) Hld) as (s' & H1 & H2 & H3 & H4).
      exists s'. split; [exact H1|]. split; [exact H2|]. split; [|exact H4].
      rewrite H3, concat_app. cbn [concat]. rewrite app_nil_r. apply (sp_sort_app_r _ HOk).
    - destruct (skl_adds_ok (sp_sort ltb it) s HS Hs) as (s' & H1 & H2 & H3 & H4).
      exists s'. split; [exact H1|]. split; [exact H2|]. split; [|exact H4].
      rewrite H3. apply (sp_sort_app_r _ HOk).
  Qed.

  Lemma skl_update_vt : UpdateOK (skl_vt klt kf) Shape ltb.
  Proof. intros it s H1 H2. apply skl_update_ok; assumption. Qed.

  Lemma skl_new_ok dflt l : 1 <= dflt ->
    exists s, skl_new klt kf dflt l = Ok s /\ Shape s /\ contents (kc s) = sp_sort ltb l /\ load (kc s) = dflt.
  Proof.
    intros Hd. unfold skl_new.
    destruct (skl_update_ok l (skl_empty dflt)) as (s & H1 & H2 & H3 & H4).
    - apply shape_empty. exact Hd.
    - apply sorted_nil.
    - rewrite H1. exists s. auto.
  Qed.

  (** ** Two-level search *)
  Lemma search_ok p s rows : Shape0 kf s rows ->
    MonoOn (fun v => p (key v)) (contents (kc s)) ->
    exists pos, bs (fun k => Ok (p k)) (maxes (kc s)) = Ok pos /\
      ((pos = length (maxes (kc s)) /\ filter (fun v => negb (p (key v))) (contents (kc s)) = contents (kc s)
        /\ filter (fun v => p (key v)) (contents (kc s)) = []) \/
       (pos < length (maxes (kc s)) /\ exists ks idx, getn (keys s) pos = Ok ks /\
          bs (fun k => Ok (p k)) ks = Ok idx /\
          Locate (lists (kc s)) pos idx (length (filter (fun v => negb (p (key v))) (contents (kc s)))))).
  Proof.
    intros H HM. pose proof (shape_keys _ _ _ H) as HKs. rewrite mapR_key in HKs. injection HKs as HKs.
    assert (Hb : forall a, exists n, bs (fun k => Ok (p k)) a = Ok n).
    { intros a. destruct (bs (fun k => Ok (p k)) a) as [n|e] eqn:E; [eauto|].
      apply bs_Err in E as (y & _ & E). discriminate. }
    destruct (Hb (maxes (kc s))) as (pos & Hpos). exists pos. split; [exact Hpos|].
    rewrite (sh_maxes _ _ _ H) in Hpos |- *. rewrite map_length.
    destruct (two_level kf _ _ _ (sh_rows _ _ _ H) Hpos) as [[-> HS]|(RA & r & RB & -> & -> & HS)].
    - left. split; [reflexivity|]. rewrite <- HKs in HS.
      destruct (split_filter p (map key (contents (kc s))) []) as (HF & _ & _ & _);
        [rewrite app_nil_r; apply MonoOn_map; exact HM|exact HS|].
      split.
      + apply filter_all. intros x Hx. rewrite HF by (apply in_map; exact Hx). reflexivity.
      + apply filter_none. intros x Hx. apply HF, in_map, Hx.
    - right. split; [rewrite app_length; cbn; lia|].
      destruct (Hb (r_k r)) as (idx & Hidx). exists (r_k r), idx.
      split; [rewrite (sh_keys _ _ _ H); apply getn_mid|]. split; [exact Hidx|].
      destruct (HS idx Hidx) as [Hlt HSp].
      assert (Hr : row_ok kf r).
      { pose proof (sh_rows _ _ _ H) as HR. rewrite Forall_app in HR. destruct HR as [_ HR]. inversion HR; assumption. }
      assert (Hrl := row_ok_len _ _ Hr).
      exists (map r_l RA), (r_l r), (map r_l RB).
      split; [rewrite (sh_lists _ _ _ H), map_app; reflexivity|].
      split; [apply map_length|]. split; [lia|].
      assert (Hall : (concat (map r_k RA) ++ firstn idx (r_k r)) ++ skipn idx (r_k r) ++ concat (map r_k RB)
                     = map key (contents (kc s))).
      { rewrite HKs, map_app, concat_app. cbn [map concat].
        rewrite <- (firstn_skipn idx (r_k r)) at 3. rewrite <- !app_assoc. reflexivity. }
      apply MonoOn_map in HM. rewrite <- Hall in HM.
      destruct (split_filter p _ _ HM HSp) as (HF & HT' & HE & _).
      rewrite Hall, filter_map_comm in HE. apply (f_equal (@length K)) in HE. rewrite map_length in HE.
      rewrite HE, app_length, firstn_length.
      assert (Hk1 : length (concat (map r_k RA)) = length (concat (map r_l RA))).
      { pose proof (sh_rows _ _ _ H) as HR. rewrite Forall_app in HR. destruct HR as [HR _].
        apply (mapR_length kf). apply concat_keys. exact HR. }
      lia.
  Qed.
End KeyTotal.

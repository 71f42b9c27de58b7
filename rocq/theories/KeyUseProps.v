(** * Statements about the values to which the key function is applied *)
From Coq Require Import Permutation.
From Verif Require Import PyBase BaseFacts Model Spec SpecFacts SliceFacts History CoreFacts Shape KeyFacts VtFacts ListSim HistFacts Reach Concrete ConcreteCompare KeyProps KeyUseSpec.
Local Unset Implicit Arguments.

Lemma agree_sub {V K} (kf kf' : V -> res K) l m : incl m l -> agree kf kf' l -> agree kf kf' m.
Proof. intros H A v Hv. apply A, H, Hv. Qed.
Lemma agree_app {V K} (kf kf' : V -> res K) l m : agree kf kf' l -> agree kf kf' m -> agree kf kf' (l ++ m).
Proof. intros A B v Hv. apply in_app_or in Hv as [Hv|Hv]; auto. Qed.

Section Ext.
  Context {V K : Type}.
  Variable klt : K -> K -> res bool.
  Variables kf kf' : V -> res K.
  Notation agree := (agree kf kf').
  Notation SKL := (skl V K).

  Lemma sorted_key_ext l : agree l -> py_sorted_key klt kf l = py_sorted_key klt kf' l.
  Proof. intros H. unfold py_sorted_key. rewrite (mapR_ext_in kf kf' l H). reflexivity. Qed.
  Lemma add_ext v (s : SKL) : agree [v] -> skl_add klt kf v s = skl_add klt kf' v s.
  Proof. intros H. unfold skl_add. rewrite (H v (or_introl Logic.eq_refl)). reflexivity. Qed.
  Lemma adds_ext vs : agree vs -> forall s : SKL, forM (skl_add klt kf) vs s = forM (skl_add klt kf') vs s.
  Proof.
    induction vs as [|v vs IH]; intros H s; [reflexivity|]. cbn [forM]. unfold bind.
    rewrite (add_ext v s) by (intros x [<-|[]]; apply H; left; reflexivity).
    destruct (skl_add klt kf' v s) as [[u|e] s']; [|reflexivity]. apply IH. intros x Hx. apply H. right. exact Hx.
  Qed.
  Lemma fill_ext values (s : SKL) : agree (concat (lists (kc s)) ++ values) -> skl_fill kf values s = skl_fill kf' values s.
  Proof.
    intros H. unfold skl_fill, modifyR.
    destruct (Nat.eq_dec (load (kc s)) 0) as [E|E]; [unfold chunks; rewrite E; reflexivity|].
    destruct (chunks_ok (load (kc s)) values ltac:(lia)) as (cs & -> & Hc & _). cbn [rbind].
    rewrite (mapR_ext_in (mapR kf) (mapR kf') (lists (kc s) ++ cs)); [reflexivity|].
    intros l Hl. apply mapR_ext_in. intros v Hv. apply H. rewrite <- Hc, <- concat_app. apply in_concat. eauto.
  Qed.
  Lemma update_ext it (s : SKL) : (is_nil (maxes (kc s)) = true -> lists (kc s) = []) -> agree it ->
    (is_nil (maxes (kc s)) = false -> len (kc s) <= length it * 4 -> agree (contents (kc s))) ->
    skl_update klt kf it s = skl_update klt kf' it s.
  Proof.
    intros Hnil Hi Hc. unfold skl_update. rewrite (sorted_key_ext it Hi).
    destruct (py_sorted_key klt kf' it) as [vs|e] eqn:E; [|reflexivity].
    destruct (py_sorted_key_Ok _ _ _ _ E) as [HP _].
    assert (Av : agree vs) by (eapply agree_sub; [|exact Hi]; intros v Hv; eapply Permutation_in; eassumption).
    rewrite !(bind_lift _ _ _ _ Logic.eq_refl). rewrite !bind_get. destruct (is_nil (maxes (kc s))) eqn:En.
    - apply fill_ext. rewrite (Hnil Logic.eq_refl). exact Av.
    - destruct (Nat.leb_spec (len (kc s)) (length vs * 4)) as [Hb|Hb]; [|apply adds_ext; exact Av].
      rewrite (Permutation_length HP) in Hb. specialize (Hc Logic.eq_refl Hb).
      unfold bind, modify, get, liftr, on_kc, set_lists. cbn [kc lists keys].
      assert (Ac : agree (concat (lists (kc s) ++ [vs]))).
      { rewrite concat_app. cbn [concat]. rewrite app_nil_r. apply agree_app; [exact Hc|exact Av]. }
      rewrite (sorted_key_ext _ Ac). destruct (py_sorted_key klt kf' (concat (lists (kc s) ++ [vs]))) as [ws|e] eqn:E2; [|reflexivity].
      unfold skl_clear, modify. apply fill_ext. cbn [kc lists concat app].
      eapply agree_sub; [|exact Ac]. destruct (py_sorted_key_Ok _ _ _ _ E2) as [HP2 _]. intros v Hv. eapply Permutation_in; eassumption.
  Qed.
  Lemma refill_ext it (s : SKL) : maxes (kc s) = [] -> lists (kc s) = [] -> agree it -> skl_update klt kf it s = skl_update klt kf' it s.
  Proof. intros Hm Hl Hi. apply update_ext; [intros _; exact Hl|exact Hi|rewrite Hm; discriminate]. Qed.
  Lemma new_ext dflt it : agree it -> skl_new klt kf dflt it = skl_new klt kf' dflt it.
  Proof. intros H. unfold skl_new. rewrite (refill_ext it (skl_empty dflt) Logic.eq_refl Logic.eq_refl H). reflexivity. Qed.
  Lemma key_opt_ext o : agree (given o) -> key_opt kf o = key_opt kf' o.
  Proof. intros H. destruct o as [v|]; [|reflexivity]. cbn. rewrite (H v (or_introl Logic.eq_refl)). reflexivity. Qed.
End Ext.

Section Step.
  Context {V K : Type}.
  Variable key : V -> K.
  Variables vlt eq : V -> V -> res bool.
  Variables klt keq : K -> K -> res bool.
  Variables kf kf' : V -> res K.
  Variable dflt : nat.
  Notation agree := (agree kf kf').
  Notation SKL := (skl V K).
  Notation Shp := (Shape (total1 key)).
  Notation T f := (skl_vt klt f).

  Lemma vt_any f : VtOK (T f) Shp.
  Proof. destruct (skl_vt_ok klt (total1 key)). constructor; assumption. Qed.
  Lemma shape_lists (s : SKL) : Shp s -> is_nil (maxes (kc s)) = true -> lists (kc s) = [].
  Proof. intros (rows & H & _) E. rewrite (shape_nil _ _ _ H E) in H. rewrite (sh_lists _ _ _ H). reflexivity. Qed.

  Lemma shape_len (s : SKL) : Shp s -> len (kc s) = length (contents (kc s)).
  Proof. intros (rows & _ & H). exact H. Qed.
  Lemma shape_some {W} (v : W) (s : SKL) : Shp s -> is_nil (maxes (kc s)) = false -> In v (unless_empty (contents (kc s)) v).
  Proof.
    intros HI E. unfold unless_empty. destruct (contents (kc s)) eqn:Ec; [|left; reflexivity].
    destruct (shape_nil_state _ s HI Ec) as (ix & off & Es & _). rewrite Es in E. discriminate.
  Qed.
  Lemma shape_none (s : SKL) : Shp s -> is_nil (maxes (kc s)) = true -> contents (kc s) = [].
  Proof. intros HI E. unfold contents. rewrite (shape_lists s HI E). reflexivity. Qed.
  Lemma window a b n : (0 <= n)%Z -> (win_start a n <? Z.min n (win_stop b n))%Z = negb (index_stop b n <=? index_start a n)%Z.
  Proof.
    intros Hn. unfold win_start, win_stop, index_start, index_stop. cbv zeta.
    destruct a as [a|], b as [b|]; cbn [Z.ltb Z.compare];
      repeat match goal with |- context [if (?x <? ?y)%Z then _ else _] =>
        match x with context [if _ then _ else _] => fail 1 | _ => match y with context [if _ then _ else _] => fail 1 | _ => destruct (Z.ltb_spec x y) end end end;
      match goal with |- (?x <? ?y)%Z = negb (?z <=? ?t)%Z => destruct (Z.ltb_spec x y), (Z.leb_spec z t) end; cbn; try reflexivity; lia.
  Qed.
  Lemma step_one sl n start stop : slice_indices sl n = Ok (start, stop, 1%Z) -> s_step sl = None \/ s_step sl = Some 1%Z.
  Proof. unfold slice_indices. destruct (s_step sl) as [k|]; [|auto]. cbv zeta. destruct (k =? 0)%Z; [discriminate|]. intros [= _ _ ->]. auto. Qed.
  Lemma step_other sl n start stop step : slice_indices sl n = Ok (start, stop, step) -> step <> 1%Z -> exists k, s_step sl = Some k /\ k <> 1%Z.
  Proof.
    unfold slice_indices. destruct (s_step sl) as [k|]; cbv zeta; [destruct (k =? 0)%Z; [discriminate|]|]; intros [= _ _ ->] H; [eauto|]. congruence.
  Qed.
  Notation del sl := (KList (LDelSlice sl) : kop V K).

  (** Deleting a slice asks for keys only when it fills the list anew, with what remains. *)
  Lemma delslice_cases sl s : Shp s ->
    (touches (del sl) (contents (kc s)) = [] /\ forall f, delitem_slice (T f) sl s = delitem_slice (T (total1 key)) sl s) \/
    exists s', maxes (kc s') = [] /\ lists (kc s') = [] /\
      forall f, delitem_slice (T f) sl s = skl_update klt f (touches (del sl) (contents (kc s))) s'.
  Proof.
    intros HI. pose proof (vt_any kf) as HT. pose proof (vo_core _ _ HT _ HI) as HC. pose proof (vlen (T kf) Shp HT _ HI) as Hl.
    unfold vcont in Hl. cbn [vt_get skl_vt] in Hl.
    unfold delitem_slice, touches, sp_del_slice. rewrite <- Hl.
    destruct (slice_indices sl (len (kc s))) as [[[start stop] step]|e] eqn:Es.
    2:{ left. split; [destruct (s_step sl) as [[ |p|p]|]; try destruct p; reflexivity|]. intros f.
        rewrite (bind_ok _ _ _ _ _ (oncore_get (T f) Shp (vt_any f) s)), (bind_ok _ _ _ _ _ (oncore_get (T (total1 key)) Shp (vt_any _) s)).
        cbn [vt_get skl_vt]. rewrite Es. reflexivity. }
    cbn [rbind]. destruct (slice_indices_Ok _ _ _ _ _ Es) as (Hs0 & Hpos & Hneg).
    assert (D : forall f, bind (oncore (T f) get) (fun c => bind (liftr (slice_indices sl (len c))) (fun t =>
        let '(start, stop, step) := t in
        let n := Z.of_nat (len c) in
        let loop := (let indices := rangez start stop step in forM (delitem_int (T f)) (if (0 <? step)%Z then rev indices else indices)) in
        if ((step =? 1) && (start <? stop))%Z then
          if ((start =? 0) && (stop =? n))%Z then vt_clear (T f)
          else if (n <=? 8 * (stop - start))%Z then
            values <- oncore (T f) (getitem_slice (mkslice None (Some start) None)) ;;
            values <- (if (stop <? n)%Z then
                         more <- oncore (T f) (getitem_slice (mkslice (Some stop) None None)) ;;
                         ret (values ++ more)
                       else ret values) ;;
            vt_clear (T f) ;;;
            vt_update (T f) values
          else loop
        else loop)) s =
        (let n := Z.of_nat (len (kc s)) in
        let loop := (let indices := rangez start stop step in forM (delitem_int (T f)) (if (0 <? step)%Z then rev indices else indices)) in
        if ((step =? 1) && (start <? stop))%Z then
          if ((start =? 0) && (stop =? n))%Z then vt_clear (T f)
          else if (n <=? 8 * (stop - start))%Z then
            values <- oncore (T f) (getitem_slice (mkslice None (Some start) None)) ;;
            values <- (if (stop <? n)%Z then
                         more <- oncore (T f) (getitem_slice (mkslice (Some stop) None None)) ;;
                         ret (values ++ more)
                       else ret values) ;;
            vt_clear (T f) ;;;
            vt_update (T f) values
          else loop
        else loop) s).
    { intros f. rewrite (bind_ok _ _ _ _ _ (oncore_get (T f) Shp (vt_any f) s)). cbn [vt_get skl_vt]. rewrite Es. reflexivity. }
    destruct (Z.eq_dec step 1) as [->|Hstep].
    2:{ left. destruct (step_other _ _ _ _ _ Es Hstep) as (k & -> & Hk). split; [destruct k as [ |p|p]; try destruct p; first [reflexivity|congruence]|].
        intros f. rewrite !D. cbv zeta. destruct (Z.eqb_spec step 1) as [->|_]; [congruence|]. reflexivity. }
    specialize (Hpos ltac:(lia)).
    set (rest := drop_positions (rangez start stop 1) 0 (contents (kc s))) in *.
    assert (HM : match s_step sl, Ok rest with
                 | None, Ok rest | Some 1%Z, Ok rest => if 8 * (len (kc s) - length rest) <? len (kc s) then [] else rest
                 | _, _ => []
                 end = if 8 * (len (kc s) - length rest) <? len (kc s) then [] else rest)
      by (destruct (step_one _ _ _ _ Es) as [E1|E1]; rewrite E1; reflexivity).
    rewrite HM. clear HM.
    destruct (Z.ltb_spec start stop) as [Hlt|Hge].
    2:{ left. split.
        - assert (E : rest = contents (kc s)).
          { unfold rest. replace (rangez start stop 1) with (@nil Z); [apply drop_none; reflexivity|].
            unfold rangez, range_len. cbn [Z.ltb Z.compare]. replace (Z.to_nat ((stop - start + 1 - 1) / 1)) with 0; [reflexivity|].
            rewrite Z.div_1_r. lia. }
          rewrite E, <- Hl. destruct (Nat.ltb_spec (8 * (len (kc s) - len (kc s))) (len (kc s))) as [_|Hz]; [reflexivity|].
          destruct (contents (kc s)); [reflexivity|cbn in Hl; lia].
        - intros f. rewrite !D. cbv zeta. rewrite andb_false_r. reflexivity. }
    assert (HR : rest = firstn (Z.to_nat start) (contents (kc s)) ++ skipn (Z.to_nat stop) (contents (kc s))) by (apply drop_range; lia).
    destruct ((start =? 0) && (stop =? Z.of_nat (len (kc s))))%Z eqn:Eall.
    { left. split.
      - apply andb_true_iff in Eall as [Ea Eb]. apply Z.eqb_eq in Ea, Eb. subst start. rewrite HR, skipn_all2 by lia. destruct (_ <? _); reflexivity.
      - intros f. rewrite !D. cbv zeta. change (1 =? 1)%Z with true. rewrite !andb_true_l, ?Eall. reflexivity. }
    assert (HL : length rest = Z.to_nat start + (len (kc s) - Z.to_nat stop)) by (rewrite HR, app_length, firstn_length, skipn_length; lia).
    destruct (Z.leb_spec (Z.of_nat (len (kc s))) (8 * (stop - start))) as [Hbig|Hsmall].
    2:{ left. split.
        - destruct (Nat.ltb_spec (8 * (len (kc s) - length rest)) (len (kc s))); [reflexivity|lia].
        - intros f. rewrite !D. cbv zeta. change (1 =? 1)%Z with true. rewrite !andb_true_l, ?Eall, (proj2 (Z.leb_gt _ _) Hsmall). reflexivity. }
    right. destruct (Nat.ltb_spec (8 * (len (kc s) - length rest)) (len (kc s))); [lia|].
    destruct (getitem_slice_ok _ (mkslice None (Some start) None) HC) as (c1 & G1 & T1).
    destruct (oncore_ok (T kf) Shp HT _ s _ _ HI G1 T1) as (s1 & Hs1 & HI1 & Hc1 & Hls1 & Hld1).
    unfold vcont in *. cbn [vt_get skl_vt] in *.
    unfold sp_slice in Hs1. rewrite <- Hl in Hs1. rewrite slice_indices_to in Hs1 by lia. cbn [rbind] in Hs1.
    rewrite mapR_getz_rangez in Hs1 by lia. cbn [Z.to_nat] in Hs1.
    assert (V1 : slicen (contents (kc s)) 0 (Z.to_nat start) = firstn (Z.to_nat start) (contents (kc s))).
    { unfold slicen. cbn. rewrite Nat.sub_0_r. reflexivity. }
    rewrite V1 in Hs1.
    assert (More : exists s2, (if (stop <? Z.of_nat (len (kc s)))%Z
                 then more <- oncore (T kf) (getitem_slice (mkslice (Some stop) None None));;
                      ret (firstn (Z.to_nat start) (contents (kc s)) ++ more)
                 else ret (firstn (Z.to_nat start) (contents (kc s)))) s1 = (Ok rest, s2)).
    { rewrite HR. destruct (Z.ltb_spec stop (Z.of_nat (len (kc s)))) as [Hlt2|Hge].
      - destruct (getitem_slice_ok _ (mkslice (Some stop) None None) (vo_core _ _ HT _ HI1)) as (c2 & G2 & T2).
        destruct (oncore_ok (T kf) Shp HT _ s1 _ _ HI1 G2 T2) as (s2 & Hs2 & HI2 & Hc2 & Hls2 & Hld2).
        unfold vcont in *. cbn [vt_get skl_vt] in *.
        unfold sp_slice in Hs2. rewrite Hc1, <- Hl in Hs2.
        rewrite slice_indices_from in Hs2 by lia. cbn [rbind] in Hs2.
        rewrite mapR_getz_rangez in Hs2 by lia.
        rewrite (bind_ok _ _ _ _ _ Hs2). exists s2.
        unfold ret. f_equal. f_equal. f_equal. unfold slicen. apply firstn_all2.
        rewrite skipn_length. lia.
      - exists s1. rewrite skipn_all2 by lia. rewrite app_nil_r. reflexivity. }
    destruct More as (s2 & Hm). exists (snd (skl_clear s2)). split; [reflexivity|]. split; [reflexivity|].
    intros f. rewrite D. cbv zeta. change (1 =? 1)%Z with true. rewrite !andb_true_l, ?Eall, (proj2 (Z.leb_le _ _) Hbig).
    etransitivity; [exact (bind_ok _ _ _ _ _ Hs1)|]. etransitivity; [exact (bind_ok _ _ _ _ _ Hm)|]. reflexivity.
  Qed.
  Lemma delslice_ext sl s : Shp s -> agree (touches (del sl) (contents (kc s))) -> delitem_slice (T kf) sl s = delitem_slice (T kf') sl s.
  Proof.
    intros HI HA. destruct (delslice_cases sl s HI) as [[_ H]|(s' & Hm & Hl & H)]; rewrite (H kf), (H kf'); [reflexivity|].
    apply refill_ext; assumption.
  Qed.

  Lemma reset_eq f ld (s : SKL) : reset (T f) ld s = skl_update klt f (contents (kc s)) (mkskl (set_load ld (kc (snd (skl_clear s)))) (keys (snd (skl_clear s)))).
  Proof. reflexivity. Qed.
  Lemma imul_eq f n (s : SKL) : imul (T f) n s = skl_update klt f (sp_mul n (contents (kc s))) (snd (skl_clear s)).
  Proof. reflexivity. Qed.
  Lemma reset_ext ld s : agree (contents (kc s)) -> reset (T kf) ld s = reset (T kf') ld s.
  Proof. intros HA. rewrite !reset_eq. apply refill_ext; [reflexivity|reflexivity|exact HA]. Qed.
  Lemma imul_ext n s : agree (sp_mul n (contents (kc s))) -> imul (T kf) n s = imul (T kf') n s.
  Proof. intros HA. rewrite !imul_eq. apply refill_ext; [reflexivity|reflexivity|exact HA]. Qed.

  Lemma step_ext o s : Shp s -> agree (touches o (contents (kc s))) ->
    skl_step vlt eq klt keq kf dflt o s = skl_step vlt eq klt keq kf' dflt o s.
  Proof.
    intros HI HA.
    assert (HU : forall it, agree (if length (contents (kc s)) <=? 4 * length it then it ++ contents (kc s) else it) ->
      skl_update klt kf it s = skl_update klt kf' it s).
    { intros it H. apply update_ext; [apply shape_lists; exact HI| |].
      - eapply agree_sub; [|exact H]. destruct (_ <=? _); [apply incl_appl|]; apply incl_refl.
      - intros _ Hb. destruct HI as (rows & _ & Hl). rewrite Hl in Hb.
        destruct (Nat.leb_spec (length (contents (kc s))) (4 * length it)); [|lia]. eapply agree_sub; [|exact H]. apply incl_appr, incl_refl. }
    assert (HF : forall v, agree (unless_empty (contents (kc s)) v) -> skl_find eq klt keq kf v s = skl_find eq klt keq kf' v s).
    { intros v H. unfold skl_find. rewrite !bind_get. destruct (is_nil (maxes (kc s))) eqn:En; [reflexivity|].
      rewrite (H v); [reflexivity|]. apply (shape_some v s HI En). }
    destruct o as [o|k|k|mn mx a b r]; [destruct o|..]; cbn [skl_step skl_lstep] in *; try reflexivity; unfold observe, rebind;
      try (rewrite (delslice_ext sl s HI HA); reflexivity); cbn [touches] in HA.
    - rewrite (add_ext klt kf kf' v s HA). reflexivity.
    - rewrite (HU it HA). reflexivity.
    - unfold skl_discard, bind. rewrite (HF v HA). reflexivity.
    - unfold skl_remove, bind. rewrite (HF v HA). reflexivity.
    - unfold skl_contains, bind. rewrite (HF v HA). reflexivity.
    - unfold skl_bisect_left. rewrite (HA v (or_introl Logic.eq_refl)). reflexivity.
    - unfold skl_bisect_right. rewrite (HA v (or_introl Logic.eq_refl)). reflexivity.
    - unfold skl_count. rewrite !bind_get. destruct (is_nil (maxes (kc s))) eqn:En; [reflexivity|]. rewrite (HA v); [reflexivity|]. apply (shape_some v s HI En).
    - unfold skl_index. rewrite !bind_get. destruct (len (kc s) =? 0) eqn:En; [reflexivity|]. cbv zeta.
      destruct (index_stop stop (Z.of_nat (len (kc s))) <=? index_start start (Z.of_nat (len (kc s))))%Z eqn:Ew; [reflexivity|].
      rewrite (HA v); [reflexivity|]. rewrite (shape_len s HI) in Ew. rewrite window, Ew by lia. left. reflexivity.
    - unfold skl_irange. rewrite (key_opt_ext kf kf' mn), (key_opt_ext kf kf' mx); [reflexivity| |];
        (eapply agree_sub; [|exact HA]; first [apply incl_appr, incl_refl|apply incl_appl, incl_refl]).
    - rewrite (reset_ext ld s HA). reflexivity.
    - unfold iadd. cbn [vt_update skl_vt]. rewrite (HU it HA). reflexivity.
    - rewrite (imul_ext n s HA). reflexivity.
    - unfold skl_copy, bind, get, liftr. rewrite (new_ext klt kf kf' dflt _ HA) || erewrite (new_ext klt kf kf' dflt) by exact HA. reflexivity.
    - unfold skl_plus, bind, get, liftr. rewrite (new_ext klt kf kf' dflt _ HA) || erewrite (new_ext klt kf kf' dflt) by exact HA. reflexivity.
    - unfold skl_mul, bind, get, liftr. erewrite new_ext; [reflexivity|]. exact HA.
    - unfold skl_reduce, bind, get, liftr. rewrite (new_ext klt kf kf' dflt _ HA) || erewrite (new_ext klt kf kf' dflt) by exact HA. reflexivity.
  Qed.
End Step.

(** ** A key function that raises for one of these values *)
Section Bad.
  Context {V K : Type}.
  Variable key : V -> K.
  Variable kltb : K -> K -> bool.
  Variables vlt eq : V -> V -> res bool.
  Variable keq : K -> K -> res bool.
  Variable kf : V -> res K.
  Variable e : exn.
  Variable dflt : nat.
  Hypothesis Hkf : forall v, kf v = Ok (key v) \/ kf v = Err e.
  Notation SKL := (skl V K).
  Notation Shp := (Shape (total1 key)).
  Notation klt := (total2 kltb).
  Hypothesis HO : SWO (by_key key kltb).
  Notation bad := (Exists (fun v => kf v = Err e)).

  Lemma mapR_cases l : mapR kf l = Err e \/ (mapR kf l = Ok (map key l) /\ ~ bad l).
  Proof.
    induction l as [|v l IH]; [right; split; [reflexivity|intros H; inversion H]|]. cbn [mapR].
    destruct (Hkf v) as [E|E]; rewrite E; cbn [rbind]; [|left; reflexivity].
    destruct IH as [->|[-> H]]; [left; reflexivity|right]. split; [reflexivity|]. intros B. inversion B; subst; [congruence|contradiction].
  Qed.
  Lemma sorted_bad l : bad l -> py_sorted_key klt kf l = Err e.
  Proof. intros B. unfold py_sorted_key. destruct (mapR_cases l) as [->|[_ H]]; [reflexivity|contradiction]. Qed.
  Lemma sorted_cases l : py_sorted_key klt kf l = Err e \/ (exists vs, py_sorted_key klt kf l = Ok vs /\ ~ bad l).
  Proof.
    destruct (mapR_cases l) as [E|[E H]]; [left; unfold py_sorted_key; rewrite E; reflexivity|right].
    exists (sp_sort (by_key key kltb) l). split; [|exact H].
    assert (E2 : py_sorted_key klt kf l = py_sorted_key klt (total1 key) l).
    { apply sorted_key_ext. intros v Hv. destruct (Hkf v) as [F|F]; [exact F|]. exfalso. apply H, Exists_exists. eauto. }
    rewrite E2. unfold total1. rewrite py_sorted_key_total. apply (py_sorted_sp _ HO).
  Qed.
  Lemma update_bad it (s : SKL) : Shp s -> bad (if length (contents (kc s)) <=? 4 * length it then it ++ contents (kc s) else it) ->
    exists s', skl_update klt kf it s = (Err e, s').
  Proof.
    intros HI B. unfold skl_update. destruct (sorted_cases it) as [->|(vs & E & Hn)]; [eexists; reflexivity|]. rewrite E.
    rewrite !(bind_lift _ _ _ _ Logic.eq_refl). rewrite !bind_get.
    destruct (Nat.leb_spec (length (contents (kc s))) (4 * length it)) as [Hb|_]; [|contradiction].
    apply Exists_app in B as [B|B]; [contradiction|].
    destruct (is_nil (maxes (kc s))) eqn:En; [rewrite (shape_none key s HI En) in B; inversion B|].
    destruct (py_sorted_key_Ok _ _ _ _ E) as [HP _]. rewrite (shape_len key s HI), (Permutation_length HP).
    destruct (Nat.leb_spec (length (contents (kc s))) (length it * 4)) as [_|Hx]; [|lia].
    unfold bind, modify, get, liftr, on_kc, set_lists. cbn [kc lists keys].
    rewrite sorted_bad; [eexists; reflexivity|]. rewrite concat_app. apply Exists_app. left. exact B.
  Qed.
  Lemma refill_bad it (s : SKL) : bad it -> exists s', skl_update klt kf it s = (Err e, s').
  Proof. intros B. unfold skl_update. rewrite (sorted_bad it B). eexists; reflexivity. Qed.
  Lemma new_bad it : bad it -> skl_new klt kf dflt it = Err e.
  Proof. intros B. unfold skl_new. destruct (refill_bad it (skl_empty dflt) B) as [s' ->]. reflexivity. Qed.
  Lemma one_bad v : bad [v] -> kf v = Err e.
  Proof. intros B. inversion B as [? ? H|? ? H]; subst; [exact H|inversion H]. Qed.
  Lemma unless_bad (s : SKL) v : Shp s -> bad (unless_empty (contents (kc s)) v) -> is_nil (maxes (kc s)) = false /\ kf v = Err e.
  Proof.
    intros HI B. destruct (is_nil (maxes (kc s))) eqn:En; [rewrite (shape_none key s HI En) in B; inversion B|].
    split; [reflexivity|]. unfold unless_empty in B. destruct (contents (kc s)); [inversion B|apply one_bad; exact B].
  Qed.

  Lemma step_bad o s : Shp s -> bad (touches o (contents (kc s))) -> fst (skl_step vlt eq klt keq kf dflt o s) = RExn e.
  Proof.
    intros HI B.
    assert (HF : forall v, bad (unless_empty (contents (kc s)) v) -> skl_find eq klt keq kf v s = (Err e, s)).
    { intros v H. destruct (unless_bad s v HI H) as [En E]. unfold skl_find. rewrite !bind_get, En, E. reflexivity. }
    destruct o as [o|k|k|mn mx a b r]; [destruct o|..]; cbn [skl_step skl_lstep];
      try (exfalso; inversion B; fail); unfold observe, rebind;
      try (destruct (delslice_cases key klt kf sl s HI) as [[E _]|(s' & _ & _ & H)];
           [rewrite E in B; inversion B|rewrite H; destruct (refill_bad _ s' B) as [s2 ->]; reflexivity]);
      cbn [touches] in B.
    - unfold skl_add. rewrite (one_bad v B). reflexivity.
    - destruct (update_bad it s HI B) as [s' ->]. reflexivity.
    - unfold skl_discard, bind. rewrite (HF v B). reflexivity.
    - unfold skl_remove, bind. rewrite (HF v B). reflexivity.
    - unfold skl_contains, bind. rewrite (HF v B). reflexivity.
    - unfold skl_bisect_left. rewrite (one_bad v B). reflexivity.
    - unfold skl_bisect_right. rewrite (one_bad v B). reflexivity.
    - destruct (unless_bad s v HI B) as [En E]. unfold skl_count. rewrite !bind_get, En, E. reflexivity.
    - cbv zeta in B. rewrite window in B by lia. unfold skl_index. rewrite !bind_get. rewrite (shape_len key s HI). cbv zeta.
      destruct (index_stop stop (Z.of_nat (length (contents (kc s)))) <=? index_start start (Z.of_nat (length (contents (kc s)))))%Z eqn:Ew; [inversion B|].
      destruct (length (contents (kc s)) =? 0) eqn:E0.
      + exfalso. apply Nat.eqb_eq in E0. rewrite E0 in Ew. apply Z.leb_gt in Ew. revert Ew. unfold index_start, index_stop. cbv zeta.
        destruct start as [a|], stop as [b|]; cbn [Z.of_nat Z.ltb Z.compare];
          repeat match goal with |- context [if (?x <? ?y)%Z then _ else _] =>
            match x with context [if _ then _ else _] => fail 1 | _ => match y with context [if _ then _ else _] => fail 1 | _ => destruct (Z.ltb_spec x y) end end end; lia.
      + cbn [negb] in B. rewrite (one_bad v B). reflexivity.
    - unfold skl_irange. apply Exists_app in B.
      assert (HG : forall o, bad (given o) -> key_opt kf o = Err e).
      { intros [v|] H; [|inversion H]. cbn. rewrite (one_bad v H). reflexivity. }
      destruct B as [B|B]; [rewrite (HG mn B); reflexivity|]. rewrite (HG mx B).
      destruct mn as [v|]; [|reflexivity]. cbn [key_opt]. destruct (Hkf v) as [E|E]; rewrite E; reflexivity.
    - rewrite reset_eq. match goal with |- context [skl_update _ _ _ ?x] => destruct (refill_bad _ x B) as [s' ->] end. reflexivity.
    - unfold iadd. cbn [vt_update skl_vt]. destruct (update_bad it s HI B) as [s' ->]. reflexivity.
    - rewrite imul_eq. match goal with |- context [skl_update _ _ _ ?x] => destruct (refill_bad _ x B) as [s' ->] end. reflexivity.
    - unfold skl_copy, bind, get, liftr. fold (contents (kc s)). rewrite (new_bad _ B). reflexivity.
    - unfold skl_plus, bind, get, liftr. rewrite (new_bad _ B). reflexivity.
    - unfold skl_mul, bind, get, liftr. fold (sp_mul n (contents (kc s))) in *. erewrite new_bad; [reflexivity|]. exact B.
    - unfold skl_reduce, bind, get, liftr. rewrite (new_bad _ B). reflexivity.
  Qed.
End Bad.

Lemma c100_values_asked : forall V K (key : V -> K) kltb keqb vltb eqb vlt eq klt keq (kf kf' : V -> res K) dflt s l o,
  TotalOrder kltb keqb -> 1 <= dflt -> skl_reach key kltb keqb vltb eqb dflt s -> kshows s l ->
  agree kf kf' (touches o l) ->
  skl_step vlt eq klt keq kf dflt o s = skl_step vlt eq klt keq kf' dflt o s.
Proof.
  intros V K key kltb keqb vltb eqb vlt eq klt keq kf kf' dflt s l o HT Hd HR HS HA. apply kshows_iff in HS. subst l.
  apply (step_ext key); [|exact HA]. apply (kreach_inv_any key kltb keqb vltb eqb dflt HT Hd s HR).
Qed.
Lemma c100_each_asked : forall V K (key : V -> K) kltb keqb vltb eqb vlt eq keq (kf : V -> res K) e dflt s l o,
  TotalOrder kltb keqb -> 1 <= dflt -> skl_reach key kltb keqb vltb eqb dflt s -> kshows s l ->
  (forall v, kf v = Ok (key v) \/ kf v = Err e) -> Exists (fun v => kf v = Err e) (touches o l) ->
  fst (skl_step vlt eq (total2 kltb) keq kf dflt o s) = RExn e.
Proof.
  intros V K key kltb keqb vltb eqb vlt eq keq kf e dflt s l o HT Hd HR HS Hkf HB. apply kshows_iff in HS. subst l.
  apply (step_bad key); [exact Hkf|apply by_key_swo, (to_swo HT)| |exact HB]. apply (kreach_inv_any key kltb keqb vltb eqb dflt HT Hd s HR).
Qed.
Lemma c100_keys_remembered : forall V K (key : V -> K) kltb keqb vltb eqb dflt h s l,
  TotalOrder kltb keqb -> EqCompat (by_key key kltb) eqb -> TotalOrder vltb eqb -> 1 <= dflt ->
  skl_reach key kltb keqb vltb eqb dflt s -> kshows s l -> Forall kop_ok (map snd h) -> faithful key kltb vltb eqb h l ->
  let r := drift (total2 vltb) (total2 eqb) (total2 kltb) (total2 keqb) dflt h s in
  let r' := sp_krun eqb vltb key kltb (map snd h) l in
  fst r = fst r' /\ kshows (snd r) (snd r').
Proof.
  intros V K key kltb keqb vltb eqb dflt h s l HT HE HV Hd HR HS Ho HF. revert s l HR HS Ho HF.
  induction h as [|[kf o] h IH]; intros s l HR HS Ho HF; [split; [reflexivity|exact HS]|].
  cbn [map snd] in Ho. inversion Ho as [|? ? Ho1 Ho2]; subst. destruct HF as [HA HF].
  cbv zeta. unfold drift, sp_krun. cbn [map run fst snd].
  rewrite (c100_values_asked V K key kltb keqb vltb eqb _ _ _ _ kf (total1 key) dflt s l o HT Hd HR HS HA).
  destruct (kdo_ok key kltb keqb vltb eqb dflt HT HE Hd s l o HR HS Ho1) as (s' & E & HR' & HS').
  { destruct o as [o|k|k|mn mx a b r]; [destruct o; try exact I; intros _; exact HV|..]; exact I. }
  unfold skl_do in E. rewrite E. destruct (sp_kstep eqb vltb key kltb o l) as [r1 l1]. cbn [fst snd] in *.
  destruct (IH s' l1 HR' HS' Ho2 HF) as [H1 H2]. unfold drift, sp_krun in H1, H2.
  destruct (run _ h s') as [rs s2]. destruct (run _ (map snd h) l1) as [rs' l2]. cbn [fst snd] in *. subst rs. split; [reflexivity|exact H2].
Qed.

(** Knows the keys of new values only. *)
Definition new_only (v : nat) : res nat := if v <? 100 then Err TypeError else Ok (last_digit v).
Definition forgetful : list ((nat -> res nat) * kop nat nat) :=
  [(new_only, KList (LAdd 104)); (new_only, KList (LContains 104)); (new_only, KList (LGet 3)); (new_only, KList (LUpdate [103]));
   (new_only, KList (LDelSlice (mkslice (Some 5%Z) (Some 6%Z) None))); (new_only, KList LIter)].

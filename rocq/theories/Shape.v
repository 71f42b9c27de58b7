(** * Structural invariant of SortedKeyList, independent of the order (proofs)

    Nothing in this file assumes that comparisons are consistent or do not
    raise. *)
From Verif Require Import PyBase BaseFacts Model IndexFacts.
From Coq Require Import Sorting.Permutation.
Local Unset Implicit Arguments.

(** One sublist with its cached keys and its cached maximum. *)
Record row (V K : Type) : Type := mkrow { r_l : list V; r_k : list K; r_m : K }.
Arguments mkrow {V K}. Arguments r_l {V K}. Arguments r_k {V K}. Arguments r_m {V K}.

(** Evaluate field updates. *)
Ltac ev :=
  unfold on_kc, set_kc, set_keys, set_lists, set_maxes, set_len, set_index, set_offset, set_load;
  cbn [rbind kc keys lists maxes index offset len load].

Section Mid.
  Context {A B : Type} (f : A -> B).
  Lemma getn_mid RA r RB : getn (map f (RA ++ r :: RB)) (length RA) = Ok (f r).
  Proof. rewrite map_app. cbn. apply getn_app'. rewrite map_length. reflexivity. Qed.
  Lemma updn_mid RA r RB g : updn (map f (RA ++ r :: RB)) (length RA) g =
    let! y := g (f r) in Ok (map f RA ++ y :: map f RB).
  Proof. rewrite map_app. cbn. rewrite <- (map_length f RA). apply updn_app. Qed.
  Lemma setn_mid RA r RB y : setn (map f (RA ++ r :: RB)) (length RA) y =
    Ok (map f RA ++ y :: map f RB).
  Proof. unfold setn. rewrite updn_mid. reflexivity. Qed.
  Lemma deln_mid RA r RB : deln (map f (RA ++ r :: RB)) (length RA) = Ok (map f (RA ++ RB)).
  Proof. rewrite !map_app. cbn. rewrite <- (map_length f RA). apply deln_app. Qed.
  Lemma insn_mid RA y X z : insn (map f RA ++ y :: X) (length RA + 1) z = map f RA ++ y :: z :: X.
  Proof. rewrite <- (map_length f RA). apply insn_app_S. Qed.
  Lemma map_mid RA r RB : map f RA ++ f r :: map f RB = map f (RA ++ r :: RB).
  Proof. rewrite map_app. reflexivity. Qed.
End Mid.

Lemma Forall_removelast_mid {A} (P : A -> Prop) X y Z :
  Forall P (removelast (X ++ y :: Z)) <->
  Forall P X /\ (Z <> [] -> P y /\ Forall P (removelast Z)).
Proof.
  rewrite removelast_app by discriminate. rewrite Forall_app.
  destruct Z as [|z Z].
  - cbn. split; [intros [H _]; split; [exact H|congruence]|]. intros [H _]. auto.
  - change (removelast (y :: z :: Z)) with (y :: removelast (z :: Z)).
    split.
    + intros [H H2]. inversion H2; subst. split; [exact H|auto].
    + intros [H H2]. destruct H2 as [H2 H3]; [discriminate|]. auto.
Qed.

Definition SizesOK {V} (ld : nat) (ls : list (list V)) : Prop :=
  Forall (fun l => length l <= 2 * ld) ls /\
  Forall (fun l => ld / 2 <= length l) (removelast ls).

Section Shape.
  Context {V K : Type}.
  Variable kf : V -> res K.
  Notation row := (row V K).
  Notation SKL := (skl V K).

  Definition row_ok (r : row) : Prop :=
    mapR kf (r_l r) = Ok (r_k r) /\ getlast (r_k r) = Ok (r_m r).

  Definition lens_of (rows : list row) : list nat := map (fun r => length (r_l r)) rows.

  Record Shape0 (s : SKL) (rows : list row) : Prop := {
    sh_lists : lists (kc s) = map r_l rows;
    sh_keys : keys s = map r_k rows;
    sh_maxes : maxes (kc s) = map r_m rows;
    sh_rows : Forall row_ok rows;
    sh_load : 1 <= load (kc s);
    sh_sizes : SizesOK (load (kc s)) (map r_l rows);
    sh_index : IndexOK (lens_of rows) (index (kc s)) (offset (kc s)) }.

  Definition Shape (s : SKL) : Prop :=
    exists rows, Shape0 s rows /\ len (kc s) = length (contents (kc s)).

  Lemma row_ok_len r : row_ok r -> length (r_k r) = length (r_l r).
  Proof. intros [H _]. eapply mapR_length; eauto. Qed.
  Lemma row_ok_ne r : row_ok r -> 1 <= length (r_l r).
  Proof.
    intros H. rewrite <- row_ok_len by exact H. destruct H as [_ H].
    destruct (r_k r); [discriminate|cbn; lia].
  Qed.

  Lemma row_make l ks : mapR kf l = Ok ks -> l <> [] -> exists m, getlast ks = Ok m /\ row_ok (mkrow l ks m).
  Proof.
    intros H Hl. destruct (getlast_ne ks) as [m Hm].
    - apply mapR_length in H. destruct ks; [|discriminate]. destruct l; [congruence|discriminate].
    - exists m. split; [exact Hm|]. split; assumption.
  Qed.

  Lemma lens_app RA RB : lens_of (RA ++ RB) = lens_of RA ++ lens_of RB.
  Proof. apply map_app. Qed.

  Lemma concat_mid (RA : list row) r RB :
    concat (map r_l (RA ++ r :: RB)) = concat (map r_l RA) ++ r_l r ++ concat (map r_l RB).
  Proof. rewrite map_app, concat_app. reflexivity. Qed.

  Lemma nth_mid_same (X Y : list nat) a : nth (length X) (X ++ a :: Y) 0 = a.
  Proof. rewrite app_nth2, Nat.sub_diag by lia. reflexivity. Qed.
  Lemma nth_mid_other (X Y : list nat) a b i : i <> length X ->
    nth i (X ++ a :: Y) 0 = nth i (X ++ b :: Y) 0.
  Proof.
    intros H. destruct (Nat.lt_ge_cases i (length X)) as [Hlt|Hge].
    - rewrite !app_nth1 by lia. reflexivity.
    - rewrite !app_nth2 by lia. destruct (i - length X) eqn:E; [lia|reflexivity].
  Qed.

  (** The patched index after one more / one less value in a sublist. *)
  Lemma index_inc_ok (c : core V K) X Y n :
    index c = [] \/ IndexFor (X ++ n :: Y) (index c) (offset c) ->
    exists ix, index_inc c (length X) = Ok (set_index ix c) /\ IndexOK (X ++ S n :: Y) ix (offset c).
  Proof.
    intros H. unfold index_inc. destruct H as [H|H].
    - rewrite H. cbn. exists []. split; [|left; reflexivity]. destruct c; cbn in *; subst. reflexivity.
    - assert (Hne : is_nil (index c) = false).
      { destruct H as (D & ? & ? & ? & ? & Hl & _). destruct (index c); [cbn in Hl; lia|reflexivity]. }
      rewrite Hne.
      destruct (index_walk_ok (fun n => Ok (n + 1)) (X ++ n :: Y) (X ++ S n :: Y) (index c) (offset c) (length X))
        as (ix & H1 & H2).
      + exact inc_shift.
      + exact H.
      + rewrite !app_length. reflexivity.
      + rewrite app_length. cbn. lia.
      + rewrite !nth_mid_same. f_equal. lia.
      + intros i Hi. apply nth_mid_other. exact Hi.
      + rewrite H1. cbn. exists ix. split; [reflexivity|right; exact H2].
  Qed.
  Lemma index_dec_ok (c : core V K) X Y n :
    index c = [] \/ IndexFor (X ++ S n :: Y) (index c) (offset c) ->
    exists ix, index_dec c (length X) = Ok (set_index ix c) /\ IndexOK (X ++ n :: Y) ix (offset c).
  Proof.
    intros H. unfold index_dec. destruct H as [H|H].
    - rewrite H. cbn. exists []. split; [|left; reflexivity]. destruct c; cbn in *; subst. reflexivity.
    - assert (Hne : is_nil (index c) = false).
      { destruct H as (D & ? & ? & ? & ? & Hl & _). destruct (index c); [cbn in Hl; lia|reflexivity]. }
      rewrite Hne.
      destruct (index_walk_ok (fun n => subc n 1) (X ++ S n :: Y) (X ++ n :: Y) (index c) (offset c) (length X))
        as (ix & H1 & H2).
      + exact dec_shift.
      + exact H.
      + rewrite !app_length. reflexivity.
      + rewrite app_length. cbn. lia.
      + rewrite !nth_mid_same. unfold subc. cbn [Nat.leb]. f_equal. lia.
      + intros i Hi. apply nth_mid_other. exact Hi.
      + rewrite H1. cbn. exists ix. split; [reflexivity|right; exact H2].
  Qed.

  (** ** [_expand] *)
  Lemma expand_ok s RA r RB :
    lists (kc s) = map r_l (RA ++ r :: RB) ->
    keys s = map r_k (RA ++ r :: RB) ->
    maxes (kc s) = map r_m (RA ++ r :: RB) ->
    Forall row_ok (RA ++ r :: RB) ->
    1 <= load (kc s) ->
    length (r_l r) <= 3 * load (kc s) ->
    Forall (fun l => length l <= 2 * load (kc s)) (map r_l (RA ++ RB)) ->
    Forall (fun l => load (kc s) / 2 <= length l) (removelast (map r_l (RA ++ r :: RB))) ->
    (index (kc s) = [] \/
     exists n, length (r_l r) = S n /\ IndexFor (lens_of RA ++ n :: lens_of RB) (index (kc s)) (offset (kc s))) ->
    exists s' rows', skl_expand (length RA) s = (Ok tt, s') /\ Shape0 s' rows' /\
      contents (kc s') = contents (kc s) /\ len (kc s') = len (kc s) /\ load (kc s') = load (kc s).
  Proof.
    destruct s as [[ls ms ix off n ld] kss]. cbn [kc keys lists maxes index offset len load].
    intros -> -> -> HR Hld H3 H2 Hh Hix.
    assert (Hr : row_ok r) by (rewrite Forall_app in HR; destruct HR as [_ HR]; inversion HR; assumption).
    assert (Hrk := row_ok_len r Hr). pose proof Hr as [Hm Hg].
    unfold skl_expand, modifyR. cbn [kc keys lists maxes index offset len load].
    rewrite getn_mid. cbn [rbind].
    destruct (Nat.ltb_spec (ld * 2) (length (r_k r))) as [Hgt|Hle].
    - (* split *)
      rewrite getn_mid. cbn [rbind]. rewrite !setn_mid. cbn [rbind].
      destruct (row_make (firstn ld (r_l r)) (firstn ld (r_k r))) as (m & Hgm & Hrow1).
      { apply mapR_firstn. exact Hm. }
      { intros E. apply (f_equal (@length V)) in E. rewrite firstn_length in E. cbn in E. lia. }
      destruct (row_make (skipn ld (r_l r)) (skipn ld (r_k r))) as (hm & Hghm & Hrow2).
      { apply mapR_skipn. exact Hm. }
      { intros E. apply (f_equal (@length V)) in E. rewrite skipn_length in E. cbn in E. lia. }
      rewrite Hgm, Hghm. cbn [rbind]. rewrite setn_mid. cbn [rbind].
      set (r1 := mkrow (firstn ld (r_l r)) (firstn ld (r_k r)) m) in *.
      set (r2 := mkrow (skipn ld (r_l r)) (skipn ld (r_k r)) hm) in *.
      rewrite !insn_mid.
      eexists _, (RA ++ r1 :: r2 :: RB). split; [reflexivity|].
      assert (E : forall (B : Type) (f : row -> B),
                map f RA ++ f r1 :: f r2 :: map f RB = map f (RA ++ r1 :: r2 :: RB)).
      { intros. rewrite map_app. reflexivity. }
      assert (Hc : concat (map r_l RA ++ firstn ld (r_l r) :: skipn ld (r_l r) :: map r_l RB)
                   = concat (map r_l (RA ++ r :: RB))).
      { rewrite map_app, !concat_app. cbn. rewrite app_assoc with (l := firstn ld (r_l r)).
        rewrite firstn_skipn. reflexivity. }
      split; [|cbn; auto].
      constructor; cbn [kc keys lists maxes index offset len load set_index set_lists set_maxes].
      + apply (E _ r_l).
      + apply (E _ r_k).
      + apply (E _ r_m).
      + rewrite Forall_app in *. destruct HR as [HRA HRB]. inversion HRB; subst. auto.
      + exact Hld.
      + split.
        * rewrite map_app in *. cbn [map]. rewrite Forall_app in *. destruct H2 as [H2A H2B].
          split; [exact H2A|]. constructor; [|constructor; [|exact H2B]]; cbn [r1 r2 r_l].
          -- rewrite firstn_length. lia.
          -- rewrite skipn_length. lia.
        * rewrite map_app in *. cbn [map] in *. apply Forall_removelast_mid in Hh as [HhA HhB].
          apply Forall_removelast_mid. split; [exact HhA|]. intros _.
          assert (Hd : ld / 2 <= ld) by (apply Nat.div_le_upper_bound; lia).
          split; [cbn [r1 r_l]; rewrite firstn_length; lia|].
          change (r_l r2 :: map r_l RB) with ([] ++ r_l r2 :: map r_l RB).
          apply Forall_removelast_mid. split; [constructor|]. intros HB.
          destruct (HhB HB) as [_ HB']. split; [|exact HB'].
          cbn [r2 r_l]. rewrite skipn_length. lia.
      + left. reflexivity.
    - (* no split *)
      set (c0 := mkcore (map r_l (RA ++ r :: RB)) (map r_m (RA ++ r :: RB)) ix off n ld).
      assert (Hn : exists n', length (r_l r) = S n' /\
                (index c0 = [] \/ IndexFor (lens_of RA ++ n' :: lens_of RB) (index c0) (offset c0))).
      { pose proof (row_ok_ne r Hr). destruct Hix as [Hix|(n' & Hn' & Hix)].
        - exists (length (r_l r) - 1). split; [lia|]. left. exact Hix.
        - exists n'. split; [exact Hn'|]. right. exact Hix. }
      destruct Hn as (n' & Hn' & Hix').
      destruct (index_inc_ok c0 _ _ _ Hix') as (ix' & Hi & HI).
      unfold lens_of in Hi at 1. rewrite map_length in Hi.
      rewrite Hi. cbn [rbind]. eexists _, (RA ++ r :: RB). split; [reflexivity|].
      split; [|cbn; auto].
      constructor; cbn; auto.
      + split; [|exact Hh]. rewrite map_app in *. cbn [map]. rewrite Forall_app in *.
        destruct H2 as [H2A H2B]. split; [exact H2A|]. constructor; [lia|exact H2B].
      + rewrite lens_app. cbn [lens_of map]. rewrite Hn'. exact HI.
  Qed.

  (** ** Two-level search *)
  Lemma concat_keys_last rows t x : Forall row_ok rows ->
    concat (map r_k rows) = t ++ [x] -> exists R r, rows = R ++ [r] /\ r_m r = x.
  Proof.
    intros HR E. destruct rows as [|r0 rows0]; [destruct t; discriminate|].
    destruct (exists_last (l := r0 :: rows0)) as (R & r & Er); [discriminate|].
    rewrite Er in *. exists R, r. split; [reflexivity|].
    rewrite Forall_app in HR. destruct HR as [_ HR]. inversion HR as [|? ? [_ Hg] _]; subst.
    apply getlast_Ok in Hg as [a Ha].
    rewrite map_app, concat_app in E. cbn in E. rewrite app_nil_r, Ha, app_assoc in E.
    apply app_inj_tail in E as [_ E]. exact E.
  Qed.

  Lemma two_level p rows pos : Forall row_ok rows -> bs p (map r_m rows) = Ok pos ->
    (pos = length rows /\ Split p (concat (map r_k rows)) []) \/
    (exists RA r RB, rows = RA ++ r :: RB /\ pos = length RA /\
       forall idx, bs p (r_k r) = Ok idx ->
         idx < length (r_k r) /\
         Split p (concat (map r_k RA) ++ firstn idx (r_k r))
                 (skipn idx (r_k r) ++ concat (map r_k RB))).
  Proof.
    intros HR H. apply bs_Ok in H as [Hle [HS1 HS2]]. rewrite map_length in Hle.
    destruct (Nat.eq_dec pos (length rows)) as [->|Hne].
    - left. split; [reflexivity|]. split; [intros x t E; discriminate|].
      intros t x E. destruct (concat_keys_last rows t x HR E) as (R & r & Er & Hm).
      apply (HS2 (map r_m R) x). subst rows x. rewrite firstn_all2 by (rewrite map_length; lia).
      rewrite map_app. reflexivity.
    - right. destruct (split_at rows pos ltac:(lia)) as (RA & r & RB & -> & Hpos).
      exists RA, r, RB. split; [reflexivity|]. split; [auto|].
      rewrite <- Hpos, <- (map_length r_m RA), map_app in HS1, HS2.
      rewrite skipn_app_len in HS1. rewrite firstn_app_len in HS2.
      rewrite Forall_app in HR. destruct HR as [HRA HRB]. inversion HRB as [|? ? [Hmr Hg] HRB']; subst.
      assert (Hpm : p (r_m r) = Ok true) by (eapply HS1; reflexivity).
      intros idx Hb. apply bs_Ok in Hb as [Hi [HT1 HT2]].
      apply getlast_Ok in Hg as [a Ha].
      assert (Hlt : idx < length (r_k r)).
      { destruct (Nat.eq_dec idx (length (r_k r))) as [->|]; [|lia].
        rewrite firstn_all in HT2. specialize (HT2 _ _ Ha). congruence. }
      split; [exact Hlt|]. split.
      + intros x t E. destruct (skipn idx (r_k r)) as [|y u] eqn:Es.
        * apply (f_equal (@length K)) in Es. rewrite skipn_length in Es. cbn in Es. lia.
        * injection E as -> _. eapply HT1. reflexivity.
      + intros t x E. destruct (firstn idx (r_k r)) as [|y u] eqn:Es.
        * rewrite app_nil_r in E. destruct (concat_keys_last RA t x HRA E) as (R & r' & -> & <-).
          apply (HS2 (map r_m R)). rewrite map_app. reflexivity.
        * destruct (exists_last (l := y :: u)) as (u' & z & Eu); [discriminate|].
          rewrite Eu in E, HT2. rewrite app_assoc in E. apply app_inj_tail in E as [_ <-].
          eapply HT2. reflexivity.
  Qed.

  Lemma concat_keys rows : Forall row_ok rows ->
    mapR kf (concat (map r_l rows)) = Ok (concat (map r_k rows)).
  Proof.
    induction 1 as [|r rows [Hr _] _ IH]; [reflexivity|].
    cbn [map concat]. apply mapR_app_Ok; assumption.
  Qed.

  Lemma shape_keys s rows : Shape0 s rows -> mapR kf (contents (kc s)) = Ok (concat (map r_k rows)).
  Proof. intros H. unfold contents. rewrite (sh_lists _ _ H). apply concat_keys, (sh_rows _ _ H). Qed.

  Lemma shape_nil s rows : Shape0 s rows -> is_nil (maxes (kc s)) = true -> rows = [].
  Proof.
    intros H E. apply is_nil_spec in E. rewrite (sh_maxes _ _ H) in E.
    destruct rows; [reflexivity|discriminate].
  Qed.

  (** ** [add] *)
  Lemma skl_add_gen klt v s : Shape s ->
    (exists e, skl_add klt kf v s = (Err e, s) /\
       (kf v = Err e \/ exists k y, kf v = Ok k /\ klt k y = Err e)) \/
    (exists s' k l1 l2 k1 k2,
       skl_add klt kf v s = (Ok tt, s') /\ Shape s' /\ load (kc s') = load (kc s) /\
       kf v = Ok k /\ contents (kc s) = l1 ++ l2 /\ contents (kc s') = l1 ++ v :: l2 /\
       mapR kf l1 = Ok k1 /\ mapR kf l2 = Ok k2 /\ Split (klt k) k1 k2).
  Proof.
    intros (rows & HS & Hlen). unfold skl_add, bind, liftr, get.
    destruct (kf v) as [k|e] eqn:Hk; [|left; eauto].
    pose proof HS as HS'. destruct HS' as [Hls Hks Hms HR Hld [Hsz Hhf] HI].
    destruct (is_nil (maxes (kc s))) eqn:Hnil.
    - (* first value *)
      assert (Hrows := shape_nil _ _ HS Hnil). subst rows. right.
      destruct s as [[ls ms ix off n ld] kss]. cbn in *. subst ls kss ms.
      eexists _, k, [], [], [], []. cbn. split; [reflexivity|]. split.
      + exists [mkrow [v] [k] k]. cbn. split; [|unfold contents in *; cbn in *; lia]. constructor; cbn; auto.
        * constructor; [|constructor]. split; cbn; [rewrite Hk|]; reflexivity.
        * split; cbn; [constructor; [cbn; lia|constructor]|constructor].
        * destruct HI as [HI|HI]; [left; exact HI|]. destruct HI as (D & _ & _ & _ & H & _). cbn in H. lia.
      + repeat split; auto; intros; try discriminate. destruct t; discriminate.
    - rewrite bisect_right_bs. rewrite Hms.
      destruct (bs (klt k) (map r_m rows)) as [pos|e] eqn:Hb.
      2:{ left. apply bs_Err in Hb as (y & _ & Hy). exists e. split; [reflexivity|right; eauto]. }
      destruct (two_level _ _ _ HR Hb) as [[-> HSp]|(RA & r & RB & -> & -> & Hin)].
      + (* at the very end *)
        rewrite ?Hms, map_length, Nat.eqb_refl. right.
        destruct rows as [|r0 rows0]; [rewrite Hms in Hnil; discriminate|].
        destruct (exists_last (l := r0 :: rows0)) as (RA & r & Er); [discriminate|].
        rewrite Er in *. clear r0 rows0 Er.
        rewrite app_length. cbn [length]. replace (length RA + 1 - 1) with (length RA) by lia.
        assert (Hr : row_ok r) by (rewrite Forall_app in HR; destruct HR as [_ HR]; inversion HR; assumption).
        pose proof Hr as [Hm Hg].
        destruct s as [[ls ms ix off n ld] kss]. cbn [kc keys lists maxes index offset len load] in Hls, Hks, Hms, Hld, Hsz, Hhf, HI, Hlen. subst ls kss ms.
        unfold modifyR, modify. ev.
        rewrite updn_mid. ev.
        rewrite updn_mid. ev.
        rewrite setn_mid. ev. cbn [map].
        set (r' := mkrow (r_l r ++ [v]) (r_k r ++ [k]) k).
        assert (Hr' : row_ok r').
        { split; [apply mapR_app_Ok; [exact Hm|cbn; rewrite Hk; reflexivity]|apply getlast_snoc]. }
        assert (Hrb : forall s', s' = mkskl (mkcore (map r_l RA ++ [r_l r ++ [v]]) (map r_m RA ++ [k]) ix off n ld)
                          (map r_k RA ++ [r_k r ++ [k]]) ->
               exists s2 rows2, skl_expand (length RA) s' = (Ok tt, s2) /\ Shape0 s2 rows2 /\
                  contents (kc s2) = contents (kc s') /\ len (kc s2) = len (kc s') /\ load (kc s2) = load (kc s')).
        { intros s' ->. apply (expand_ok _ RA r' []); cbn [kc keys lists maxes index offset len load].
          - rewrite map_app. reflexivity.
          - rewrite map_app. reflexivity.
          - rewrite map_app. reflexivity.
          - rewrite Forall_app in *. destruct HR as [HRA _]. auto.
          - exact Hld.
          - cbn [r' r_l]. rewrite app_length. cbn. rewrite Forall_forall in Hsz.
            assert (length (r_l r) <= 2 * ld); [|lia]. apply Hsz. apply in_map. apply in_elt.
          - rewrite app_nil_r. rewrite map_app, Forall_app in Hsz. apply Hsz.
          - rewrite map_app in *. cbn [map] in *. apply Forall_removelast_mid in Hhf as [HhA _].
            apply Forall_removelast_mid. split; [exact HhA|congruence].
          - destruct HI as [HI|HI]; [left; exact HI|]. right. exists (length (r_l r)).
            split; [cbn [r' r_l]; rewrite app_length; cbn; lia|].
            rewrite lens_app in HI. exact HI. }
        destruct (Hrb _ eq_refl) as (s2 & rows2 & He & Hs2 & Hc2 & Hn2 & Hl2). rewrite He.
        cbn in Hc2, Hn2, Hl2.
        eexists _, k, (concat (map r_l (RA ++ [r]))), [], (concat (map r_k (RA ++ [r]))), [].
        split; [reflexivity|].
        assert (Hcc : contents (kc s2) = concat (map r_l (RA ++ [r])) ++ [v]).
        { rewrite Hc2. unfold contents. cbn. rewrite map_app, !concat_app. cbn.
          rewrite !app_nil_r, app_assoc. reflexivity. }
        split.
        * exists rows2. destruct Hs2. split; [constructor; assumption|].
          cbn. unfold contents in *. cbn in *. rewrite Hcc, app_length, Hn2, Hlen. cbn. lia.
        * split; [exact Hl2|]. split; [reflexivity|]. split; [unfold contents; cbn; rewrite app_nil_r; reflexivity|].
          split; [exact Hcc|]. split; [apply concat_keys; exact HR|]. split; [reflexivity|exact HSp].
      + (* inside *)
        rewrite ?Hms, map_length, app_length. cbn [length].
        destruct (Nat.eqb_spec (length RA) (length RA + S (length RB))) as [H|_]; [lia|].
        rewrite Hks, getn_mid. rewrite bisect_right_bs.
        destruct (bs (klt k) (r_k r)) as [idx|e] eqn:Hb2.
        2:{ left. apply bs_Err in Hb2 as (y & _ & Hy). exists e. split; [reflexivity|right; eauto]. }
        destruct (Hin idx eq_refl) as [Hi HSp]. right.
        assert (Hr : row_ok r) by (rewrite Forall_app in HR; destruct HR as [_ HR]; inversion HR; assumption).
        pose proof Hr as [Hm Hg]. assert (Hrk := row_ok_len r Hr).
        destruct s as [[ls ms ix off n ld] kss]. cbn [kc keys lists maxes index offset len load] in Hls, Hks, Hms, Hld, Hsz, Hhf, HI, Hlen. subst ls kss ms.
        unfold modifyR, modify. ev.
        rewrite updn_mid. ev.
        rewrite updn_mid. ev.
        set (r' := mkrow (insn (r_l r) idx v) (insn (r_k r) idx k) (r_m r)).
        assert (Hr' : row_ok r').
        { split; cbn [r' r_l r_k r_m]; unfold insn.
          - apply mapR_app_Ok; [apply mapR_firstn; exact Hm|].
            apply mapR_cons_Ok; [exact Hk|apply mapR_skipn; exact Hm].
          - change (k :: skipn idx (r_k r)) with ([k] ++ skipn idx (r_k r)). rewrite app_assoc.
            assert (Hne : skipn idx (r_k r) <> []).
            { intros E. apply (f_equal (@length K)) in E. rewrite skipn_length in E. cbn in E. lia. }
            rewrite getlast_app by exact Hne.
            rewrite <- (firstn_skipn idx (r_k r)), getlast_app in Hg by exact Hne. exact Hg. }
        assert (Hl' : length (r_l r') = S (length (r_l r))).
        { cbn [r' r_l]. unfold insn. rewrite app_length. cbn [length].
          rewrite firstn_length, skipn_length. lia. }
        assert (Hrb : forall s', s' = mkskl (mkcore (map r_l RA ++ insn (r_l r) idx v :: map r_l RB)
                              (map r_m (RA ++ r :: RB)) ix off n ld)
                          (map r_k RA ++ insn (r_k r) idx k :: map r_k RB) ->
               exists s2 rows2, skl_expand (length RA) s' = (Ok tt, s2) /\ Shape0 s2 rows2 /\
                  contents (kc s2) = contents (kc s') /\ len (kc s2) = len (kc s') /\ load (kc s2) = load (kc s')).
        { intros s' ->. apply (expand_ok _ RA r' RB); cbn [kc keys lists maxes index offset len load].
          - rewrite map_app. reflexivity.
          - rewrite map_app. reflexivity.
          - rewrite !map_app. reflexivity.
          - rewrite Forall_app in *. destruct HR as [HRA HRB]. inversion HRB; auto.
          - exact Hld.
          - rewrite Hl'. rewrite Forall_forall in Hsz.
            assert (length (r_l r) <= 2 * ld); [|lia]. apply Hsz. apply in_map. apply in_elt.
          - rewrite map_app, Forall_app in *. cbn [map] in Hsz. destruct Hsz as [H1 H2].
            inversion H2; subst. auto.
          - rewrite map_app in *. cbn [map] in *. apply Forall_removelast_mid in Hhf as [HhA HhB].
            apply Forall_removelast_mid. split; [exact HhA|]. intros HB.
            destruct (HhB HB) as [H1 H2]. split; [lia|exact H2].
          - destruct HI as [HI|HI]; [left; exact HI|]. right. exists (length (r_l r)).
            split; [exact Hl'|]. rewrite lens_app in HI. exact HI. }
        destruct (Hrb _ eq_refl) as (s2 & rows2 & He & Hs2 & Hc2 & Hn2 & Hl2). rewrite He.
        cbn in Hc2, Hn2, Hl2.
        eexists _, k, (concat (map r_l RA) ++ firstn idx (r_l r)), (skipn idx (r_l r) ++ concat (map r_l RB)),
          (concat (map r_k RA) ++ firstn idx (r_k r)), (skipn idx (r_k r) ++ concat (map r_k RB)).
        split; [reflexivity|].
        assert (Hcc : contents (kc s2) =
                  (concat (map r_l RA) ++ firstn idx (r_l r)) ++ v :: skipn idx (r_l r) ++ concat (map r_l RB)).
        { rewrite Hc2. unfold contents. cbn. rewrite concat_app. cbn. unfold insn.
          rewrite <- !app_assoc. reflexivity. }
        assert (Hc0 : concat (map r_l (RA ++ r :: RB)) =
                  (concat (map r_l RA) ++ firstn idx (r_l r)) ++ skipn idx (r_l r) ++ concat (map r_l RB)).
        { rewrite concat_mid, <- (firstn_skipn idx (r_l r)) at 1. rewrite <- !app_assoc. reflexivity. }
        rewrite Forall_app in HR. destruct HR as [HRA HRB]. assert (HRB' := Forall_inv_tail HRB).
        split.
        * exists rows2. destruct Hs2. split; [constructor; assumption|].
          cbn. unfold contents in *. cbn in *. rewrite Hcc, Hn2, Hlen, Hc0, !app_length. cbn.
          rewrite !app_length. lia.
        * split; [exact Hl2|]. split; [reflexivity|]. split; [exact Hc0|].
          split; [exact Hcc|].
          split; [apply mapR_app_Ok; [apply concat_keys; exact HRA|apply mapR_firstn; exact Hm]|].
          split; [apply mapR_app_Ok; [apply mapR_skipn; exact Hm|apply concat_keys; exact HRB']|exact HSp].
  Qed.

  (** ** [_delete] *)
  Lemma skl_delete_ok s RA r RB a x b :
    Shape0 s (RA ++ r :: RB) -> len (kc s) = length (contents (kc s)) -> r_l r = a ++ x :: b ->
    exists s', skl_delete (length RA) (length a) s = (Ok tt, s') /\ Shape s' /\
      load (kc s') = load (kc s) /\
      contents (kc s') = concat (map r_l RA) ++ (a ++ b) ++ concat (map r_l RB).
  Proof.
    intros HS Hlen Hx. pose proof HS as [Hls Hks Hms HR Hld [Hsz Hhf] HI].
    assert (Hr : row_ok r) by (rewrite Forall_app in HR; destruct HR as [_ HR]; inversion HR; assumption).
    pose proof Hr as [Hm Hg]. assert (Hrk := row_ok_len r Hr).
    rewrite Hx in Hm. apply mapR_app_inv in Hm as (ka & kxb & Ekx & Hka & Hkxb).
    apply mapR_cons_inv in Hkxb as (kx & kb & -> & Hkx & Hkb).
    assert (Hlka := mapR_length _ _ _ Hka). assert (Hlkb := mapR_length _ _ _ Hkb).
    assert (Hab : mapR kf (a ++ b) = Ok (ka ++ kb)) by (apply mapR_app_Ok; assumption).
    assert (Hlr : length (r_l r) = S (length (a ++ b))).
    { rewrite Hx, !app_length. cbn. lia. }
    assert (Hlk : length (ka ++ kb) = length (a ++ b)) by (rewrite !app_length; lia).
    destruct s as [[ls ms ix off n ld] kss]. cbn [kc keys lists maxes index offset len load] in Hls, Hks, Hms, Hld, Hsz, Hhf, HI, Hlen. subst ls kss ms.
    assert (Hn : n = S (length (concat (map r_l RA) ++ (a ++ b) ++ concat (map r_l RB)))).
    { rewrite Hlen. unfold contents. cbn [lists]. rewrite concat_mid, !app_length, Hlr, !app_length. lia. }
    clear Hlen. subst n.
    rewrite Forall_app in HR. destruct HR as [HRA HRB]. assert (HRB' := Forall_inv_tail HRB).
    assert (Hszr : length (r_l r) <= 2 * ld).
    { rewrite Forall_forall in Hsz. apply Hsz. apply in_map. apply in_elt. }
    unfold skl_delete, bind, modifyR, modify, get, liftr.
    ev.
    rewrite updn_mid, Ekx, <- Hlka, deln_app.
    ev.
    rewrite updn_mid, Hx, Hlka, deln_app.
    ev.
    unfold subc. cbn [Nat.leb Nat.sub]. rewrite Nat.sub_0_r.
    ev.
    rewrite (getn_app' (map r_k RA)) by (rewrite map_length; reflexivity).
    remember (length (concat (map r_l RA) ++ (a ++ b) ++ concat (map r_l RB))) as n' eqn:Hn'.
    destruct (Nat.ltb_spec (ld / 2) (length (ka ++ kb))) as [Hbig|Hsmall].
    - (* large enough *)
      destruct (row_make (a ++ b) (ka ++ kb) Hab) as (m & Hgm & Hrow).
      { intros E. rewrite E in Hlk. rewrite Hlk in Hbig. cbn in Hbig. lia. }
      rewrite Hgm. ev. rewrite setn_mid.
      ev.
      set (r' := mkrow (a ++ b) (ka ++ kb) m) in *.
      set (c0 := mkcore (map r_l RA ++ (a ++ b) :: map r_l RB) (map r_m RA ++ m :: map r_m RB) ix off n' ld).
      assert (HI' : index c0 = [] \/ IndexFor (lens_of RA ++ S (length (a ++ b)) :: lens_of RB) (index c0) (offset c0)).
      { destruct HI as [HI|HI]; [left; exact HI|right]. rewrite lens_app in HI. cbn in HI.
        rewrite Hlr in HI. exact HI. }
      destruct (index_dec_ok c0 _ _ _ HI') as (ix' & Hd & HI2).
      unfold lens_of in Hd at 1. rewrite map_length in Hd. rewrite Hd. ev.
      eexists. split; [reflexivity|]. split; [|split; [reflexivity|]].
      + exists (RA ++ r' :: RB). split.
        * constructor; cbn; try (rewrite map_app; reflexivity); auto.
          -- apply Forall_app. auto.
          -- rewrite map_app in *. cbn [map] in *. split.
             ++ rewrite Forall_app in *. destruct Hsz as [H1 H2]. inversion H2; subst.
                split; [exact H1|]. constructor; [cbn; lia|assumption].
             ++ apply Forall_removelast_mid in Hhf as [HhA HhB].
                apply Forall_removelast_mid. split; [exact HhA|]. intros HB.
                destruct (HhB HB) as [_ H2]. split; [cbn [r' r_l]; lia|exact H2].
          -- rewrite lens_app. exact HI2.
        * unfold contents. cbn. rewrite concat_app. exact Hn'.
      + unfold contents. cbn. rewrite concat_app. reflexivity.
    - rewrite app_length. cbn [length]. rewrite map_length.
      destruct (Nat.ltb_spec 1 (length RA + S (length (map r_k RB)))) as [Hmany|Hone].
      + (* merge with a neighbour *)
        (* the row [prev] after the merge, the rows before and after *)
        assert (Hmerge : exists P q1 k1 q2 k2 Q,
                  (if length RA =? 0 then length RA + 1 else length RA) = length P + 1 /\
                  map r_l RA ++ (a ++ b) :: map r_l RB = map r_l P ++ q1 :: q2 :: map r_l Q /\
                  map r_k RA ++ (ka ++ kb) :: map r_k RB = map r_k P ++ k1 :: k2 :: map r_k Q /\
                  (exists m1 m2, map r_m (RA ++ r :: RB) = map r_m P ++ m1 :: m2 :: map r_m Q) /\
                  mapR kf (q1 ++ q2) = Ok (k1 ++ k2) /\ q1 ++ q2 <> [] /\
                  length (q1 ++ q2) <= 3 * ld /\ Forall row_ok P /\ Forall row_ok Q /\
                  Forall (fun l => length l <= 2 * ld) (map r_l (P ++ Q)) /\
                  Forall (fun l => ld / 2 <= length l) (removelast (map r_l P ++ (q1 ++ q2) :: map r_l Q))).
        { rewrite map_app in Hsz, Hhf. cbn [map] in Hsz, Hhf.
          rewrite Forall_app in Hsz. destruct Hsz as [HszA HszB]. inversion HszB as [|? ? _ HszB']; subst.
          apply Forall_removelast_mid in Hhf as [HhA HhB].
          assert (Hd : ld / 2 <= ld) by (apply Nat.div_le_upper_bound; lia).
          destruct RA as [|ra RA'].
          - destruct RB as [|r2 RB']; [cbn in Hmany; lia|].
            inversion HRB' as [|? ? Hr2 HRB'']; subst. cbn [map] in HszB', HhB.
            inversion HszB' as [|? ? Hs2 HszB'']; subst.
            destruct (HhB ltac:(discriminate)) as [_ HhB'].
            change (r_l r2 :: map r_l RB') with ([] ++ r_l r2 :: map r_l RB') in HhB'.
            apply Forall_removelast_mid in HhB' as [_ HhB''].
            exists [], (a ++ b), (ka ++ kb), (r_l r2), (r_k r2), RB'.
            split; [reflexivity|]. split; [reflexivity|]. split; [reflexivity|].
            split; [exists (r_m r), (r_m r2); reflexivity|].
            split; [apply mapR_app_Ok; [exact Hab|apply Hr2]|].
            assert (Hne := row_ok_ne r2 Hr2).
            split; [intros E; apply app_eq_nil in E as [_ E]; rewrite E in Hne; cbn in Hne; lia|].
            split; [rewrite app_length; lia|]. split; [constructor|]. split; [exact HRB''|].
            split; [exact HszB''|].
            apply Forall_removelast_mid. split; [constructor|]. intros HB.
            destruct (HhB'' HB) as [H1 H2]. split; [rewrite app_length; lia|exact H2].
          - destruct (exists_last (l := ra :: RA')) as (P & r0 & E); [discriminate|].
            rewrite E in *. clear ra RA' E.
            rewrite Forall_app in HRA. destruct HRA as [HP Hr0]. inversion Hr0 as [|? ? Hr0' _]; subst.
            rewrite map_app, Forall_app in HszA, HhA. cbn [map] in HszA, HhA.
            destruct HszA as [HszP Hsz0]. inversion Hsz0; subst.
            destruct HhA as [HhP Hh0]. inversion Hh0; subst.
            exists P, (r_l r0), (r_k r0), (a ++ b), (ka ++ kb), RB.
            rewrite app_length. cbn [length].
            split; [destruct (Nat.eqb_spec (length P + 1) 0); lia|].
            split; [rewrite map_app, <- app_assoc; reflexivity|].
            split; [rewrite map_app, <- app_assoc; reflexivity|].
            split; [exists (r_m r0), (r_m r); rewrite !map_app, <- app_assoc; reflexivity|].
            split; [apply mapR_app_Ok; [apply Hr0'|exact Hab]|].
            assert (Hne := row_ok_ne r0 Hr0').
            split; [intros E; apply app_eq_nil in E as [E _]; rewrite E in Hne; cbn in Hne; lia|].
            split; [rewrite app_length; lia|]. split; [exact HP|]. split; [exact HRB'|].
            split; [rewrite map_app, Forall_app; auto|].
            apply Forall_removelast_mid. split; [exact HhP|]. intros HB.
            destruct (HhB HB) as [_ H2']. split; [rewrite app_length; lia|exact H2']. }
        destruct Hmerge as (P & q1 & k1 & q2 & k2 & Q & Epos & EL & EK & (m1 & m2 & EM) & Hq & Hqne & Hq3 & HP & HQ & HszPQ & HhPQ).
        rewrite Epos. replace (length P + 1 - 1) with (length P) by lia.
        assert (Econt : concat (map r_l RA) ++ (a ++ b) ++ concat (map r_l RB)
                        = concat (map r_l P) ++ (q1 ++ q2) ++ concat (map r_l Q)).
        { assert (E := f_equal (@concat V) EL). rewrite !concat_app in E. cbn in E.
          rewrite E. rewrite <- app_assoc. reflexivity. }
        rewrite Econt.
        rewrite EL, EK, EM.
        ev.
        assert (G2 : forall (B : Type) (X : list B) y1 y2 Y,
                   getn (X ++ y1 :: y2 :: Y) (length X + 1) = Ok y2 /\
                   deln (X ++ y1 :: y2 :: Y) (length X + 1) = Ok (X ++ y1 :: Y)).
        { intros B X y1 y2 Y. replace (X ++ y1 :: y2 :: Y) with ((X ++ [y1]) ++ y2 :: Y)
            by (rewrite <- app_assoc; reflexivity).
          replace (length X + 1) with (length (X ++ [y1])) by (rewrite app_length; reflexivity).
          rewrite getn_app, deln_app, <- app_assoc. auto. }
        assert (G2m : forall (B : Type) (f : row -> B) y1 y2 Y,
                   getn (map f P ++ y1 :: y2 :: Y) (length P + 1) = Ok y2 /\
                   deln (map f P ++ y1 :: y2 :: Y) (length P + 1) = Ok (map f P ++ y1 :: Y)).
        { intros. rewrite <- (map_length f P). apply G2. }
        assert (U2m : forall (B : Type) (f : row -> B) y1 Y g,
                   updn (map f P ++ y1 :: Y) (length P) g = let! y := g y1 in Ok (map f P ++ y :: Y)).
        { intros. rewrite <- (map_length f P). apply updn_app. }
        rewrite (proj1 (G2m _ r_k _ _ _)). ev.
        rewrite U2m.
        ev.
        rewrite (proj1 (G2m _ r_l _ _ _)). ev. rewrite U2m.
        ev.
        rewrite (getn_app' (map r_k P)) by (rewrite map_length; reflexivity). ev.
        destruct (row_make (q1 ++ q2) (k1 ++ k2) Hq Hqne) as (mq & Hgq & Hrow).
        rewrite Hgq. ev. unfold setn. rewrite U2m.
        ev.
        rewrite (proj2 (G2m _ r_l _ _ _)).
        ev.
        rewrite (proj2 (G2m _ r_k _ _ _)).
        ev.
        rewrite (proj2 (G2m _ r_m _ _ _)).
        ev.
        set (rq := mkrow (q1 ++ q2) (k1 ++ k2) mq) in *.
        match goal with |- exists _, skl_expand _ ?st = _ /\ _ => set (s1 := st) end.
        destruct (expand_ok s1 P rq Q) as (s2 & rows2 & He & Hs2 & Hc2 & Hn2 & Hl2);
          subst s1; cbn [kc keys lists maxes index offset len load]; auto.
        * rewrite map_app. reflexivity.
        * rewrite map_app. reflexivity.
        * rewrite map_app. reflexivity.
        * apply Forall_app. auto.
        * rewrite map_app. exact HhPQ.
        * exists s2. cbn in Hc2, Hn2, Hl2. split; [exact He|].
          assert (Hcc : contents (kc s2) = concat (map r_l P) ++ (q1 ++ q2) ++ concat (map r_l Q)).
          { rewrite Hc2. unfold contents. cbn. rewrite concat_app. reflexivity. }
          split; [|split; [exact Hl2|exact Hcc]].
          exists rows2. split; [exact Hs2|]. rewrite Hn2, Hcc, Hn', Econt. reflexivity.
      + (* the only sublist *)
        destruct RA; [|cbn in Hone; lia]. destruct RB; [|cbn in Hone; lia].
        cbn [length map app concat] in *. rewrite app_nil_r in *.
        assert (Hix0 : ix = []).
        { destruct HI as [HI|HI]; [exact HI|]. destruct HI as (D & _ & _ & _ & H & _). cbn in H. lia. }
        destruct (Nat.ltb_spec 0 (length (ka ++ kb))) as [Hpos|Hzero].
        * destruct (row_make (a ++ b) (ka ++ kb) Hab) as (m & Hgm & Hrow).
          { intros E. rewrite E in Hlk. rewrite Hlk in Hpos. cbn in Hpos. lia. }
          rewrite Hgm. ev. cbn [setn updn]. ev.
          eexists. split; [reflexivity|]. cbn. split; [|split; [reflexivity|unfold contents; cbn; rewrite app_nil_r; reflexivity]].
          exists [mkrow (a ++ b) (ka ++ kb) m]. split.
          -- constructor; cbn; auto. split; cbn; [constructor; [lia|constructor]|constructor].
             left. exact Hix0.
          -- unfold contents. cbn. rewrite app_nil_r. exact Hn'.
        * destruct (a ++ b) eqn:Eab; [|rewrite Hlk in Hzero; cbn in Hzero; lia].
          destruct (ka ++ kb) eqn:Ekab; [|cbn in Hzero; lia].
          cbn. eexists. split; [reflexivity|]. cbn.
          split; [|split; reflexivity].
          exists []. split; [|exact Hn'].
          constructor; cbn; auto. split; constructor. left. reflexivity.
  Qed.
End Shape.

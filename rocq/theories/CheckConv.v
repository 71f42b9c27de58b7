(** * What a successful [_check] guarantees (proofs) *)
From Verif Require Import PyBase Model Spec History BaseFacts SpecFacts SliceFacts IndexFacts
  Shape CoreFacts VtFacts KeyFacts KeyLook ListSim ListFacts HistFacts CheckFacts CheckSpec.
From Coq Require Import Sorting.Permutation Sorting.Sorted.
Local Unset Implicit Arguments.

Lemma Ok_inj {A} (x y : A) : Ok x = Ok y -> x = y.
Proof. congruence. Qed.
Lemma rbind_Ok {A B} (r : res A) (f : A -> res B) y : (let! x := r in f x) = Ok y -> exists x, r = Ok x /\ f x = Ok y.
Proof. destruct r as [x|e]; cbn; [eauto|discriminate]. Qed.
Lemma assertR_Ok r u : assertR r = Ok u -> r = Ok true.
Proof. unfold assertR. destruct r as [[|]|]; cbn; congruence. Qed.
Lemma allR_Ok {A} (f : A -> res bool) l u : allR f l = Ok u -> forall x, In x l -> f x = Ok true.
Proof.
  unfold allR. intros H x Hx. apply rbind_Ok in H. destruct H as (us & H & _).
  destruct (mapR_all _ _ _ _ H Hx) as (y & E). apply assertR_Ok in E. exact E.
Qed.
Lemma Forall2_getn {A B} (R : A -> B -> Prop) a : forall b, length a = length b ->
  (forall i x y, getn a i = Ok x -> getn b i = Ok y -> R x y) -> Forall2 R a b.
Proof.
  induction a as [|x a IH]; intros [|y b] Hl H; try discriminate; constructor.
  - apply (H 0); reflexivity.
  - apply IH; [cbn in Hl; lia|]. intros i x' y' E1 E2. apply (H (S i)); [exact E1|exact E2].
Qed.

Section Order.
  Context {A : Type}.
  Variable ltb : A -> A -> bool.
  Hypothesis HO : SWO ltb.
  Lemma nlt_trans x y z : ltb y x = false -> ltb z y = false -> ltb z x = false.
  Proof.
    intros H1 H2. destruct (ltb z x) eqn:E; [|reflexivity].
    destruct (swo_cotrans HO z y x E); congruence.
  Qed.
  Lemma adj_sorted l : (forall i a b, getn l i = Ok a -> getn l (S i) = Ok b -> ltb b a = false) -> sorted ltb l.
  Proof.
    induction l as [|x l IH]; intros H; [apply sorted_nil|].
    assert (Hs : sorted ltb l) by (apply IH; intros i a b E1 E2; apply (H (S i)); assumption).
    change (x :: l) with ([x] ++ l). apply sorted_app; [|exact Hs|].
    - repeat constructor.
    - intros a b [<-|[]] Hb. destruct l as [|y l]; [destruct Hb|].
      assert (Hxy : ltb y x = false) by (apply (H 0); reflexivity).
      destruct Hb as [<-|Hb]; [exact Hxy|].
      destruct (sorted_cons_inv _ _ _ Hs) as [_ H']. apply (nlt_trans x y b Hxy). apply H', Hb.
  Qed.
  Lemma check_sublist_conv l u : check_sublist (total2 ltb) l = Ok u -> sorted ltb l.
  Proof.
    intros H. apply adj_sorted. intros i a b E1 E2.
    pose proof (allR_Ok _ _ _ H (S i)) as H1. cbv beta in H1. replace (S i - 1) with i in H1 by lia.
    rewrite E1, E2 in H1. unfold le_of, total2 in H1. cbn [rbind] in H1.
    assert (Hi : In (S i) (rangen 1 (length l))) by (apply in_rangen; apply getn_Ok_lt in E2; lia).
    apply H1 in Hi. destruct (ltb b a); [discriminate|reflexivity].
  Qed.
  Lemma ends_sorted ls : Forall (sorted ltb) ls -> Forall (fun l => l <> []) ls ->
    (forall i p q a b, getn ls i = Ok p -> getn ls (S i) = Ok q -> getlast p = Ok a -> getn q 0 = Ok b -> ltb b a = false) ->
    sorted ltb (concat ls).
  Proof.
    induction ls as [|l ls IH]; intros Hs Hne H; [apply sorted_nil|].
    inversion Hs as [|? ? H1 H2]; subst; inversion Hne as [|? ? H3 H4]; subst. cbn [concat].
    assert (Hc : sorted ltb (concat ls)).
    { apply IH; auto. intros i p q a b E1 E2. apply (H (S i)); assumption. }
    apply sorted_app; [exact H1|exact Hc|]. intros x y Hx Hy.
    destruct ls as [|q ls]; [destruct Hy|]. inversion H4 as [|? ? H5 _]; subst. destruct q as [|b q]; [congruence|].
    destruct (getlast_ne l H3) as [a Ea].
    assert (Hab : ltb b a = false) by (eapply (H 0); [reflexivity|reflexivity|exact Ea|reflexivity]).
    assert (Hbx : ltb b x = false).
    { destruct (getlast_Ok _ _ Ea) as [l0 ->]. apply in_app_iff in Hx. destruct Hx as [Hx|[<-|[]]]; [|exact Hab].
      destruct (sorted_app_inv _ _ _ H1) as (_ & _ & H6). apply (nlt_trans x a b); [apply H6; [exact Hx|left; reflexivity]|exact Hab]. }
    cbn in Hy. destruct Hy as [<-|Hy]; [exact Hbx|]. cbn in Hc.
    destruct (sorted_cons_inv _ _ _ Hc) as [_ H7]. apply (nlt_trans x b y Hbx). apply H7, Hy.
  Qed.
End Order.

Section Core.
  Context {V K : Type}.
  Lemma check_sizes_conv (c : core V K) u : check_sizes c = Ok u -> SizesOK (load c) (lists c).
  Proof.
    unfold check_sizes. intros H. apply rbind_Ok in H. destruct H as (u1 & H1 & H2). apply assertR_Ok in H1.
    apply Ok_inj in H1. rewrite forallb_forall in H1. split.
    - apply Forall_forall. intros l Hl. apply H1, Nat.leb_le in Hl. lia.
    - destruct (lists c) as [|l0 ls] eqn:El; [constructor|].
      assert (Hn : l0 :: ls <> []) by discriminate.
      destruct (exists_last Hn) as (X & y & E). rewrite E in *. rewrite removelast_last.
      apply Forall_forall. intros l Hl. destruct (in_split _ _ Hl) as (X1 & X2 & EX). subst X.
      pose proof (allR_Ok _ _ _ H2 (length X1)) as H3. cbv beta in H3. rewrite <- app_assoc in H3. cbn [app] in H3. rewrite getn_app in H3. cbn [rbind] in H3.
      assert (Hi : In (length X1) (rangen 0 (length (X1 ++ l :: X2 ++ [y]) - 1))).
      { apply in_rangen. rewrite !app_length. cbn [length]. rewrite app_length. cbn. lia. }
      apply H3 in Hi. apply Ok_inj in Hi. apply Nat.leb_le in Hi. exact Hi.
  Qed.

  (** The leaves of a row of a tree, and the sums above them. *)
  Lemma check_index_conv (c : core V K) u : check_index c = Ok u -> Forall (fun l => l <> []) (lists c) ->
    len c = length (contents c) -> tree_row c -> IndexOK (clens c) (index c) (offset c).
  Proof.
    intros H Hne Hlen [E|[H2 [D HD]]]; [left; exact E|]. unfold check_index in H.
    destruct (is_nil (index c)) eqn:En; [left; destruct (index c); [reflexivity|discriminate]|]. right.
    apply rbind_Ok in H. destruct H as (u1 & Ha & H). apply assertR_Ok in Ha.
    apply rbind_Ok in H. destruct H as (u2 & Hb & H). apply assertR_Ok in Hb. apply Ok_inj in Hb. apply Nat.eqb_eq in Hb.
    apply rbind_Ok in H. destruct H as (u3 & Hc & H).
    assert (Hll : length (clens c) = length (lists c)) by (unfold clens; apply map_length).
    pose proof (pow2_pos D) as HP. set (ix := index c) in *. set (off := offset c) in *.
    assert (Hoff : off = 2 ^ D - 1) by lia.
    (* the root *)
    apply rbind_Ok in Ha. destruct Ha as (r & Er & Ha). apply Ok_inj in Ha. apply Nat.eqb_eq in Ha.
    rewrite getn_nth in Er by lia. apply Ok_inj in Er.
    (* the leaves *)
    assert (Hleaf : forall i, i < length (lists c) -> nd ix (off + i) = nth i (clens c) 0).
    { intros i Hi. pose proof (allR_Ok _ _ _ Hc i) as H1. cbv beta in H1.
      rewrite getn_nth in H1 by lia. cbn [rbind] in H1. destruct (getn_lt (lists c) i Hi) as [l El]. rewrite El in H1. cbn [rbind] in H1.
      assert (Hin : In i (rangen 0 (length (lists c)))) by (apply in_rangen; lia). apply H1 in Hin. apply Ok_inj in Hin.
      apply Nat.eqb_eq in Hin. rewrite Hin. destruct (getn_Ok _ _ _ El) as (X & Y & E & EL). unfold clens. rewrite E, <- EL.
      rewrite map_app, app_nth2 by (rewrite map_length; lia). rewrite map_length, Nat.sub_diag. reflexivity. }
    (* the sums *)
    assert (Hsum : forall p, p < off -> nd ix p = nd ix (2 * p + 1) + nd ix (2 * p + 2)).
    { intros p Hp. pose proof (allR_Ok _ _ _ H p) as H1. cbv beta zeta in H1.
      assert (Hin : In p (rangen 0 off)) by (apply in_rangen; lia). apply H1 in Hin. clear H1.
      rewrite getn_nth in Hin by lia. cbn [rbind] in Hin. replace (p * 2 + 1) with (2 * p + 1) in Hin by lia.
      destruct (Nat.leb_spec (length ix) (2 * p + 1)) as [Hx|Hx].
      - apply Ok_inj in Hin. apply Nat.eqb_eq in Hin. rewrite (nd_out ix (2 * p + 1)), (nd_out ix (2 * p + 2)) by lia. exact Hin.
      - rewrite getn_nth in Hin by lia. cbn [rbind] in Hin.
        destruct (Nat.eqb_spec (2 * p + 1 + 1) (length ix)) as [Hy|Hy].
        + apply Ok_inj in Hin. apply Nat.eqb_eq in Hin. rewrite (nd_out ix (2 * p + 2)), Nat.add_0_r by lia. exact Hin.
        + replace (2 * p + 1 + 1) with (2 * p + 2) in Hin by lia. rewrite getn_nth in Hin by lia. cbn [rbind] in Hin.
          apply Ok_inj in Hin. apply Nat.eqb_eq in Hin. symmetry. exact Hin. }
    assert (HT : TreeOK D (nd ix) (firstn (2 ^ D) (clens c))).
    { split.
      - intros i Hi. rewrite <- Hoff. destruct (Nat.lt_ge_cases i (length (lists c))) as [Hlt|Hge].
        + rewrite Hleaf by exact Hlt. clear -Hi. revert i Hi. generalize (2 ^ D). induction (clens c) as [|a l IH]; intros [|n] [|i] Hi; cbn; try lia; auto.
          apply IH. lia.
        + rewrite nd_out by lia. symmetry. apply nth_overflow. rewrite firstn_length. lia.
      - intros p Hp. apply Hsum. lia. }
    pose proof (node_sum D _ _ HT D 0 0 ltac:(lia) ltac:(cbn; lia)) as Hroot. cbn [Nat.pow Nat.sub Nat.add Nat.mul] in Hroot.
    rewrite psum_0, Nat.add_0_r, Nat.add_0_r in Hroot.
    rewrite psum_all in Hroot by (rewrite firstn_length; lia).
    assert (Htot : list_sum (clens c) = len c).
    { rewrite Hlen. unfold contents. rewrite length_concat. reflexivity. }
    assert (Hle : length (clens c) <= 2 ^ D).
    { destruct (Nat.le_gt_cases (length (clens c)) (2 ^ D)) as [Hx|Hx]; [exact Hx|exfalso].
      rewrite <- (firstn_skipn (2 ^ D) (clens c)), list_sum_app in Htot.
      assert (Hz : list_sum (skipn (2 ^ D) (clens c)) = 0) by lia.
      pose proof (skipn_length (2 ^ D) (clens c)) as Hs.
      destruct (skipn (2 ^ D) (clens c)) as [|a t] eqn:Es; [cbn in Hs; lia|]. cbn in Hz.
      assert (Hin : In a (clens c)) by (rewrite <- (firstn_skipn (2 ^ D) (clens c)), Es; apply in_or_app; right; left; reflexivity).
      unfold clens in Hin. apply in_map_iff in Hin. destruct Hin as (l & El & Hl). rewrite Forall_forall in Hne. apply Hne in Hl.
      destruct l; [congruence|cbn in El; lia]. }
    rewrite firstn_all2 in HT by exact Hle.
    exists D. split; [destruct D; [cbn in Hle; lia|lia]|]. repeat split; try lia.
    - apply HT.
    - apply HT.
  Qed.
End Core.

Section KeyConv.
  Context {V K : Type}.
  Variable key : V -> K.
  Variables kltb keqb : K -> K -> bool.
  Hypothesis HKT : TotalOrder kltb keqb.
  Hypothesis HI : Identity keqb.
  Notation klt := (total2 kltb).
  Notation keq := (total2 keqb).
  Notation kf := (total1 key).

  Lemma keys_conv l ks : length l = length ks ->
    (forall q, In q (combine l ks) -> (let! k := kf (fst q) in keq k (snd q)) = Ok true) -> mapR kf l = Ok ks.
  Proof.
    revert ks. induction l as [|v l IH]; intros [|k ks] Hl H; try discriminate; [reflexivity|]. cbn [mapR].
    pose proof (H (v, k) (or_introl eq_refl)) as H1. cbn in H1. unfold total2 in H1. apply Ok_inj in H1. apply HI in H1.
    unfold total1 at 1. cbn [rbind]. rewrite (IH ks); [cbn [rbind]; rewrite H1; reflexivity|cbn in Hl; lia|].
    intros q Hq. apply H. right. exact Hq.
  Qed.
  Lemma rows_of ls : forall ks ms, Forall2 (fun l k => mapR kf l = Ok k) ls ks -> Forall2 (fun m k => getlast k = Ok m) ms ks ->
    exists rows, ls = map r_l rows /\ ks = map r_k rows /\ ms = map r_m rows /\ Forall (row_ok kf) rows.
  Proof.
    induction ls as [|l ls IH]; intros ks ms H1 H2; inversion H1 as [|? k ? ks' A1 A2]; subst; inversion H2 as [|m ? ms' ? B1 B2]; subst.
    - exists []. repeat split. constructor.
    - destruct (IH _ _ A2 B2) as (rows & -> & -> & -> & Hr). exists (mkrow l k m :: rows). repeat split.
      constructor; [split; assumption|exact Hr].
  Qed.

  Lemma sorted_of_keys l : sorted kltb (map key l) -> sorted (by_key key kltb) l.
  Proof.
    induction l as [|v l IH]; intros H; [apply sorted_nil|]. cbn [map] in H.
    destruct (sorted_cons_inv _ _ _ H) as [H1 H2]. constructor; [apply IH, H1|].
    apply Forall_forall. intros x Hx. apply H2. apply in_map. exact Hx.
  Qed.
  Lemma skl_check_conv s u : skl_check klt keq kf s = Ok u -> tree_row (kc s) -> KInv key kltb s.
  Proof.
    unfold skl_check. cbv zeta. intros H HT.
    apply rbind_Ok in H. destruct H as (u1 & Ha & H). apply assertR_Ok in Ha. apply Ok_inj in Ha. apply Nat.leb_le in Ha.
    apply rbind_Ok in H. destruct H as (u2 & Hb & H). apply assertR_Ok in Hb. apply Ok_inj in Hb.
    apply andb_prop in Hb. destruct Hb as [Hb1 Hb2]. apply Nat.eqb_eq in Hb1. apply Nat.eqb_eq in Hb2.
    apply rbind_Ok in H. destruct H as (u3 & Hc & H). apply assertR_Ok in Hc. apply Ok_inj in Hc. apply Nat.eqb_eq in Hc.
    apply rbind_Ok in H. destruct H as (u4 & Hd & H).
    apply rbind_Ok in H. destruct H as (u5 & He & H).
    apply rbind_Ok in H. destruct H as (u6 & Hf & H).
    apply rbind_Ok in H. destruct H as (u7 & Hg & H).
    apply rbind_Ok in H. destruct H as (u8 & Hh & H).
    assert (HK : Forall2 (fun l k => mapR kf l = Ok k) (lists (kc s)) (keys s)).
    { apply Forall2_getn; [exact Hb2|]. intros i l k E1 E2.
      assert (Hin : In (l, k) (combine (lists (kc s)) (keys s))).
      { clear -E1 E2. revert i E1 E2. generalize (keys s). induction (lists (kc s)) as [|l0 ls IH]; intros [|k0 ks] [|i] E1 E2; try discriminate.
        - cbn in *. left. congruence.
        - right. eapply IH; eauto. }
      destruct (mapR_all _ _ _ _ Hf Hin) as (y & E). cbn [fst snd] in E. apply rbind_Ok in E. destruct E as (u9 & E & E').
      apply assertR_Ok in E. apply Ok_inj in E. apply Nat.eqb_eq in E. apply keys_conv; [exact E|]. apply (allR_Ok _ _ _ E'). }
    assert (HM : Forall2 (fun m k => getlast k = Ok m) (maxes (kc s)) (keys s)).
    { apply Forall2_getn; [congruence|]. intros i m k E1 E2.
      pose proof (allR_Ok _ _ _ Hg i) as H1. cbv beta in H1. rewrite E1, E2 in H1. cbn [rbind] in H1.
      assert (Hi : In i (rangen 0 (length (maxes (kc s))))) by (apply in_rangen; apply getn_Ok_lt in E1; lia). apply H1 in Hi.
      apply rbind_Ok in Hi. destruct Hi as (x & Ex & Hx). unfold total2 in Hx. apply Ok_inj in Hx. apply HI in Hx. subst x. exact Ex. }
    destruct (rows_of _ _ _ HK HM) as (rows & E1 & E2 & E3 & Hr).
    assert (Hlen : len (kc s) = length (contents (kc s))) by (rewrite Hc; unfold contents; rewrite length_concat; reflexivity).
    assert (Hne : Forall (fun l : list V => l <> []) (lists (kc s))).
    { rewrite E1. apply Forall_forall. intros l Hl. apply in_map_iff in Hl. destruct Hl as (r & <- & Hr0).
      rewrite Forall_forall in Hr. apply Hr, row_ok_ne in Hr0. destruct (r_l r); [cbn in Hr0; lia|discriminate]. }
    split.
    - exists rows. split; [|exact Hlen]. split; auto.
      + lia.
      + rewrite <- E1. eapply check_sizes_conv; eauto.
      + assert (EL : lens_of rows = clens (kc s)) by (unfold lens_of, clens; rewrite E1, map_map; reflexivity).
        rewrite EL. eapply check_index_conv; eauto.
    - assert (Hs : sorted kltb (concat (keys s))).
      { apply (ends_sorted kltb (to_swo HKT)).
        - apply Forall_forall. intros k Hk. destruct (mapR_all _ _ _ _ Hd Hk) as (y & E).
          eapply check_sublist_conv; [exact (to_swo HKT)|exact E].
        - rewrite E2. apply Forall_forall. intros k Hk. apply in_map_iff in Hk. destruct Hk as (r & <- & Hr0).
          rewrite Forall_forall in Hr. apply Hr in Hr0. destruct Hr0 as [_ Hr0]. intros E0. rewrite E0 in Hr0. rewrite getlast_nil in Hr0. discriminate.
        - intros i p q a b G1 G2 G3 G4. pose proof (allR_Ok _ _ _ He (S i)) as H1. cbv beta in H1.
          replace (S i - 1) with i in H1 by lia. rewrite G1, G2 in H1. cbn [rbind] in H1. rewrite G3, G4 in H1. cbn [rbind] in H1.
          assert (Hi : In (S i) (rangen 1 (length (keys s)))) by (apply in_rangen; apply getn_Ok_lt in G2; lia). apply H1 in Hi.
          unfold le_of, total2 in Hi. cbn [rbind] in Hi. destruct (kltb b a); [discriminate|reflexivity]. }
      apply sorted_of_keys. unfold contents.
      assert (EM : map key (concat (lists (kc s))) = concat (keys s)).
      { clear -Hr E1 E2. rewrite E1, E2. clear E1 E2. induction Hr as [|r rows [H1 _] Hr IH]; [reflexivity|].
        cbn [map concat]. rewrite map_app, IH. rewrite (mapR_key key) in H1. apply Ok_inj in H1. rewrite H1. reflexivity. }
      rewrite EM. exact Hs.
  Qed.
End KeyConv.

Section ListConv.
  Context {V : Type}.
  Variables ltb eqb : V -> V -> bool.
  Hypothesis HT : TotalOrder ltb eqb.
  Hypothesis HI : Identity eqb.
  Lemma sl_check_conv c u : sl_check (total2 ltb) (total2 eqb) c = Ok u -> tree_row c -> LInv ltb c.
  Proof.
    intros H Hrow. assert (E : skl_check (total2 ltb) (total2 eqb) (total1 (fun v => v)) (embed c) = Ok u).
    { unfold sl_check in H. unfold skl_check, embed. cbv zeta. cbn [kc keys].
      apply rbind_Ok in H. destruct H as (u1 & Ha & H). rewrite Ha. cbn [rbind].
      apply rbind_Ok in H. destruct H as (u2 & Hb & H). rewrite Nat.eqb_refl, andb_true_r, Hb. cbn [rbind].
      apply rbind_Ok in H. destruct H as (u3 & Hc & H). rewrite Hc. cbn [rbind].
      apply rbind_Ok in H. destruct H as (u4 & Hd & H). rewrite Hd. cbn [rbind].
      apply rbind_Ok in H. destruct H as (u5 & He & H). rewrite He. cbn [rbind].
      rewrite mapR_unit; [cbn [rbind]; exact H|].
      intros [a b] Hin. assert (a = b) as ->.
      { clear -Hin. induction (lists c) as [|l ls IH]; [destruct Hin|]. destruct Hin as [E|Hin]; [congruence|auto]. }
      cbn [fst snd]. rewrite Nat.eqb_refl. unfold assertR at 1. cbn [rbind]. apply allR_ok. intros [x y] Hxy.
      assert (x = y) as ->.
      { clear -Hxy. induction b as [|l ls IH]; [destruct Hxy|]. destruct Hxy as [E|Hin]; [congruence|auto]. }
      cbn. unfold total2. f_equal. apply HI. reflexivity. }
    destruct (skl_check_conv (fun v => v) ltb eqb HT HI (embed c) u E Hrow) as [H1 H2]. split; [exact H1|exact H2].
  Qed.
End ListConv.

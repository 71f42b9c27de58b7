(** * The library's own self check [_check] succeeds (proofs) *)
From Verif Require Import PyBase Model Spec History BaseFacts SpecFacts SliceFacts IndexFacts
  Shape CoreFacts VtFacts KeyFacts KeyLook ListSim ListFacts HistFacts.
From Coq Require Import Sorting.Permutation Sorting.Sorted.
Local Unset Implicit Arguments.

Lemma allR_ok {A} (f : A -> res bool) l : (forall x, In x l -> f x = Ok true) -> allR f l = Ok tt.
Proof.
  intros H. unfold allR.
  assert (E : mapR (fun a => assertR (f a)) l = Ok (map (fun _ => tt) l)).
  { induction l as [|a t IH]; [reflexivity|]. simpl. rewrite (H a) by (left; reflexivity).
    simpl. rewrite IH by (intros; apply H; right; assumption). reflexivity. }
  rewrite E. reflexivity.
Qed.

Lemma mapR_unit {A} (f : A -> res unit) l : (forall x, In x l -> f x = Ok tt) ->
  mapR f l = Ok (map (fun _ => tt) l).
Proof.
  intros H. induction l as [|a t IH]; [reflexivity|]. simpl. rewrite (H a) by (left; reflexivity).
  simpl. rewrite IH by (intros; apply H; right; assumption). reflexivity.
Qed.

Lemma in_rangen a b i : In i (rangen a b) <-> a <= i < b.
Proof. unfold rangen. rewrite in_seq. lia. Qed.

Section Order.
  Context {A : Type}.
  Variable ltb : A -> A -> bool.
  Hypothesis HO : SWO ltb.

  Lemma sorted_nth l i j a b : sorted ltb l -> i < j -> getn l i = Ok a -> getn l j = Ok b -> ltb b a = false.
  Proof.
    intros Hs Hij Ha Hb. destruct (getn_Ok _ _ _ Ha) as (X & Y & E & El).
    subst l i. destruct (sorted_app_inv _ _ _ Hs) as (_ & H & _).
    destruct (sorted_cons_inv _ _ _ H) as [_ H']. apply H'.
    unfold getn in Hb. rewrite nth_error_app2 in Hb by lia.
    destruct (j - length X) eqn:E; [lia|]. simpl in Hb.
    destruct (nth_error Y n) eqn:E2; inversion Hb; subst. eapply nth_error_In; eauto.
  Qed.

  Lemma check_sublist_ok l : sorted ltb l -> check_sublist (total2 ltb) l = Ok tt.
  Proof.
    intros Hs. apply allR_ok. intros i Hi. apply in_rangen in Hi.
    destruct (getn_lt l (i - 1)) as [a Ea]; [lia|]. destruct (getn_lt l i) as [b Eb]; [lia|].
    rewrite Ea, Eb. simpl. unfold le_of, total2. simpl.
    rewrite (sorted_nth l (i - 1) i a b Hs) by (auto; lia). reflexivity.
  Qed.

  Lemma sorted_concat ls : sorted ltb (concat ls) -> forall l, In l ls -> sorted ltb l.
  Proof.
    intros Hs l Hl. destruct (in_split _ _ Hl) as (X & Y & ->). rewrite concat_app in Hs. simpl in Hs.
    destruct (sorted_app_inv _ _ _ Hs) as (_ & H & _). apply (sorted_app_inv _ _ _ H).
  Qed.
  Lemma sorted_concat_app ls : sorted ltb (concat ls) -> Forall (fun l => l <> []) ls ->
    check_ends (total2 ltb) ls = Ok tt.
  Proof.
    intros Hs Hne. apply allR_ok. intros i Hi. apply in_rangen in Hi.
    destruct (getn_lt ls i) as [q Eq]; [lia|]. destruct (getn_Ok _ _ _ Eq) as (X & Y & E & El). subst ls.
    destruct (exists_last (l := X)) as (X0 & p & EX); [intros ->; simpl in El; lia|]. subst X.
    rewrite app_length in El. simpl in El.
    assert (Ep : getn ((X0 ++ [p]) ++ q :: Y) (i - 1) = Ok p).
    { rewrite <- app_assoc. apply getn_app'. lia. }
    rewrite Ep, Eq. simpl.
    rewrite Forall_forall in Hne.
    assert (Hp : p <> []) by (apply Hne; rewrite !in_app_iff; simpl; tauto).
    assert (Hq : q <> []) by (apply Hne; rewrite !in_app_iff; simpl; tauto).
    destruct (getlast_ne p Hp) as [a Ea]. rewrite Ea. simpl.
    destruct (getlast_Ok _ _ Ea) as [p0 ->]. destruct q as [|b q]; [congruence|]. simpl.
    unfold le_of, total2. simpl.
    rewrite !concat_app in Hs. simpl in Hs. rewrite app_nil_r in Hs.
    destruct (sorted_app_inv _ _ _ Hs) as (_ & _ & H). rewrite (H a b); [reflexivity| |simpl; auto].
    rewrite !in_app_iff. simpl. tauto.
  Qed.
End Order.

Section CheckIndex.
  Context {V K : Type}.

  Lemma check_index_ok (c : core V K) : CoreOK c -> check_index c = Ok tt.
  Proof.
    intros [Hne Hlen [Hix|Hix]]; unfold check_index.
    - rewrite Hix. reflexivity.
    - destruct Hix as (D & HD & Hoff & Hle & H2 & Hli & HT).
      pose proof (pow2_pos D) as HP.
      assert (Hnn : is_nil (index c) = false).
      { destruct (index c); [simpl in Hli; lia|reflexivity]. }
      rewrite Hnn. cbv zeta.
      assert (Hll : length (clens c) = length (lists c)) by (unfold clens; apply map_length).
      assert (E1 : getn (index c) 0 = Ok (len c)).
      { rewrite getn_nth by lia. f_equal.
        pose proof (node_sum D _ _ HT D 0 0 ltac:(lia) ltac:(simpl; lia)) as H. simpl in H.
        rewrite psum_0, Nat.add_0_r, Nat.add_0_r in H. rewrite H. rewrite psum_all by exact Hle.
        rewrite Hlen. unfold contents. rewrite length_concat. reflexivity. }
      rewrite E1. cbn [rbind]. rewrite Nat.eqb_refl. unfold assertR at 1. cbn [rbind].
      rewrite Hli, Hll, Nat.eqb_refl. unfold assertR at 1. cbn [rbind].
      rewrite allR_ok.
      2:{ intros p Hp. apply in_rangen in Hp. rewrite getn_nth by lia. cbn [rbind].
          destruct (getn_lt (lists c) p) as [l El]; [lia|]. rewrite El. cbn [rbind].
          destruct HT as [HT1 _]. rewrite Hoff, HT1 by lia.
          destruct (getn_Ok _ _ _ El) as (X & Y & E & EL). unfold clens. rewrite E, <- EL.
          rewrite map_app. rewrite app_nth2 by (rewrite map_length; lia). rewrite map_length, Nat.sub_diag. simpl.
          rewrite Nat.eqb_refl. reflexivity. }
      cbn [rbind]. apply allR_ok. intros p Hp. apply in_rangen in Hp.
      destruct HT as [_ HT2]. specialize (HT2 p ltac:(lia)).
      rewrite getn_nth by lia. cbn [rbind]. replace (p * 2 + 1) with (2 * p + 1) by lia.
      rewrite <- Hll, <- Hli.
      destruct (Nat.leb_spec (length (index c)) (2 * p + 1)) as [Hc|Hc].
      + rewrite (nd_out _ (2 * p + 1)) in HT2 by lia. rewrite (nd_out _ (2 * p + 2)) in HT2 by lia.
        rewrite HT2. reflexivity.
      + rewrite getn_nth by lia. cbn [rbind].
        destruct (Nat.eqb_spec (2 * p + 1 + 1) (length (index c))) as [He|He].
        * rewrite (nd_out _ (2 * p + 2)) in HT2 by lia. rewrite HT2, Nat.add_0_r, Nat.eqb_refl. reflexivity.
        * replace (2 * p + 1 + 1) with (2 * p + 2) by lia. rewrite getn_nth by lia. cbn [rbind].
          rewrite HT2, Nat.eqb_refl. reflexivity.
  Qed.

  Lemma check_sizes_ok (c : core V K) : SizesOK (load c) (lists c) -> check_sizes c = Ok tt.
  Proof.
    intros [H1 H2]. unfold check_sizes.
    replace (forallb (fun l => length l <=? load c * 2) (lists c)) with true.
    2:{ symmetry. apply forallb_forall. intros l Hl. rewrite Forall_forall in H1.
        apply Nat.leb_le. specialize (H1 l Hl). lia. }
    unfold assertR at 1. cbn [rbind]. apply allR_ok. intros p Hp. apply in_rangen in Hp.
    destruct (getn_lt (lists c) p) as [l El]; [lia|]. rewrite El. cbn [rbind].
    destruct (getn_Ok _ _ _ El) as (X & Y & E & EL). rewrite E in H2.
    apply Forall_removelast_mid in H2. destruct H2 as [_ H2].
    destruct H2 as [H2 _].
    - intros ->. rewrite E, app_length in Hp. simpl in Hp. lia.
    - apply Nat.leb_le in H2. rewrite H2. reflexivity.
  Qed.
End CheckIndex.

Section KeyCheck.
  Context {V K : Type}.
  Variable key : V -> K.
  Variables kltb keqb : K -> K -> bool.
  Hypothesis HKT : TotalOrder kltb keqb.
  Notation klt := (total2 kltb).
  Notation keq := (total2 keqb).
  Notation kf := (total1 key).
  Notation ltb := (by_key key kltb).

  Lemma keq_refl k : keqb k k = true.
  Proof. rewrite (to_eq HKT). rewrite (swo_irrefl (to_swo HKT)). reflexivity. Qed.

  Lemma check_maxes_ok (rows : list (row V K)) : Forall (row_ok kf) rows ->
    check_maxes keq (map r_m rows) (map r_k rows) = Ok tt.
  Proof.
    intros Hr. apply allR_ok. intros p Hp. apply in_rangen in Hp. rewrite map_length in Hp.
    destruct (split_at rows p) as (RA & r & RB & -> & Hl); [lia|]. subst p.
    rewrite !getn_mid. cbn [rbind]. rewrite Forall_forall in Hr.
    destruct (Hr r) as [_ E]; [rewrite in_app_iff; simpl; auto|]. rewrite E. cbn [rbind].
    unfold total2. rewrite keq_refl. reflexivity.
  Qed.

  Lemma skl_check_ok s : KInv key kltb s -> 4 <= load (kc s) -> skl_check klt keq kf s = Ok tt.
  Proof.
    intros [Hs Ho] Hld. pose proof (shape_core _ _ Hs) as HC. destruct Hs as (rows & H0 & Hlen).
    unfold skl_check. cbv zeta.
    assert (E4 : (4 <=? load (kc s)) = true) by (apply Nat.leb_le; exact Hld). rewrite E4.
    unfold assertR at 1. cbn [rbind].
    rewrite (sh_maxes _ _ _ H0), (sh_lists _ _ _ H0), (sh_keys _ _ _ H0), !map_length, Nat.eqb_refl.
    unfold assertR at 1. cbn [rbind andb].
    rewrite Hlen. unfold contents. rewrite length_concat, (sh_lists _ _ _ H0), Nat.eqb_refl.
    unfold assertR at 1. cbn [rbind].
    pose proof (sh_rows _ _ _ H0) as Hr.
    assert (Hk : sorted kltb (concat (map r_k rows))).
    { pose proof (shape_keys _ _ _ H0) as E. rewrite (mapR_key key) in E. injection E as E'. rewrite <- E'.
      apply sorted_by_key. exact Ho. }
    rewrite mapR_unit. 2:{ intros ks Hks. apply check_sublist_ok. eapply sorted_concat; eauto. }
    cbn [rbind].
    rewrite sorted_concat_app.
    3:{ apply Forall_forall. intros ks Hks. apply in_map_iff in Hks. destruct Hks as (r & <- & Hin).
        rewrite Forall_forall in Hr. destruct (Hr r Hin) as [_ E]. intros E0. rewrite E0 in E.
        rewrite getlast_nil in E. discriminate. }
    2:{ exact Hk. }
    cbn [rbind]. rewrite mapR_unit.
    2:{ intros [l ks] Hin.
        assert (Hc : In (l, ks) (map (fun r => (r_l r, r_k r)) rows)).
        { clear -Hin. induction rows as [|r rows IH]; simpl in *; [exact Hin|]. destruct Hin as [E|Hin]; auto. }
        apply in_map_iff in Hc. destruct Hc as (r & E & Hrin). inversion E; subst l ks. clear E.
        rewrite Forall_forall in Hr. destruct (Hr r Hrin) as [E _]. rewrite (mapR_key key) in E. inversion E as [E'].
        cbn [fst snd]. rewrite map_length, Nat.eqb_refl. unfold assertR at 1. cbn [rbind].
        apply allR_ok. intros [v k] Hvk.
        assert (Ek : k = key v).
        { clear -Hvk. induction (r_l r) as [|a t IH]; simpl in Hvk; [easy|].
          destruct Hvk as [E|Hvk]; [congruence|auto]. }
        cbn [fst snd]. unfold total1, total2. cbn [rbind]. rewrite Ek, keq_refl. reflexivity. }
    cbn [rbind]. rewrite check_maxes_ok by exact Hr. cbn [rbind].
    rewrite check_sizes_ok. 2:{ rewrite (sh_lists _ _ _ H0). exact (sh_sizes _ _ _ H0). }
    cbn [rbind]. apply check_index_ok. exact HC.
  Qed.
End KeyCheck.

Section ListCheck.
  Context {V : Type}.
  Variables ltb eqb : V -> V -> bool.
  Hypothesis HT : TotalOrder ltb eqb.
  Notation lt := (total2 ltb).
  Notation eq := (total2 eqb).

  Lemma sl_check_ok c : LInv ltb c -> 4 <= load c -> sl_check lt eq c = Ok tt.
  Proof.
    intros [Hs Ho] Hld. pose proof (lshape_core c Hs) as HC. pose proof Hs as (rows & H0 & Hlen).
    unfold embed in H0, Hlen. cbn [kc] in Hlen.
    pose proof (sh_maxes _ _ _ H0) as Em. pose proof (sh_lists _ _ _ H0) as El. pose proof (sh_keys _ _ _ H0) as Ek.
    cbn [kc keys] in Em, El, Ek.
    unfold sl_check.
    assert (E4 : (4 <=? load c) = true) by (apply Nat.leb_le; exact Hld). rewrite E4.
    unfold assertR at 1. cbn [rbind].
    replace (length (maxes c)) with (length (lists c)) by (rewrite Em, El, !map_length; reflexivity).
    rewrite Nat.eqb_refl. unfold assertR at 1. cbn [rbind].
    rewrite Hlen. unfold contents. rewrite length_concat, Nat.eqb_refl.
    unfold assertR at 1. cbn [rbind].
    rewrite mapR_unit. 2:{ intros ks Hks. apply check_sublist_ok. eapply sorted_concat; eauto. }
    cbn [rbind].
    rewrite sorted_concat_app. 3:{ exact (co_ne _ HC). } 2:{ exact Ho. }
    cbn [rbind]. rewrite Em, Ek.
    rewrite (check_maxes_ok (fun v => v) ltb eqb HT rows (sh_rows _ _ _ H0)). cbn [rbind].
    rewrite check_sizes_ok. 2:{ rewrite El. exact (sh_sizes _ _ _ H0). }
    cbn [rbind]. apply check_index_ok. exact HC.
  Qed.
End ListCheck.

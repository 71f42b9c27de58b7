(** * The positional index: an implicit binary tree of sums (proofs) *)
From Verif Require Import PyBase Model.
From Coq Require Import Lia.
Local Unset Implicit Arguments.

(** Sum of the first [j] entries. *)
Definition psum (l : list nat) (j : nat) : nat := list_sum (firstn j l).

Lemma psum_0 l : psum l 0 = 0.
Proof. reflexivity. Qed.

Lemma psum_S l j : psum l (S j) = psum l j + nth j l 0.
Proof.
  unfold psum. revert j; induction l as [|a l IH]; intros j.
  - rewrite !firstn_nil. destruct j; reflexivity.
  - destruct j as [|j]; [cbn; lia|].
    change (firstn (S (S j)) (a :: l)) with (a :: firstn (S j) l).
    change (firstn (S j) (a :: l)) with (a :: firstn j l).
    cbn [list_sum fold_right nth]. unfold list_sum in *. cbn [fold_right].
    rewrite IH. lia.
Qed.

Lemma psum_all l j : length l <= j -> psum l j = list_sum l.
Proof. intros H. unfold psum. rewrite firstn_all2 by lia. reflexivity. Qed.

Lemma psum_le l i j : i <= j -> psum l i <= psum l j.
Proof. induction 1; [lia|]. rewrite psum_S; lia. Qed.

Lemma psum_app_len a b : psum (a ++ b) (length a) = list_sum a.
Proof. unfold psum. rewrite firstn_app, Nat.sub_diag, firstn_all, firstn_O, app_nil_r. reflexivity. Qed.

(** [g] is a tree of sums of depth [D] over the leaves [lens]. *)
Definition TreeOK (D : nat) (g : nat -> nat) (lens : list nat) : Prop :=
  (forall i, i < 2 ^ D -> g (2 ^ D - 1 + i) = nth i lens 0) /\
  (forall p, p < 2 ^ D - 1 -> g p = g (2 * p + 1) + g (2 * p + 2)).

Definition nd (ix : list nat) (p : nat) : nat := nth p ix 0.

(** The non-empty positional index [ix], [off] is right for sublist lengths [lens]. *)
Definition IndexFor (lens ix : list nat) (off : nat) : Prop :=
  exists D, 1 <= D /\ off = 2 ^ D - 1 /\ length lens <= 2 ^ D /\ 2 <= length lens /\
            length ix = off + length lens /\ TreeOK D (nd ix) lens.

(** Invariant: the index is either absent or right. *)
Definition IndexOK (lens ix : list nat) (off : nat) : Prop :=
  ix = [] \/ IndexFor lens ix off.

Lemma pow2_pos n : 1 <= 2 ^ n.
Proof. induction n; cbn [Nat.pow]; lia. Qed.
Lemma pow2_gt n : n < 2 ^ n.
Proof. induction n; cbn [Nat.pow]; lia. Qed.
Lemma pow2_S n : 2 ^ S n = 2 * 2 ^ n.
Proof. reflexivity. Qed.

(** Node [j] of depth [d] holds the sum of its [2 ^ e] leaves. *)
Lemma node_sum D g lens : TreeOK D g lens ->
  forall e d j, d + e = D -> j < 2 ^ d ->
    g (2 ^ d - 1 + j) + psum lens (j * 2 ^ e) = psum lens ((j + 1) * 2 ^ e).
Proof.
  intros [Hleaf Hsum]. induction e as [|e IH]; intros d j Hd Hj.
  - replace d with D in * by lia. rewrite Hleaf by lia.
    cbn [Nat.pow]. rewrite !Nat.mul_1_r, Nat.add_1_r, psum_S. lia.
  - pose proof (pow2_pos d) as Hp.
    assert (HD : 2 ^ D = 2 ^ d * (2 * 2 ^ e)).
    { rewrite <- Hd, Nat.pow_add_r, pow2_S. reflexivity. }
    pose proof (pow2_pos e) as He.
    rewrite Hsum by nia.
    replace (2 * (2 ^ d - 1 + j) + 1) with (2 ^ (S d) - 1 + 2 * j) by (rewrite pow2_S; lia).
    replace (2 * (2 ^ d - 1 + j) + 2) with (2 ^ (S d) - 1 + (2 * j + 1)) by (rewrite pow2_S; lia).
    assert (H1 := IH (S d) (2 * j) ltac:(lia) ltac:(rewrite pow2_S; lia)).
    assert (H2 := IH (S d) (2 * j + 1) ltac:(lia) ltac:(rewrite pow2_S; lia)).
    replace (j * 2 ^ S e) with (2 * j * 2 ^ e) by (rewrite pow2_S; lia).
    replace ((j + 1) * 2 ^ S e) with ((2 * j + 1 + 1) * 2 ^ e) by (rewrite pow2_S; lia).
    lia.
Qed.

Lemma getn_nth ix p : p < length ix -> getn ix p = Ok (nd ix p).
Proof.
  intros H. unfold getn, nd. rewrite (nth_error_nth' ix 0 H). reflexivity.
Qed.
Lemma nd_out ix p : length ix <= p -> nd ix p = 0.
Proof. intros H. unfold nd. apply nth_overflow. exact H. Qed.

(** ** [_pos] *)
Lemma pos_loop_ok D ix lens :
  TreeOK D (nd ix) lens -> length lens <= 2 ^ D -> length ix = 2 ^ D - 1 + length lens ->
  forall e fuel d j idx, d + e = D -> j < 2 ^ d -> e < fuel ->
    idx < nd ix (2 ^ d - 1 + j) ->
    exists i r, pos_loop fuel ix (2 ^ d - 1 + j) (2 * (2 ^ d - 1 + j) + 1) idx = Ok (2 ^ D - 1 + i, r)
      /\ i < length lens /\ r < nth i lens 0 /\ psum lens i + r = psum lens (j * 2 ^ e) + idx.
Proof.
  intros HT Hn Hlen. pose proof HT as [Hleaf Hsum].
  induction e as [|e IH]; intros fuel d j idx Hd Hj Hf Hidx.
  - replace d with D in * by lia. destruct fuel as [|fuel]; [lia|]. cbn [pos_loop].
    pose proof (pow2_pos D) as HpD.
    destruct (Nat.ltb_spec (2 * (2 ^ D - 1 + j) + 1) (length ix)) as [Hlt|Hge]; [lia|].
    exists j, idx. rewrite Hleaf in Hidx by lia. split; [reflexivity|].
    split; [|split; [exact Hidx|cbn [Nat.pow]; rewrite Nat.mul_1_r; lia]].
    destruct (Nat.lt_ge_cases j (length lens)) as [H|H]; [exact H|].
    rewrite nth_overflow in Hidx by lia. lia.
  - destruct fuel as [|fuel]; [lia|]. cbn [pos_loop].
    pose proof (pow2_pos d) as Hp. pose proof (pow2_pos e) as He.
    assert (HD : 2 ^ D = 2 ^ d * (2 * 2 ^ e)).
    { rewrite <- Hd, Nat.pow_add_r, pow2_S. reflexivity. }
    assert (Hpar := Hsum (2 ^ d - 1 + j) ltac:(nia)).
    set (child := 2 * (2 ^ d - 1 + j) + 1) in *.
    replace (2 * (2 ^ d - 1 + j) + 2) with (child + 1) in Hpar by (subst child; lia).
    assert (Hc : child = 2 ^ S d - 1 + 2 * j) by (subst child; rewrite pow2_S; lia).
    assert (Hc1 : child + 1 = 2 ^ S d - 1 + (2 * j + 1)) by (rewrite Hc; lia).
    destruct (Nat.ltb_spec child (length ix)) as [Hlt|Hge].
    2:{ rewrite (nd_out ix child) in Hpar by lia.
        rewrite (nd_out ix (child + 1)) in Hpar by lia. lia. }
    rewrite getn_nth by exact Hlt. cbn [rbind].
    assert (Hns := node_sum _ _ _ HT e (S d) (2 * j) ltac:(lia) ltac:(rewrite pow2_S; lia)).
    rewrite <- Hc in Hns.
    replace (j * 2 ^ S e) with (2 * j * 2 ^ e) by (rewrite pow2_S; lia).
    destruct (Nat.ltb_spec idx (nd ix child)) as [Hl|Hr].
    + replace (child * 2 + 1) with (2 * child + 1) by lia.
      rewrite Hc in Hl |- *.
      apply IH; [lia|rewrite pow2_S; lia|lia|exact Hl].
    + replace ((child + 1) * 2 + 1) with (2 * (child + 1) + 1) by lia.
      destruct (IH fuel (S d) (2 * j + 1) (idx - nd ix child)) as (i & r & Heq & Hi & Hr' & Hs);
        [lia|rewrite pow2_S; lia|lia|rewrite <- Hc1; lia|].
      rewrite <- Hc1 in Heq. exists i, r. split; [exact Heq|]. split; [exact Hi|].
      split; [exact Hr'|]. rewrite Hs.
      replace (2 * j * 2 ^ e + 2 ^ e) with ((2 * j + 1) * 2 ^ e) in * by lia.
      rewrite <- Hns. lia.
Qed.

(** ** [_loc] *)
Lemma loc_loop_ok D ix lens :
  TreeOK D (nd ix) lens ->
  forall d e fuel j total, d + e = D -> j < 2 ^ d -> d < fuel ->
    2 ^ d - 1 + j < length ix ->
    loc_loop fuel ix (2 ^ d - 1 + j) total = Ok (total + psum lens (j * 2 ^ e)).
Proof.
  intros HT. induction d as [|d IH]; intros e fuel j total Hd Hj Hf Hlen.
  - destruct fuel as [|fuel]; [lia|]. cbn [Nat.pow] in *.
    replace j with 0 in * by lia. cbn. f_equal. unfold psum; cbn. lia.
  - destruct fuel as [|fuel]; [lia|]. cbn [loc_loop].
    pose proof (pow2_pos d) as Hp. rewrite pow2_S in *.
    destruct (Nat.eqb_spec (2 * 2 ^ d - 1 + j) 0) as [Hz|Hnz]; [lia|].
    destruct (Nat.Even_or_Odd j) as [[i Hi]|[i Hi]].
    + replace (Nat.even (2 * 2 ^ d - 1 + j)) with false.
      2:{ symmetry. rewrite <- Nat.negb_odd. apply Bool.negb_false_iff.
          apply Nat.odd_spec. exists (2 ^ d - 1 + i). lia. }
      cbn [rbind].
      replace ((2 * 2 ^ d - 1 + j - 1) / 2) with (2 ^ d - 1 + i)
        by (apply Nat.div_unique with (r := 0); lia).
      rewrite (IH (S e)) by lia. f_equal. f_equal. f_equal. rewrite pow2_S. lia.
    + replace (Nat.even (2 * 2 ^ d - 1 + j)) with true.
      2:{ symmetry. apply Nat.even_spec. exists (2 ^ d + i). lia. }
      rewrite getn_nth by lia. cbn [rbind].
      replace ((2 * 2 ^ d - 1 + j - 1) / 2) with (2 ^ d - 1 + i)
        by (apply Nat.div_unique with (r := 1); lia).
      rewrite (IH (S e)) by lia. f_equal.
      assert (Hns := node_sum _ _ _ HT e (S d) (2 * i) ltac:(lia) ltac:(rewrite pow2_S; lia)).
      rewrite pow2_S in Hns.
      replace (2 * 2 ^ d - 1 + j - 1) with (2 * 2 ^ d - 1 + 2 * i) by lia.
      replace (i * 2 ^ S e) with (2 * i * 2 ^ e) by (rewrite pow2_S; lia).
      replace j with (2 * i + 1) by lia. lia.
Qed.

(** ** In-place cell updates *)
Lemma updn_nth (ix ix' : list nat) c f : updn ix c f = Ok ix' ->
  c < length ix /\ length ix' = length ix /\
  exists y, f (nd ix c) = Ok y /\ forall p, nd ix' p = if p =? c then y else nd ix p.
Proof.
  revert c ix'. induction ix as [|x ix IH]; intros c ix' H; [destruct c; discriminate H|].
  destruct c as [|c]; cbn [updn] in H.
  - destruct (f x) as [y|] eqn:Hf; cbn [rbind] in H; [|discriminate]. inversion H; subst ix'.
    cbn [length]. split; [lia|split; [reflexivity|]]. exists y. split; [exact Hf|].
    intros [|p]; reflexivity.
  - destruct (updn ix c f) as [t|] eqn:Hu; cbn [rbind] in H; [|discriminate]. inversion H; subst ix'.
    destruct (IH _ _ Hu) as (H1 & H2 & y & H3 & H4). cbn [length].
    split; [lia|split; [lia|]]. exists y. split; [exact H3|].
    intros [|p]; [reflexivity|]. unfold nd in *. cbn [nth]. rewrite H4. reflexivity.
Qed.

Lemma updn_ok (ix : list nat) c f y : c < length ix -> f (nd ix c) = Ok y ->
  exists ix', updn ix c f = Ok ix'.
Proof.
  revert c. induction ix as [|x ix IH]; intros c Hc Hf; [cbn in Hc; lia|].
  destruct c as [|c]; cbn [updn].
  - unfold nd in Hf. cbn [nth] in Hf. rewrite Hf. cbn. eauto.
  - destruct (IH c) as [ix' H]; [cbn in Hc; lia|exact Hf|]. rewrite H. cbn. eauto.
Qed.

(** ** The upward walk of [_expand] and [_delete]

    While the walk is at node [c], node [c] is the only one not yet in step with
    the new leaves [lens']. *)
Definition Pend (D : nat) (f : nat -> res nat) (g : nat -> nat) (lens' : list nat) (c : nat) : Prop :=
  (forall p, p < 2 ^ D - 1 ->
     if p =? c then f (g p) = Ok (g (2 * p + 1) + g (2 * p + 2))
     else g p = g (2 * p + 1) + g (2 * p + 2)) /\
  (forall i, i < 2 ^ D ->
     if 2 ^ D - 1 + i =? c then f (g (2 ^ D - 1 + i)) = Ok (nth i lens' 0)
     else g (2 ^ D - 1 + i) = nth i lens' 0).

Lemma pend_step D f g g' lens' c t :
  (forall x y z, f x = Ok y -> f (x + z) = Ok (y + z)) ->
  c <> 0 -> c < 2 ^ D - 1 + 2 ^ D ->
  Pend D f g lens' c -> f (g c) = Ok t ->
  (forall p, g' p = if p =? c then t else g p) ->
  Pend D f g' lens' ((c - 1) / 2).
Proof.
  intros Hf Hc0 HcD [Hin Hlf] Ht Hg'.
  set (q := (c - 1) / 2).
  assert (Hq : c = 2 * q + 1 \/ c = 2 * q + 2).
  { subst q. pose proof (Nat.div_mod (c - 1) 2 ltac:(lia)) as H.
    pose proof (Nat.mod_upper_bound (c - 1) 2 ltac:(lia)) as H'. lia. }
  pose proof (pow2_pos D) as HpD.
  split.
  - intros p Hp. assert (HI := Hin p Hp). destruct (Nat.eqb_spec p q) as [->|Hpq].
    + (* parent *)
      assert (Hqc : (q =? c) = false) by (apply Nat.eqb_neq; lia).
      rewrite Hqc in HI. rewrite !Hg'. rewrite Hqc, HI.
      destruct Hq as [Hq|Hq].
      * replace (2 * q + 1 =? c) with true by (symmetry; apply Nat.eqb_eq; lia).
        replace (2 * q + 2 =? c) with false by (symmetry; apply Nat.eqb_neq; lia).
        replace (2 * q + 1) with c by lia. apply Hf. exact Ht.
      * replace (2 * q + 1 =? c) with false by (symmetry; apply Nat.eqb_neq; lia).
        replace (2 * q + 2 =? c) with true by (symmetry; apply Nat.eqb_eq; lia).
        replace (2 * q + 2) with c by lia.
        rewrite (Nat.add_comm (g (2 * q + 1)) (g c)), (Nat.add_comm (g (2 * q + 1)) t).
        apply Hf. exact Ht.
    + rewrite !Hg'.
      replace (2 * p + 1 =? c) with false by (symmetry; apply Nat.eqb_neq; lia).
      replace (2 * p + 2 =? c) with false by (symmetry; apply Nat.eqb_neq; lia).
      destruct (Nat.eqb_spec p c) as [->|Hpc].
      * rewrite Ht in HI. injection HI as ->. reflexivity.
      * exact HI.
  - intros i Hi. assert (HL := Hlf i Hi). rewrite !Hg'.
    assert (Hnq : 2 ^ D - 1 + i =? q = false) by (apply Nat.eqb_neq; lia).
    rewrite Hnq. destruct (Nat.eqb_spec (2 ^ D - 1 + i) c) as [Heq|Hne].
    + rewrite Heq in HL. rewrite Ht in HL. injection HL as ->. reflexivity.
    + exact HL.
Qed.

Lemma pend_target D f g lens' c : Pend D f g lens' c -> c < 2 ^ D - 1 + 2 ^ D ->
  exists t, f (g c) = Ok t.
Proof.
  intros [Hin Hlf] Hc. destruct (Nat.lt_ge_cases c (2 ^ D - 1)) as [H|H].
  - specialize (Hin c H). rewrite Nat.eqb_refl in Hin. eauto.
  - specialize (Hlf (c - (2 ^ D - 1)) ltac:(lia)).
    replace (2 ^ D - 1 + (c - (2 ^ D - 1))) with c in Hlf by lia.
    rewrite Nat.eqb_refl in Hlf. eauto.
Qed.

Lemma walk_up_ok D f lens' :
  (forall x y z, f x = Ok y -> f (x + z) = Ok (y + z)) ->
  forall c fuel ix, c < fuel -> c < length ix -> c < 2 ^ D - 1 + 2 ^ D ->
    Pend D f (nd ix) lens' c ->
    exists ix', walk_up f fuel c ix = Ok ix' /\ length ix' = length ix /\ Pend D f (nd ix') lens' 0.
Proof.
  intros Hf. induction c as [c IH] using lt_wf_ind. intros fuel ix Hfuel Hlen HcD HP.
  destruct fuel as [|fuel]; [lia|]. cbn [walk_up].
  destruct (Nat.eqb_spec c 0) as [->|Hc0]; [eauto|].
  destruct (pend_target _ _ _ _ _ HP HcD) as [t Ht].
  destruct (updn_ok ix c f t Hlen Ht) as [ix1 Hu]. rewrite Hu. cbn [rbind].
  destruct (updn_nth _ _ _ _ Hu) as (_ & Hl1 & y & Hy & Hnth).
  rewrite Ht in Hy. injection Hy as <-.
  assert (Hlt : (c - 1) / 2 < c) by (apply Nat.div_lt_upper_bound; lia).
  destruct (IH ((c - 1) / 2) Hlt fuel ix1) as (ix' & H1 & H2 & H3); [lia|lia|lia| |].
  - eapply pend_step; eauto.
  - exists ix'. split; [exact H1|]. split; [lia|exact H3].
Qed.

Lemma index_walk_ok f lens lens' ix off pos :
  (forall x y z, f x = Ok y -> f (x + z) = Ok (y + z)) ->
  IndexFor lens ix off -> length lens' = length lens -> pos < length lens ->
  f (nth pos lens 0) = Ok (nth pos lens' 0) ->
  (forall i, i <> pos -> nth i lens' 0 = nth i lens 0) ->
  exists ix', index_walk f (off + pos) ix = Ok ix' /\ IndexFor lens' ix' off.
Proof.
  intros Hf (D & HD & Hoff & Hn & H2 & Hlen & Hleaf & Hsum) Hl' Hpos Hfp Hother.
  unfold index_walk.
  assert (HP : Pend D f (nd ix) lens' (off + pos)).
  { split.
    - intros p Hp. replace (p =? off + pos) with false by (symmetry; apply Nat.eqb_neq; lia).
      apply Hsum. exact Hp.
    - intros i Hi. rewrite Hleaf by exact Hi. rewrite Hoff.
      destruct (Nat.eqb_spec (2 ^ D - 1 + i) (2 ^ D - 1 + pos)) as [He|He].
      + replace i with pos by lia. exact Hfp.
      + symmetry. apply Hother. lia. }
  destruct (walk_up_ok D f lens' Hf (off + pos) (S (off + pos)) ix) as (ix1 & H1 & Hl1 & HP1);
    [lia|lia|lia|exact HP|].
  rewrite H1. cbn [rbind].
  pose proof (pow2_pos D) as HpD.
  destruct (pend_target _ _ _ _ 0 HP1) as [t Ht]; [lia|].
  destruct (updn_ok ix1 0 f t ltac:(lia) Ht) as [ix' Hu]. rewrite Hu.
  destruct (updn_nth _ _ _ _ Hu) as (_ & Hl2 & y & Hy & Hnth).
  rewrite Ht in Hy. injection Hy as <-.
  exists ix'. split; [reflexivity|].
  assert (H2D : 2 <= 2 ^ D).
  { destruct D as [|D']; [lia|]. rewrite pow2_S. pose proof (pow2_pos D'). lia. }
  exists D. repeat split; try lia.
  - intros i Hi. rewrite Hnth.
    destruct HP1 as [_ HL]. specialize (HL i Hi).
    assert (Hz : 2 ^ D - 1 + i =? 0 = false) by (apply Nat.eqb_neq; lia).
    rewrite Hz in *. exact HL.
  - intros p Hp. rewrite !Hnth.
    destruct HP1 as [HI _]. specialize (HI p Hp).
    replace (2 * p + 1 =? 0) with false by (symmetry; apply Nat.eqb_neq; lia).
    replace (2 * p + 2 =? 0) with false by (symmetry; apply Nat.eqb_neq; lia).
    destruct (Nat.eqb_spec p 0) as [Hp0|Hp0].
    + subst p. rewrite Ht in HI. injection HI as ->. reflexivity.
    + exact HI.
Qed.

Lemma inc_shift x y z : Ok (x + 1) = Ok y -> Ok (x + z + 1) = Ok (y + z).
Proof. intros H. injection H as <-. f_equal. lia. Qed.
Lemma dec_shift x y z : subc x 1 = Ok y -> subc (x + z) 1 = Ok (y + z).
Proof.
  unfold subc. destruct (Nat.leb_spec 1 x); [|discriminate]. intros H'. injection H' as <-.
  destruct (Nat.leb_spec 1 (x + z)); [|lia]. f_equal. lia.
Qed.

(** ** [_build_index] *)
Lemma pair_sums_spec n l : length l <= n ->
  length (pair_sums l) = length l / 2 /\
  (forall j, j < length l / 2 -> nth j (pair_sums l) 0 = nth (2 * j) l 0 + nth (2 * j + 1) l 0).
Proof.
  revert l. induction n as [n IH] using lt_wf_ind. intros l Hl.
  destruct l as [|a [|b t]].
  - split; [reflexivity|]. intros j Hj. cbn in Hj. lia.
  - split; [reflexivity|]. intros j Hj. cbn in Hj. lia.
  - cbn [length] in *.
    destruct (IH (length t)) with (l := t) as [H1 H2]; [lia|lia|].
    assert (Hd : S (S (length t)) / 2 = S (length t / 2)).
    { change (S (S (length t))) with (2 + length t).
      replace (2 + length t) with (length t + 1 * 2) by lia.
      rewrite Nat.div_add by lia. lia. }
    cbn [pair_sums length]. rewrite H1, Hd. split; [lia|].
    intros [|j] Hj; [reflexivity|].
    replace (2 * S j) with (S (S (2 * j))) by lia.
    replace (S (S (2 * j)) + 1) with (S (S (2 * j + 1))) by lia.
    cbn [nth]. apply H2. lia.
Qed.

(** [h] is the heap built above a bottom row of [2 ^ k] entries. *)
Definition HeapOf (k : nat) (row h : list nat) : Prop :=
  length h = 2 * 2 ^ k - 1 /\
  (forall j, j < 2 ^ k -> nd h (2 ^ k - 1 + j) = nth j row 0) /\
  (forall p, p < 2 ^ k - 1 -> nd h p = nd h (2 * p + 1) + nd h (2 * p + 2)).

Lemma tree_rows_ok k : forall row fuel, length row = 2 ^ k -> k < fuel ->
  exists rows, tree_rows fuel row = Ok rows /\ HeapOf k row (concat (rev rows)).
Proof.
  induction k as [|k IH]; intros row fuel Hl Hf.
  - destruct fuel as [|fuel]; [lia|]. cbn [tree_rows]. cbn in Hl. rewrite Hl. cbn [Nat.ltb Nat.leb].
    eexists. split; [reflexivity|]. cbn [rev app concat]. rewrite app_nil_r.
    split; [cbn; lia|]. split; [intros j Hj; reflexivity|]. intros p Hp. cbn in Hp. lia.
  - destruct fuel as [|fuel]; [lia|]. cbn [tree_rows].
    pose proof (pow2_pos k) as Hp. rewrite pow2_S in Hl.
    destruct (Nat.ltb_spec 1 (length row)) as [_|H]; [|lia].
    destruct (@pair_sums_spec (length row) row ltac:(lia)) as [Hps1 Hps2].
    assert (Hhalf : length row / 2 = 2 ^ k) by (symmetry; apply Nat.div_unique with (r := 0); lia).
    rewrite Hhalf in *.
    destruct (IH (pair_sums row) fuel Hps1 ltac:(lia)) as (rows & Hr & Hh1 & Hh2 & Hh3).
    rewrite Hr. cbn [rbind]. eexists. split; [reflexivity|].
    cbn [rev]. rewrite concat_app. cbn [concat]. rewrite app_nil_r.
    set (h := concat (rev rows)) in *.
    split; [rewrite app_length, Hh1, Hl, pow2_S; lia|].
    assert (Hrow : forall j, nd (h ++ row) (2 ^ S k - 1 + j) = nth j row 0).
    { intros j. unfold nd. rewrite app_nth2 by (rewrite Hh1, pow2_S; lia).
      f_equal. rewrite Hh1, pow2_S. lia. }
    assert (Hhh : forall p, p < 2 * 2 ^ k - 1 -> nd (h ++ row) p = nd h p).
    { intros p Hp'. unfold nd. rewrite app_nth1 by lia. reflexivity. }
    split; [intros j _; apply Hrow|].
    intros p Hp'. rewrite pow2_S in Hp'. rewrite Hhh by lia.
    destruct (Nat.lt_ge_cases p (2 ^ k - 1)) as [Hlt|Hge].
    + rewrite !Hhh by lia. apply Hh3. exact Hlt.
    + assert (Hj : exists j, p = 2 ^ k - 1 + j /\ j < 2 ^ k).
      { exists (p - (2 ^ k - 1)). lia. }
      destruct Hj as (j & -> & Hj). rewrite Hh2 by lia. rewrite Hps2 by lia.
      replace (2 * (2 ^ k - 1 + j) + 1) with (2 ^ S k - 1 + 2 * j) by (rewrite pow2_S; lia).
      replace (2 * (2 ^ k - 1 + j) + 2) with (2 ^ S k - 1 + (2 * j + 1)) by (rewrite pow2_S; lia).
      rewrite !Hrow. reflexivity.
Qed.

(** Correct for every power of two [size] that is at least [length row1]. *)
Lemma build_index_sized_ok k row0 row1 :
  2 <= length row0 ->
  length row1 = (length row0 + 1) / 2 ->
  (forall j, nth j row1 0 = nth (2 * j) row0 0 + nth (2 * j + 1) row0 0) ->
  length row1 <= 2 ^ k ->
  exists ix, build_index_sized (2 ^ k) row0 row1 = Ok (ix, 2 ^ k * 2 - 1)
             /\ IndexFor row0 ix (2 ^ k * 2 - 1).
Proof.
  intros H2 Hl1 Hr1 Hk. unfold build_index_sized.
  set (row1' := row1 ++ repeat 0 (2 ^ k - length row1)).
  assert (Hlen' : length row1' = 2 ^ k) by (subst row1'; rewrite app_length, repeat_length; lia).
  destruct (@tree_rows_ok k row1' (S (length row1'))) as (rows & Hr & Hh1 & Hh2 & Hh3);
    [exact Hlen'|rewrite Hlen'; pose proof (pow2_gt k); lia|].
  rewrite Hr. cbn [rbind]. eexists. split; [reflexivity|].
  cbn [rev]. rewrite concat_app. cbn [concat]. rewrite app_nil_r.
  set (h := concat (rev rows)) in *.
  pose proof (pow2_pos k) as Hp.
  assert (Hn : length row0 <= 2 * 2 ^ k).
  { pose proof (Nat.div_mod (length row0 + 1) 2 ltac:(lia)) as Hdm.
    pose proof (Nat.mod_upper_bound (length row0 + 1) 2 ltac:(lia)). lia. }
  exists (S k). rewrite pow2_S. repeat split; try lia.
  - rewrite app_length, Hh1. lia.
  - intros i Hi. unfold nd. rewrite pow2_S, app_nth2 by (rewrite Hh1; lia).
    f_equal. rewrite Hh1. lia.
  - intros p Hp'. rewrite pow2_S in Hp'.
    assert (Hhh : forall p, p < 2 * 2 ^ k - 1 -> nd (h ++ row0) p = nd h p).
    { intros q Hq. unfold nd. rewrite app_nth1 by lia. reflexivity. }
    rewrite Hhh by lia.
    destruct (Nat.lt_ge_cases p (2 ^ k - 1)) as [Hlt|Hge].
    + rewrite !Hhh by lia. apply Hh3. exact Hlt.
    + assert (Hj : exists j, p = 2 ^ k - 1 + j /\ j < 2 ^ k).
      { exists (p - (2 ^ k - 1)). lia. }
      destruct Hj as (j & -> & Hj). rewrite Hh2 by lia.
      assert (Hpad : nth j row1' 0 = nth j row1 0).
      { subst row1'. destruct (Nat.lt_ge_cases j (length row1)) as [Hlt|Hge'].
        - rewrite app_nth1 by lia. reflexivity.
        - rewrite app_nth2 by lia. rewrite nth_repeat. rewrite nth_overflow by lia. reflexivity. }
      rewrite Hpad, Hr1. unfold nd.
      rewrite !app_nth2 by (rewrite Hh1; lia). rewrite Hh1. f_equal; f_equal; lia.
Qed.

(** The first row above the leaves, odd tail included (sortedlist.py:669-674). *)
Lemma row1_ok row0 : 2 <= length row0 ->
  exists row1,
    (if Nat.odd (length row0)
     then let! x := getlast row0 in Ok (pair_sums row0 ++ [x])
     else Ok (pair_sums row0)) = Ok row1
    /\ length row1 = (length row0 + 1) / 2
    /\ forall j, nth j row1 0 = nth (2 * j) row0 0 + nth (2 * j + 1) row0 0.
Proof.
  intros H2. destruct (@pair_sums_spec (length row0) row0 ltac:(lia)) as [Hp1 Hp2].
  destruct (Nat.odd (length row0)) eqn:Hodd.
  - apply Nat.odd_spec in Hodd. destruct Hodd as [m Hm].
    assert (Hh : length row0 / 2 = m) by (symmetry; apply Nat.div_unique with (r := 1); lia).
    rewrite Hh in *.
    assert (Hgl : getlast row0 = Ok (nth (2 * m) row0 0)).
    { unfold getlast, getz. cbn [Z.ltb Z.compare].
      destruct (Z.ltb_spec (-1 + Z.of_nat (length row0)) 0); [lia|].
      replace (Z.to_nat (-1 + Z.of_nat (length row0))) with (2 * m) by lia.
      rewrite getn_nth by lia. reflexivity. }
    rewrite Hgl. cbn [rbind]. eexists. split; [reflexivity|]. split.
    + rewrite app_length, Hp1. cbn [length]. apply Nat.div_unique with (r := 0); lia.
    + intros j. destruct (lt_eq_lt_dec j m) as [[Hlt| ->]|Hgt].
      * rewrite app_nth1 by lia. apply Hp2. exact Hlt.
      * rewrite app_nth2 by lia. rewrite Hp1, Nat.sub_diag. cbn [nth].
        rewrite (nth_overflow row0 (n := 2 * m + 1) 0) by lia. lia.
      * rewrite nth_overflow by (rewrite app_length; cbn [length]; lia).
        rewrite !nth_overflow by lia. reflexivity.
  - assert (Heven : Nat.Even (length row0)).
    { apply Nat.even_spec. rewrite <- Nat.negb_odd, Hodd. reflexivity. }
    destruct Heven as [m Hm].
    assert (Hh : length row0 / 2 = m) by (symmetry; apply Nat.div_unique with (r := 0); lia).
    rewrite Hh in *. eexists. split; [reflexivity|]. split.
    + rewrite Hp1. apply Nat.div_unique with (r := 1); lia.
    + intros j. destruct (Nat.lt_ge_cases j m) as [Hlt|Hge].
      * apply Hp2. exact Hlt.
      * rewrite !nth_overflow by lia. reflexivity.
Qed.

Lemma build_index_ok {V K} (c : core V K) :
  2 <= length (lists c) -> index c = [] ->
  exists ix off, build_index c = (Ok tt, set_offset off (set_index ix c))
                 /\ IndexFor (map (@length V) (lists c)) ix off.
Proof.
  intros H2 Hix. unfold build_index, modifyR.
  set (row0 := map (@length V) (lists c)).
  assert (Hl0 : length row0 = length (lists c)) by (subst row0; apply map_length).
  clearbody row0.
  destruct (Nat.eqb_spec (length row0) 1) as [H|_]; [lia|].
  destruct (row1_ok row0 ltac:(lia)) as (row1 & Hr1 & Hl1 & Hn1).
  rewrite Hr1. cbn [rbind].
  pose proof (Nat.div_mod (length row0 + 1) 2 ltac:(lia)) as Hdm.
  pose proof (Nat.mod_upper_bound (length row0 + 1) 2 ltac:(lia)) as Hmb.
  destruct (Nat.eqb_spec (length row1) 1) as [H1|H1].
  - eexists _, _. split; [reflexivity|].
    assert (Hl2 : length row0 = 2) by lia.
    destruct row1 as [|x [|? ?]]; cbn in H1; try lia.
    assert (Hx := Hn1 0). cbn [nth] in Hx.
    destruct row0 as [|a [|b [|? ?]]]; cbn in Hl2; try lia.
    cbn in Hx. exists 1. cbn. repeat split; try lia.
    + intros [|p] Hp; [cbn; lia|cbn in Hp; lia].
  - destruct (Nat.eqb_spec (length row1) 0) as [H0|H0]; [lia|].
    replace (Nat.log2 (length row1 - 1) + 1) with (S (Nat.log2 (length row1 - 1))) by lia.
    assert (Hsz : length row1 <= 2 ^ S (Nat.log2 (length row1 - 1))).
    { pose proof (Nat.log2_spec (length row1 - 1) ltac:(lia)). lia. }
    destruct (build_index_sized_ok _ row0 row1 ltac:(lia) Hl1 Hn1 Hsz) as (ix & Hb & HI).
    rewrite Hb. cbn [rbind fst snd]. rewrite Hix. cbn [app].
    eexists _, _. split; [reflexivity|exact HI].
Qed.

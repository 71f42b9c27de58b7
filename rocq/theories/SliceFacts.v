(** * Facts about slices, ranges and positions in nested lists (proofs) *)
From Verif Require Import PyBase BaseFacts Spec.
Local Unset Implicit Arguments.

(** ** slice.indices and range *)
Lemma slice_indices_Ok sl n start stop step : slice_indices sl n = Ok (start, stop, step) ->
  (step <> 0 /\
   (0 < step -> 0 <= start <= Z.of_nat n /\ 0 <= stop <= Z.of_nat n) /\
   (step < 0 -> -1 <= start <= Z.of_nat n - 1 /\ -1 <= stop <= Z.of_nat n - 1))%Z.
Proof.
  unfold slice_indices. destruct sl as [a b c]. cbn [s_start s_stop s_step].
  set (st := match c with None => 1%Z | Some k => k end).
  destruct (Z.eqb_spec st 0) as [|Hst]; [discriminate|].
  intros H. injection H as H1 H2 H3. subst step.
  assert (HA : forall o d lower upper, (lower <= d <= upper)%Z ->
     (upper = Z.of_nat n /\ lower = 0 \/ upper = Z.of_nat n - 1 /\ lower = -1)%Z ->
     (lower <= slice_adjust lower upper (Z.of_nat n) d o <= upper)%Z).
  { intros o d lower upper Hd Hu. unfold slice_adjust. destruct o as [v|]; [|exact Hd].
    destruct (Z.ltb_spec v 0).
    - destruct (Z.ltb_spec (v + Z.of_nat n) lower); lia.
    - destruct (Z.ltb_spec upper v); lia. }
  split; [exact Hst|]. split; intros Hs.
  - destruct (Z.ltb_spec st 0); [lia|]. subst start stop. split; apply HA; lia.
  - destruct (Z.ltb_spec st 0); [|lia]. subst start stop. split; apply HA; lia.
Qed.

Lemma slice_indices_Err sl n e : slice_indices sl n = Err e -> e = ValueError /\ s_step sl = Some 0%Z.
Proof.
  unfold slice_indices. destruct (s_step sl) as [k|]; [|discriminate].
  destruct (Z.eqb_spec k 0); [|discriminate]. intros H. injection H as <-. subst. auto.
Qed.

Lemma slice_indices_None a b n : exists start stop,
  slice_indices (mkslice a b None) n = Ok (start, stop, 1%Z).
Proof. unfold slice_indices. cbn. eauto. Qed.

Lemma slice_indices_plain a b n : (0 <= a <= Z.of_nat n)%Z -> (0 <= b <= Z.of_nat n)%Z ->
  slice_indices (mkslice (Some a) (Some b) None) n = Ok (a, b, 1%Z).
Proof.
  intros Ha Hb. unfold slice_indices. cbn. unfold slice_adjust.
  destruct (Z.ltb_spec a 0); [lia|]. destruct (Z.ltb_spec b 0); [lia|].
  destruct (Z.ltb_spec (Z.of_nat n) a); [lia|]. destruct (Z.ltb_spec (Z.of_nat n) b); [lia|].
  reflexivity.
Qed.
Lemma slice_indices_to b n : (0 <= b <= Z.of_nat n)%Z ->
  slice_indices (mkslice None (Some b) None) n = Ok (0%Z, b, 1%Z).
Proof.
  intros Hb. unfold slice_indices. cbn. unfold slice_adjust.
  destruct (Z.ltb_spec b 0); [lia|].
  destruct (Z.ltb_spec (Z.of_nat n) b); [lia|]. reflexivity.
Qed.
Lemma slice_indices_from a n : (0 <= a <= Z.of_nat n)%Z ->
  slice_indices (mkslice (Some a) None None) n = Ok (a, Z.of_nat n, 1%Z).
Proof.
  intros Ha. unfold slice_indices. cbn. unfold slice_adjust.
  destruct (Z.ltb_spec a 0); [lia|].
  destruct (Z.ltb_spec (Z.of_nat n) a); [lia|]. reflexivity.
Qed.

Lemma range_len_1 a b : range_len a b 1 = Z.to_nat (b - a).
Proof. unfold range_len. cbn [Z.ltb Z.compare]. rewrite Z.div_1_r. f_equal. lia. Qed.
Lemma range_len_m1 a b : range_len a b (-1) = Z.to_nat (a - b).
Proof.
  unfold range_len. change (0 <? -1)%Z with false. cbv iota.
  change (- -1)%Z with 1%Z. rewrite Z.div_1_r. f_equal. lia.
Qed.

Lemma rangez_1 a b : (0 <= a)%Z ->
  rangez a b 1 = map Z.of_nat (seq (Z.to_nat a) (Z.to_nat (b - a))).
Proof.
  intros Ha. unfold rangez. rewrite range_len_1.
  rewrite <- (Nat.add_0_r (Z.to_nat a)).
  generalize (Z.to_nat (b - a)) as n. intros n. generalize 0 as i.
  induction n as [|n IH]; intros i; cbn [seq map]; [reflexivity|].
  f_equal; [lia|]. rewrite IH. f_equal. f_equal. lia.
Qed.

Lemma rangez_nil_1 a b : (b <= a)%Z -> rangez a b 1 = [].
Proof. intros H. unfold rangez. rewrite range_len_1. replace (Z.to_nat (b - a)) with 0 by lia. reflexivity. Qed.

Lemma rangez_m1 a b : (b < a)%Z -> rangez a b (-1) = rev (rangez (b + 1) (a + 1) 1).
Proof.
  intros H. unfold rangez. rewrite range_len_1, range_len_m1.
  replace (a + 1 - (b + 1))%Z with (a - b)%Z by lia.
  rewrite <- map_rev.
  assert (G : forall n i s, (s = b + Z.of_nat i + Z.of_nat n)%Z ->
     map (fun j => (s + Z.of_nat j * -1)%Z) (seq 0 n)
     = map (fun j => (b + 1 + Z.of_nat j * 1)%Z) (rev (seq i n))).
  { intros n. induction n as [|n IH]; intros i s Hs; [reflexivity|].
    rewrite (seq_S n i), rev_app_distr. cbn [rev app map seq].
    f_equal; [lia|]. rewrite <- (IH i (s - 1)%Z) by lia.
    rewrite <- seq_shift, map_map. apply map_ext. intros j. lia. }
  apply (G _ 0). lia.
Qed.

(** Every index produced by an adjusted slice is valid. *)
Lemma rangez_bound start stop step i : step <> 0%Z -> In i (rangez start stop step) ->
  ((0 < step -> start <= i < stop) /\ (step < 0 -> stop < i <= start))%Z.
Proof.
  intros Hs Hi. unfold rangez in Hi. apply in_map_iff in Hi as (k & <- & Hk).
  apply in_seq in Hk. cbn in Hk. unfold range_len in Hk.
  split; intros Hst.
  - destruct (Z.ltb_spec 0 step); [|lia].
    assert (Hk' : (Z.of_nat k < (stop - start + step - 1) / step)%Z) by lia.
    assert (H1 : (step * ((stop - start + step - 1) / step) <= stop - start + step - 1)%Z)
      by (apply Z.mul_div_le; lia).
    nia.
  - destruct (Z.ltb_spec 0 step); [lia|].
    assert (Hk' : (Z.of_nat k < (start - stop - step - 1) / (- step))%Z) by lia.
    assert (H1 : ((- step) * ((start - stop - step - 1) / (- step)) <= start - stop - step - 1)%Z)
      by (apply Z.mul_div_le; lia).
    nia.
Qed.

(** ** [slicen] *)
Lemma skipn_skipn {A} x y (l : list A) : skipn x (skipn y l) = skipn (x + y) l.
Proof.
  revert l. induction y as [|y IH]; intros l; [rewrite Nat.add_0_r; reflexivity|].
  rewrite Nat.add_succ_r. destruct l as [|a l]; [rewrite !skipn_nil; reflexivity|]. apply IH.
Qed.

Lemma slicen_mid {A} (X Y Z : list A) a b : a = length X -> b = length X + length Y ->
  slicen (X ++ Y ++ Z) a b = Y.
Proof.
  intros -> ->. unfold slicen. rewrite skipn_app_len.
  replace (length X + length Y - length X) with (length Y) by lia. apply firstn_app_len.
Qed.

Lemma slicen_nil {A} (l : list A) a b : b <= a -> slicen l a b = [].
Proof. intros H. unfold slicen. replace (b - a) with 0 by lia. reflexivity. Qed.

Lemma slicen_split {A} (l : list A) a b : a <= b -> b <= length l ->
  exists X Z, l = X ++ slicen l a b ++ Z /\ length X = a /\ length (slicen l a b) = b - a.
Proof.
  intros Hab Hb. exists (firstn a l), (skipn b l). unfold slicen. split; [|split].
  - rewrite <- (firstn_skipn a l) at 1. f_equal.
    rewrite <- (firstn_skipn (b - a) (skipn a l)) at 1. f_equal.
    rewrite skipn_skipn. f_equal. lia.
  - rewrite firstn_length. lia.
  - rewrite firstn_length, skipn_length. lia.
Qed.

Lemma slicen_all {A} (l : list A) : slicen l 0 (length l) = l.
Proof. unfold slicen. cbn. rewrite Nat.sub_0_r. apply firstn_all. Qed.

Lemma mapR_getn_seq {A} (X Y Z : list A) :
  mapR (getn (X ++ Y ++ Z)) (seq (length X) (length Y)) = Ok Y.
Proof.
  revert X. induction Y as [|y Y IH]; intros X; [reflexivity|].
  cbn [length seq]. apply mapR_cons_Ok; [apply getn_app|].
  specialize (IH (X ++ [y])). rewrite app_length in IH. cbn in IH.
  rewrite <- app_assoc in IH. cbn in IH. rewrite Nat.add_1_r in IH. exact IH.
Qed.

Lemma mapR_getn_rangen {A} (l : list A) a b : b <= length l ->
  mapR (getn l) (rangen a b) = Ok (slicen l a b).
Proof.
  intros Hb. unfold rangen. destruct (Nat.le_gt_cases a b) as [Hab|Hab].
  - destruct (slicen_split l a b Hab Hb) as (X & Z & E & HX & HY).
    set (Y := slicen l a b) in *. clearbody Y. subst l a. rewrite <- HY. apply mapR_getn_seq.
  - replace (b - a) with 0 by lia. rewrite slicen_nil by lia. reflexivity.
Qed.

Lemma mapR_map_arg {A B C} (f : B -> res C) (g : A -> B) l :
  mapR f (map g l) = mapR (fun x => f (g x)) l.
Proof. induction l as [|x l IH]; cbn; [reflexivity|]. rewrite IH. reflexivity. Qed.

Lemma mapR_getz_rangez {A} (l : list A) a b : (0 <= a)%Z -> (b <= Z.of_nat (length l))%Z ->
  mapR (getz l) (rangez a b 1) = Ok (slicen l (Z.to_nat a) (Z.to_nat b)).
Proof.
  intros Ha Hb. rewrite rangez_1 by exact Ha. rewrite mapR_map_arg.
  rewrite <- mapR_getn_rangen by lia. unfold rangen.
  replace (Z.to_nat (b - a)) with (Z.to_nat b - Z.to_nat a) by lia.
  apply mapR_ext_in. intros i _. rewrite getz_nonneg by lia. f_equal. lia.
Qed.

Lemma mapR_getz_rangez_rev {A} (l : list A) a b : (-1 <= b)%Z -> (b < a)%Z -> (a <= Z.of_nat (length l) - 1)%Z ->
  mapR (getz l) (rangez a b (-1)) = Ok (rev (slicen l (Z.to_nat (b + 1)) (Z.to_nat (a + 1)))).
Proof.
  intros Hb Hba Ha. rewrite rangez_m1 by exact Hba. apply mapR_rev. apply mapR_getz_rangez; lia.
Qed.

(** ** Positions in a list of sublists *)

(** Offset [i] of sublist [p] is position [j] of the concatenation. *)
Definition Bnd {A} (ls : list (list A)) (p i j : nat) : Prop :=
  exists X l Y, ls = X ++ l :: Y /\ length X = p /\ i <= length l /\ j = length (concat X) + i.
Definition Locate {A} (ls : list (list A)) (p i j : nat) : Prop :=
  exists X l Y, ls = X ++ l :: Y /\ length X = p /\ i < length l /\ j = length (concat X) + i.

Lemma locate_bnd {A} (ls : list (list A)) p i j : Locate ls p i j -> Bnd ls p i j.
Proof. intros (X & l & Y & E & H1 & H2 & H3). exists X, l, Y. repeat split; auto. lia. Qed.

Lemma locate_get {A} (ls : list (list A)) p i j : Locate ls p i j ->
  exists l, getn ls p = Ok l /\ getn l i = getn (concat ls) j /\ i < length l /\ j < length (concat ls).
Proof.
  intros (X & l & Y & -> & <- & H2 & ->). exists l. split; [apply getn_app|].
  rewrite concat_app. cbn. split; [|split; [exact H2|rewrite !app_length; lia]].
  unfold getn. rewrite nth_error_app2 by lia. rewrite nth_error_app1 by lia.
  replace (length (concat X) + i - length (concat X)) with i by lia. reflexivity.
Qed.

Lemma slicen_concat_same {A} (X : list (list A)) l Y i i' : i' <= length l ->
  slicen (concat (X ++ l :: Y)) (length (concat X) + i) (length (concat X) + i') = slicen l i i'.
Proof.
  intros H. destruct (Nat.le_gt_cases i i') as [Hi|Hi].
  - destruct (slicen_split l i i' Hi H) as (P & Q & E & HP & HY).
    rewrite concat_app. cbn [concat]. rewrite E at 1. rewrite <- !app_assoc, app_assoc.
    apply slicen_mid; rewrite app_length; lia.
  - rewrite !slicen_nil by lia. reflexivity.
Qed.

Lemma slicen_concat_mid {A} (X : list (list A)) l Mid l' Y i i' : i <= length l -> i' <= length l' ->
  slicen (concat (X ++ l :: Mid ++ l' :: Y)) (length (concat X) + i)
         (length (concat (X ++ l :: Mid)) + i')
  = skipn i l ++ concat Mid ++ firstn i' l'.
Proof.
  intros Hi Hi'.
  replace (concat (X ++ l :: Mid ++ l' :: Y))
    with ((concat X ++ firstn i l) ++ (skipn i l ++ concat Mid ++ firstn i' l') ++ (skipn i' l' ++ concat Y)).
  2:{ rewrite concat_app. cbn. rewrite concat_app. cbn.
      rewrite <- (firstn_skipn i l) at 3. rewrite <- (firstn_skipn i' l') at 3.
      rewrite <- !app_assoc. reflexivity. }
  apply slicen_mid; rewrite !app_length, firstn_length; [lia|].
  rewrite skipn_length, firstn_length, concat_app, app_length. cbn. rewrite app_length. lia.
Qed.

(** Two positions of the same list of sublists. *)
Lemma split_order {A} (X : list A) l Y X' l' Y' : X ++ l :: Y = X' ++ l' :: Y' ->
  length X < length X' -> exists Mid, X' = X ++ l :: Mid /\ Y = Mid ++ l' :: Y'.
Proof.
  revert X'. induction X as [|a X IH]; intros [|a' X'] E Hl; cbn in *; try lia.
  - injection E as -> ->. eauto.
  - injection E as -> E. destruct (IH X' E ltac:(lia)) as (Mid & -> & ->). eauto.
Qed.
Lemma split_same {A} (X : list A) l Y X' l' Y' : X ++ l :: Y = X' ++ l' :: Y' ->
  length X = length X' -> X = X' /\ l = l' /\ Y = Y'.
Proof.
  revert X'. induction X as [|a X IH]; intros [|a' X'] E Hl; cbn in *; try lia.
  - injection E as -> ->. auto.
  - injection E as -> E. destruct (IH X' E ltac:(lia)) as (-> & -> & ->). auto.
Qed.

Lemma rev_concat {A} (L : list (list A)) : concat (map (@rev A) (rev L)) = rev (concat L).
Proof.
  induction L as [|l L IH]; [reflexivity|]. cbn. rewrite map_app, concat_app, IH. cbn.
  rewrite app_nil_r, rev_app_distr. reflexivity.
Qed.

(** ** [drop_positions] *)
Section Drop.
  Context {A : Type}.
  Implicit Types l : list A.
  Lemma drop_app idxs l1 l2 : forall k,
    drop_positions idxs k (l1 ++ l2) =
    drop_positions idxs k l1 ++ drop_positions idxs (k + Z.of_nat (length l1)) l2.
  Proof.
    induction l1 as [|x l1 IH]; intros k; cbn [app drop_positions length].
    - f_equal. lia.
    - rewrite IH. replace (k + 1 + Z.of_nat (length l1))%Z with (k + Z.of_nat (S (length l1)))%Z by lia.
      destruct (existsb (Z.eqb k) idxs); reflexivity.
  Qed.
  Lemma drop_ext idxs idxs' l : forall k,
    (forall i, (k <= i < k + Z.of_nat (length l))%Z -> existsb (Z.eqb i) idxs = existsb (Z.eqb i) idxs') ->
    drop_positions idxs k l = drop_positions idxs' k l.
  Proof.
    induction l as [|x l IH]; intros k H; cbn [drop_positions]; [reflexivity|].
    cbn [length] in H. rewrite H by lia. rewrite IH by (intros; apply H; lia). reflexivity.
  Qed.
  Lemma drop_none idxs l : forall k,
    (forall i, (k <= i < k + Z.of_nat (length l))%Z -> existsb (Z.eqb i) idxs = false) ->
    drop_positions idxs k l = l.
  Proof.
    induction l as [|x l IH]; intros k H; cbn [drop_positions]; [reflexivity|].
    cbn [length] in H. rewrite H by lia. rewrite IH by (intros; apply H; lia). reflexivity.
  Qed.
  Lemma drop_all idxs l : forall k,
    (forall i, (k <= i < k + Z.of_nat (length l))%Z -> existsb (Z.eqb i) idxs = true) ->
    drop_positions idxs k l = [].
  Proof.
    induction l as [|x l IH]; intros k H; cbn [drop_positions]; [reflexivity|].
    cbn [length] in H. rewrite H by lia. apply IH. intros; apply H; lia.
  Qed.
End Drop.

Lemma existsb_eqb_false i l : existsb (Z.eqb i) l = false <-> ~ In i l.
Proof.
  rewrite <- not_true_iff_false, existsb_exists. split.
  - intros H Hi. apply H. exists i. split; [exact Hi|apply Z.eqb_refl].
  - intros H (x & Hx & E). apply Z.eqb_eq in E. subst. auto.
Qed.
Lemma existsb_eqb_true i l : existsb (Z.eqb i) l = true <-> In i l.
Proof.
  rewrite existsb_exists. split.
  - intros (x & Hx & E). apply Z.eqb_eq in E. subst. exact Hx.
  - intros H. exists i. split; [exact H|apply Z.eqb_refl].
Qed.
Lemma existsb_eqb_perm i l l' : (forall x, In x l <-> In x l') ->
  existsb (Z.eqb i) l = existsb (Z.eqb i) l'.
Proof.
  intros H. apply eq_iff_eq_true. rewrite !existsb_eqb_true. apply H.
Qed.

Lemma in_rangez_1 a b i : In i (rangez a b 1) <-> (a <= i < b)%Z.
Proof.
  unfold rangez. rewrite range_len_1, in_map_iff. split.
  - intros (k & <- & Hk). apply in_seq in Hk. lia.
  - intros H. exists (Z.to_nat (i - a)). split; [lia|]. apply in_seq. lia.
Qed.

Lemma drop_range {A} (l : list A) a b : (0 <= a <= b)%Z -> (b <= Z.of_nat (length l))%Z ->
  drop_positions (rangez a b 1) 0 l = firstn (Z.to_nat a) l ++ skipn (Z.to_nat b) l.
Proof.
  intros Ha Hb.
  destruct (slicen_split l (Z.to_nat a) (Z.to_nat b) ltac:(lia) ltac:(lia)) as (X & Z & E & HX & HY).
  set (Y := slicen l (Z.to_nat a) (Z.to_nat b)) in *. clearbody Y. subst l.
  rewrite !drop_app. rewrite drop_none, drop_all, drop_none.
  - rewrite <- HX, firstn_app_len. cbn.
    replace (Z.to_nat b) with (length (X ++ Y)) by (rewrite app_length; lia).
    rewrite app_assoc, skipn_app_len. reflexivity.
  - intros i Hi. apply existsb_eqb_false. rewrite in_rangez_1. lia.
  - intros i Hi. apply existsb_eqb_true. apply in_rangez_1. lia.
  - intros i Hi. apply existsb_eqb_false. rewrite in_rangez_1. lia.
Qed.

(** Deleting the greatest of a set of positions first. *)
Lemma drop_greatest {A} (a : list A) x b i rest : i = Z.of_nat (length a) ->
  (forall j, In j rest -> (j < i)%Z) ->
  drop_positions (i :: rest) 0 (a ++ x :: b) = drop_positions rest 0 (a ++ b).
Proof.
  intros -> H. rewrite !drop_app. f_equal.
  - apply drop_ext. intros j Hj. cbn [existsb].
    destruct (Z.eqb_spec j (Z.of_nat (length a))); [lia|reflexivity].
  - cbn [drop_positions existsb]. rewrite Z.add_0_l, Z.eqb_refl. cbn [orb].
    rewrite !drop_none; [reflexivity| |].
    + intros j Hj. apply existsb_eqb_false. intros Hin. apply H in Hin. lia.
    + intros j Hj. cbn [existsb]. destruct (Z.eqb_spec j (Z.of_nat (length a))); [lia|].
      apply existsb_eqb_false. intros Hin. apply H in Hin. lia.
Qed.

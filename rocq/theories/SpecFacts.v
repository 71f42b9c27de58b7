(** * Facts about the reference semantics of Spec.v (proofs) *)
From Verif Require Import PyBase BaseFacts Spec.
From Coq Require Import Sorting.Permutation Sorting.Sorted.
Local Unset Implicit Arguments.

Section Swo.
  Context {A : Type} (ltb : A -> A -> bool).
  Hypothesis HO : SWO ltb.

  Lemma swo_asym x y : ltb x y = true -> ltb y x = false.
  Proof.
    intros H. destruct (ltb y x) eqn:E; [|reflexivity].
    assert (Hx := swo_trans HO _ _ _ H E). rewrite (swo_irrefl HO) in Hx. discriminate.
  Qed.

  (** [x <= y <= z -> x <= z] where [x <= y] is [ltb y x = false]. *)
  Lemma swo_le_trans x y z : ltb y x = false -> ltb z y = false -> ltb z x = false.
  Proof.
    intros H1 H2. destruct (ltb z x) eqn:E; [|reflexivity].
    destruct (swo_cotrans HO _ y _ E); congruence.
  Qed.

  Lemma swo_lt_le x y z : ltb x y = true -> ltb z y = false -> ltb x z = true.
  Proof. intros H1 H2. destruct (swo_cotrans HO _ z _ H1); congruence. Qed.

  Lemma swo_le_lt x y z : ltb y x = false -> ltb y z = true -> ltb x z = true.
  Proof. intros H1 H2. destruct (swo_cotrans HO _ x _ H2); congruence. Qed.

  Lemma tie_sym x y : tie ltb x y = tie ltb y x.
  Proof. unfold tie. apply andb_comm. Qed.
  Lemma tie_refl x : tie ltb x x = true.
  Proof. unfold tie. rewrite (swo_irrefl HO). reflexivity. Qed.
  Lemma tie_true x y : tie ltb x y = true <-> ltb x y = false /\ ltb y x = false.
  Proof. unfold tie. rewrite andb_true_iff, !negb_true_iff. reflexivity. Qed.

  Lemma sorted_nil : sorted ltb [].
  Proof. constructor. Qed.

  Lemma sorted_app_inv l1 l2 : sorted ltb (l1 ++ l2) ->
    sorted ltb l1 /\ sorted ltb l2 /\ (forall x y, In x l1 -> In y l2 -> ltb y x = false).
  Proof. intros H. apply ssorted_app_inv in H. exact H. Qed.

  Lemma sorted_app l1 l2 : sorted ltb l1 -> sorted ltb l2 ->
    (forall x y, In x l1 -> In y l2 -> ltb y x = false) -> sorted ltb (l1 ++ l2).
  Proof. intros. apply ssorted_app; assumption. Qed.

  Lemma sorted_cons_inv x l : sorted ltb (x :: l) ->
    sorted ltb l /\ forall y, In y l -> ltb y x = false.
  Proof. intros H. apply StronglySorted_inv in H as [H1 H2]. rewrite Forall_forall in H2. auto. Qed.

  Lemma sorted_filter f l : sorted ltb l -> sorted ltb (filter f l).
  Proof.
    induction l as [|x l IH]; intros H; [exact H|].
    apply sorted_cons_inv in H as [H1 H2]. cbn. destruct (f x); [|auto].
    constructor; [apply IH; exact H1|]. apply Forall_forall. intros y Hy.
    apply filter_In in Hy as [Hy _]. auto.
  Qed.

  (** Monotone predicates along a sorted list. *)
  Lemma sorted_mono p l : sorted ltb l ->
    (forall x y, ltb y x = false -> p x = true -> p y = true) -> MonoOn p l.
  Proof.
    intros HS Hp. induction HS as [|x l H IH HF]; constructor; [exact IH|].
    rewrite Forall_forall in *. intros y Hy. apply Hp. auto.
  Qed.
  Lemma sorted_mono_gt v l : sorted ltb l -> MonoOn (ltb v) l.
  Proof. intros H. apply sorted_mono; [exact H|]. intros x y H1 H2. eapply swo_lt_le; eauto. Qed.
  Lemma sorted_mono_ge v l : sorted ltb l -> MonoOn (fun y => negb (ltb y v)) l.
  Proof.
    intros H. apply sorted_mono; [exact H|]. intros x y H1 H2.
    apply negb_true_iff in H2. apply negb_true_iff. eapply swo_le_trans; eauto.
  Qed.

  Lemma mono_filter_app {B} (p : B -> bool) l : MonoOn p l ->
    filter (fun x => negb (p x)) l ++ filter p l = l.
  Proof.
    induction l as [|x l IH]; intros H; [reflexivity|].
    apply StronglySorted_inv in H as [H HF]. cbn [filter]. destruct (p x) eqn:E; cbn [negb].
    - rewrite Forall_forall in HF. rewrite filter_none, (filter_all p); [reflexivity| |].
      + intros y Hy. apply HF; auto.
      + intros y Hy. rewrite HF; auto.
    - cbn [app]. rewrite IH by exact H. reflexivity.
  Qed.

  (** ** [sp_add] *)
  Lemma sp_add_split v l1 l2 :
    (forall x, In x l1 -> ltb v x = false) -> (forall x, In x l2 -> ltb v x = true) ->
    sp_add ltb v (l1 ++ l2) = l1 ++ v :: l2.
  Proof.
    intros H1 H2. unfold sp_add. rewrite !filter_app.
    rewrite (filter_all _ l1) by (intros x Hx; rewrite H1; auto).
    rewrite (filter_none _ l2) by (intros x Hx; rewrite H2; auto).
    rewrite (filter_none _ l1) by (intros x Hx; rewrite H1; auto).
    rewrite (filter_all _ l2) by (intros x Hx; rewrite H2; auto).
    rewrite app_nil_r. reflexivity.
  Qed.

  Lemma sp_add_cases v l : sorted ltb l ->
    exists l1 l2, l = l1 ++ l2 /\ sp_add ltb v l = l1 ++ v :: l2 /\
      (forall x, In x l1 -> ltb v x = false) /\ (forall x, In x l2 -> ltb v x = true).
  Proof.
    intros H. exists (filter (fun y => negb (ltb v y)) l), (filter (fun y => ltb v y) l).
    split; [symmetry; apply mono_filter_app, sorted_mono_gt; exact H|].
    split; [reflexivity|]. split; intros x Hx; apply filter_In in Hx as [_ Hx]; [|exact Hx].
    apply negb_true_iff. exact Hx.
  Qed.

  Lemma sp_add_perm v l : sorted ltb l -> Permutation (sp_add ltb v l) (v :: l).
  Proof.
    intros H. destruct (sp_add_cases v l H) as (l1 & l2 & -> & -> & _).
    symmetry. apply Permutation_middle.
  Qed.

  Lemma sp_add_sorted v l : sorted ltb l -> sorted ltb (sp_add ltb v l).
  Proof.
    intros H. destruct (sp_add_cases v l H) as (l1 & l2 & -> & -> & H1 & H2).
    apply sorted_app_inv in H as (Hs1 & Hs2 & H12).
    apply sorted_app; [exact Hs1| |].
    - constructor; [exact Hs2|]. apply Forall_forall. intros x Hx. apply swo_asym. auto.
    - intros x y Hx [<-|Hy]; auto.
  Qed.

  Lemma sp_add_tie x v l : sorted ltb l ->
    filter (tie ltb x) (sp_add ltb v l) =
    filter (tie ltb x) l ++ (if tie ltb x v then [v] else []).
  Proof.
    intros H. destruct (sp_add_cases v l H) as (l1 & l2 & -> & -> & H1 & H2).
    rewrite !filter_app. cbn [filter]. destruct (tie ltb x v) eqn:E; [|rewrite app_nil_r; reflexivity].
    rewrite (filter_none _ l2), app_nil_r; [reflexivity|].
    intros y Hy. apply H2 in Hy. apply tie_true in E as [E1 E2].
    unfold tie. rewrite (swo_le_lt x v y); auto.
  Qed.

  (** ** [sp_sort] *)
  Lemma fold_add_spec it : forall l, sorted ltb l ->
    sorted ltb (fold_left (fun acc v => sp_add ltb v acc) it l) /\
    Permutation (fold_left (fun acc v => sp_add ltb v acc) it l) (l ++ it) /\
    forall x, filter (tie ltb x) (fold_left (fun acc v => sp_add ltb v acc) it l)
              = filter (tie ltb x) (l ++ it).
  Proof.
    induction it as [|v it IH]; intros l Hl; cbn [fold_left].
    - rewrite app_nil_r. auto.
    - destruct (IH (sp_add ltb v l) (sp_add_sorted v l Hl)) as (H1 & H2 & H3).
      split; [exact H1|]. split.
      + rewrite H2, (sp_add_perm v l Hl). cbn. apply Permutation_middle.
      + intros x. rewrite H3, !filter_app, sp_add_tie by exact Hl. cbn [filter].
        destruct (tie ltb x v); [rewrite <- app_assoc; reflexivity|rewrite app_nil_r; reflexivity].
  Qed.

  Lemma sp_sort_stable l : stable_sort_of ltb l (sp_sort ltb l).
  Proof. destruct (fold_add_spec l [] sorted_nil) as (H1 & H2 & H3). split; [exact H1|exact H3]. Qed.
  Lemma sp_sort_sorted l : sorted ltb (sp_sort ltb l).
  Proof. apply sp_sort_stable. Qed.
  Lemma sp_sort_perm l : Permutation (sp_sort ltb l) l.
  Proof. apply (fold_add_spec l [] sorted_nil). Qed.
  Lemma sp_sort_length l : length (sp_sort ltb l) = length l.
  Proof. apply Permutation_length, sp_sort_perm. Qed.

  (** The stable sort is unique. *)
  Lemma sorted_ties_unique l1 : forall l2, sorted ltb l1 -> sorted ltb l2 ->
    (forall x, filter (tie ltb x) l1 = filter (tie ltb x) l2) -> l1 = l2.
  Proof.
    induction l1 as [|a t1 IH]; intros [|b t2] H1 H2 HT; [reflexivity| | |].
    - specialize (HT b). cbn in HT. rewrite tie_refl in HT. discriminate.
    - specialize (HT a). cbn in HT. rewrite tie_refl in HT. discriminate.
    - apply sorted_cons_inv in H1 as [H1 Ha]. apply sorted_cons_inv in H2 as [H2 Hb].
      assert (Hba : ltb b a = false).
      { assert (Hin : In b (a :: t1)).
        { assert (H : In b (filter (tie ltb b) (b :: t2))).
          { apply filter_In. split; [left; reflexivity|apply tie_refl]. }
          rewrite <- HT in H. apply filter_In in H as [H _]. exact H. }
        destruct Hin as [->|Hin]; [apply (swo_irrefl HO)|auto]. }
      assert (Hab : ltb a b = false).
      { assert (Hin : In a (b :: t2)).
        { assert (H : In a (filter (tie ltb a) (a :: t1))).
          { apply filter_In. split; [left; reflexivity|apply tie_refl]. }
          rewrite HT in H. apply filter_In in H as [H _]. exact H. }
        destruct Hin as [->|Hin]; [apply (swo_irrefl HO)|auto]. }
      assert (E : a = b).
      { specialize (HT a). cbn in HT. rewrite tie_refl in HT.
        replace (tie ltb a b) with true in HT by (symmetry; apply tie_true; auto).
        injection HT as HT _. exact HT. }
      subst b. f_equal. apply IH; [exact H1|exact H2|].
      intros x. specialize (HT x). cbn in HT. destruct (tie ltb x a); [|exact HT].
      injection HT as HT. exact HT.
  Qed.

  Lemma stable_sort_unique l l1 l2 :
    stable_sort_of ltb l l1 -> stable_sort_of ltb l l2 -> l1 = l2.
  Proof.
    intros [H1 T1] [H2 T2]. apply sorted_ties_unique; [exact H1|exact H2|].
    intros x. rewrite T1, T2. reflexivity.
  Qed.

  Lemma stable_sort_is l l' : stable_sort_of ltb l l' -> l' = sp_sort ltb l.
  Proof. intros H. eapply stable_sort_unique; [exact H|apply sp_sort_stable]. Qed.

  Lemma sp_sort_ext l l' : (forall x, filter (tie ltb x) l = filter (tie ltb x) l') ->
    sp_sort ltb l = sp_sort ltb l'.
  Proof.
    intros H. apply stable_sort_is. split; [apply sp_sort_sorted|].
    intros x. rewrite (proj2 (sp_sort_stable l)). apply H.
  Qed.

  Lemma sp_sort_id l : sorted ltb l -> sp_sort ltb l = l.
  Proof. intros H. symmetry. apply stable_sort_is. split; [exact H|reflexivity]. Qed.

  Lemma sp_sort_app_r l it : sp_sort ltb (l ++ sp_sort ltb it) = sp_sort ltb (l ++ it).
  Proof.
    apply sp_sort_ext. intros x. rewrite !filter_app, (proj2 (sp_sort_stable it)). reflexivity.
  Qed.
  Lemma sp_sort_app_l l it : sp_sort ltb (sp_sort ltb l ++ it) = sp_sort ltb (l ++ it).
  Proof.
    apply sp_sort_ext. intros x. rewrite !filter_app, (proj2 (sp_sort_stable l)). reflexivity.
  Qed.

  Lemma fold_add_sort it l : sorted ltb l ->
    fold_left (fun acc v => sp_add ltb v acc) it l = sp_sort ltb (l ++ it).
  Proof.
    intros H. apply stable_sort_is. destruct (fold_add_spec it l H) as (H1 & _ & H3).
    split; [exact H1|exact H3].
  Qed.

  Lemma sp_sort_snoc l v : sp_sort ltb (l ++ [v]) = sp_add ltb v (sp_sort ltb l).
  Proof. unfold sp_sort. rewrite fold_left_app. reflexivity. Qed.

  (** ** Python's sort under a total comparison *)
  Lemma sort_ins_add x l : sorted ltb l -> sort_ins (total2 ltb) x l = Ok (sp_add ltb x l).
  Proof.
    unfold total2. induction l as [|y t IH]; intros H; [reflexivity|].
    apply sorted_cons_inv in H as [H HF]. cbn [sort_ins rbind]. destruct (ltb x y) eqn:E.
    - change (x :: y :: t) with ([] ++ x :: (y :: t)).
      rewrite <- (sp_add_split x [] (y :: t)); [reflexivity|intros z []|].
      intros z [<-|Hz]; [exact E|]. eapply swo_lt_le; [exact E|auto].
    - rewrite IH by exact H. cbn [rbind]. unfold sp_add. cbn [filter]. rewrite E. reflexivity.
  Qed.

  Lemma sort_acc_add l : forall acc, sorted ltb acc ->
    sort_acc (total2 ltb) acc l = Ok (fold_left (fun a v => sp_add ltb v a) l acc).
  Proof.
    induction l as [|x t IH]; intros acc H; cbn [sort_acc fold_left]; [reflexivity|].
    rewrite sort_ins_add by exact H. cbn [rbind]. apply IH, sp_add_sorted, H.
  Qed.

  Lemma py_sorted_sp l : py_sorted (total2 ltb) l = Ok (sp_sort ltb l).
  Proof. apply sort_acc_add, sorted_nil. Qed.

  (** ** Deletion keeps sortedness *)
  Lemma sorted_del a x b : sorted ltb (a ++ x :: b) -> sorted ltb (a ++ b).
  Proof.
    intros H. apply sorted_app_inv in H as (H1 & H2 & H3).
    apply sorted_cons_inv in H2 as [H2 _].
    apply sorted_app; [exact H1|exact H2|]. intros; apply H3; [assumption|right; assumption].
  Qed.
End Swo.

Lemma by_key_swo {V K} (key : V -> K) (kltb : K -> K -> bool) : SWO kltb -> SWO (by_key key kltb).
Proof.
  intros H. constructor; unfold by_key.
  - intros. apply (swo_irrefl H).
  - intros. eapply (swo_trans H); eauto.
  - intros. apply (swo_cotrans H). assumption.
Qed.

Lemma sorted_by_key {V K} (key : V -> K) (kltb : K -> K -> bool) l :
  sorted (by_key key kltb) l -> sorted kltb (map key l).
Proof.
  induction l as [|x l IH]; intros H; [constructor|].
  apply StronglySorted_inv in H as [H HF]. cbn. constructor; [apply IH; exact H|].
  rewrite Forall_forall in *. intros k Hk. apply in_map_iff in Hk as (y & <- & Hy).
  apply HF. exact Hy.
Qed.

Lemma by_key_id {V} (ltb : V -> V -> bool) : by_key (fun v => v) ltb = ltb.
Proof. reflexivity. Qed.

Lemma filter_map_comm {A B} (f : A -> B) (p : B -> bool) l :
  filter p (map f l) = map f (filter (fun x => p (f x)) l).
Proof. induction l as [|x l IH]; cbn; [reflexivity|]. rewrite IH. destruct (p (f x)); reflexivity. Qed.

(** * Facts about the model of Python's [set] *)
From Coq Require Import Permutation.
From Verif Require Import PyBase Model Spec History BaseFacts SpecFacts SliceFacts ListProps
  ListClass ClassSpec ModelSet SetSpec.
Local Unset Implicit Arguments.

Lemma filter_perm {A} (f : A -> bool) l l' : Permutation l l' -> Permutation (filter f l) (filter f l').
Proof.
  induction 1; cbn.
  - constructor.
  - destruct (f x); [constructor|]; assumption.
  - destruct (f x), (f y); try constructor; apply Permutation_refl.
  - etransitivity; eassumption.
Qed.

Section Hash.
  Context {V : Type}.
  Variable eqb : V -> V -> bool.
  Hypothesis HE : Equiv eqb.
  Notation mem := (member eqb).

  Lemma eqb_refl x : eqb x x = true. Proof. apply (eqv_refl HE). Qed.
  Lemma eqb_sym x y : eqb x y = eqb y x.
  Proof.
    destruct (eqb x y) eqn:E, (eqb y x) eqn:E'; try reflexivity.
    - apply (eqv_sym HE) in E. congruence.
    - apply (eqv_sym HE) in E'. congruence.
  Qed.
  Lemma eqb_l x y z : eqb x y = true -> eqb x z = eqb y z.
  Proof.
    intros H. destruct (eqb y z) eqn:E.
    - eapply (eqv_trans HE); eauto.
    - destruct (eqb x z) eqn:E'; [|reflexivity]. rewrite <- E. symmetry.
      eapply (eqv_trans HE); [|exact E']. apply (eqv_sym HE), H.
  Qed.
  Lemma eqb_r x y z : eqb x y = true -> eqb z x = eqb z y.
  Proof. intros H. rewrite (eqb_sym z x), (eqb_sym z y). apply eqb_l, H. Qed.

  Lemma set_mem_iff x l : set_mem eqb x l = true <-> mem x l.
  Proof. unfold set_mem, member. rewrite existsb_exists. reflexivity. Qed.
  Lemma set_mem_false x l : set_mem eqb x l = false <-> ~ mem x l.
  Proof. rewrite <- set_mem_iff. destruct (set_mem eqb x l); split; congruence. Qed.
  Lemma mem_dec x l : mem x l \/ ~ mem x l.
  Proof. destruct (set_mem eqb x l) eqn:E; [left; apply set_mem_iff, E|right; apply set_mem_false, E]. Qed.

  Lemma mem_nil x : ~ mem x [].
  Proof. intros (y & [] & _). Qed.
  Lemma mem_In x l : In x l -> mem x l.
  Proof. intros H. exists x. split; [exact H|apply eqb_refl]. Qed.
  Lemma mem_app x a b : mem x (a ++ b) <-> mem x a \/ mem x b.
  Proof.
    unfold member. split.
    - intros (y & H & E). apply in_app_iff in H as [H|H]; [left|right]; eauto.
    - intros [(y & H & E)|(y & H & E)]; exists y; rewrite in_app_iff; auto.
  Qed.
  Lemma mem_cons x y l : mem x (y :: l) <-> eqb y x = true \/ mem x l.
  Proof.
    unfold member. split.
    - intros (z & [->|H] & E); [left; exact E|right; eauto].
    - intros [E|(z & H & E)]; [exists y|exists z]; cbn; auto.
  Qed.
  Lemma mem_eqb x y l : eqb x y = true -> mem x l <-> mem y l.
  Proof.
    intros E. unfold member. split; intros (z & H & Ez); exists z; split; auto.
    - rewrite <- (eqb_r _ _ _ E). exact Ez.
    - rewrite (eqb_r _ _ _ E). exact Ez.
  Qed.
  Lemma mem_perm x l l' : Permutation l l' -> mem x l <-> mem x l'.
  Proof.
    intros HP. unfold member. split; intros (z & H & E); exists z; split; auto.
    - eapply Permutation_in; eauto.
    - eapply Permutation_in; [symmetry|]; eauto.
  Qed.
  Lemma mem_filter f x l : (forall y z, eqb y z = true -> f y = f z) ->
    mem x (filter f l) <-> mem x l /\ f x = true.
  Proof.
    intros Hf. unfold member. split.
    - intros (y & H & E). apply filter_In in H as [H F]. split; [eauto|].
      rewrite <- (Hf _ _ E). exact F.
    - intros [(y & H & E) F]. exists y. rewrite filter_In. split; [split|]; auto.
      rewrite (Hf _ _ E). exact F.
  Qed.
  Lemma set_mem_eqb l y z : eqb y z = true -> set_mem eqb y l = set_mem eqb z l.
  Proof.
    intros E. destruct (set_mem eqb z l) eqn:Ez.
    - apply set_mem_iff. apply set_mem_iff in Ez. apply (mem_eqb _ _ l E), Ez.
    - apply set_mem_false. apply set_mem_false in Ez. rewrite (mem_eqb _ _ l E). exact Ez.
  Qed.

  (** ** [distinct] *)
  Lemma distinct_app a b : distinct eqb (a ++ b) <->
    distinct eqb a /\ distinct eqb b /\ forall x y, In x a -> In y b -> eqb x y = false.
  Proof.
    induction a as [|x a IH]; cbn.
    - split; [intros H; repeat split; auto; intros ? ? []|tauto].
    - rewrite IH. split.
      + intros (H1 & H2 & H3 & H4). repeat split; auto.
        * intros y Hy. apply H1, in_app_iff; auto.
        * intros z y [<-|Hz] Hy; [apply H1, in_app_iff; auto|auto].
      + intros ((H1 & H2) & H3 & H4). repeat split; auto.
        intros y Hy. apply in_app_iff in Hy as [Hy|Hy]; auto.
  Qed.
  Lemma distinct_perm l l' : Permutation l l' -> distinct eqb l -> distinct eqb l'.
  Proof.
    induction 1; cbn; auto.
    - intros [H1 H2]. split; [|auto]. intros y Hy. apply H1.
      eapply Permutation_in; [symmetry|]; eauto.
    - intros (H1 & H2 & H3). repeat split; auto.
      intros z [<-|Hz]; [rewrite eqb_sym; apply H1; cbn; auto|auto].
  Qed.
  Lemma distinct_snoc l x : distinct eqb l -> ~ mem x l -> distinct eqb (l ++ [x]).
  Proof.
    intros H Hx. apply distinct_app. repeat split; cbn; auto.
    - intros y [].
    - intros y z Hy [<-|[]]. destruct (eqb y x) eqn:E; [|reflexivity].
      destruct Hx. exists y. auto.
  Qed.
  Lemma distinct_filter f l : distinct eqb l -> distinct eqb (filter f l).
  Proof.
    induction l as [|x l IH]; cbn; auto. intros [H1 H2]. destruct (f x); cbn; auto.
    split; auto. intros y Hy. apply filter_In in Hy as [Hy _]. auto.
  Qed.
  Lemma distinct_mid a x b y : distinct eqb (a ++ x :: b) -> eqb x y = true ->
    forall z, In z (a ++ b) -> eqb z y = false.
  Proof.
    intros HD E z Hz. apply distinct_app in HD as (_ & [Hb _] & H).
    rewrite <- (eqb_r _ _ z E). apply in_app_iff in Hz as [Hz|Hz].
    - apply H; cbn; auto.
    - rewrite eqb_sym. apply Hb, Hz.
  Qed.
  Lemma distinct_cut a x b : distinct eqb (a ++ x :: b) -> distinct eqb (a ++ b).
  Proof.
    intros H. apply (distinct_perm _ (x :: a ++ b)) in H; [apply H|].
    symmetry. apply Permutation_middle.
  Qed.

  (** ** add, union *)
  Lemma set_add_distinct v s : distinct eqb s -> distinct eqb (set_add eqb v s).
  Proof.
    intros H. unfold set_add. destruct (set_mem eqb v s) eqn:E; [exact H|].
    apply distinct_snoc; [exact H|apply set_mem_false, E].
  Qed.
  Lemma set_add_mem v s x : mem x (set_add eqb v s) <-> mem x s \/ eqb v x = true.
  Proof.
    unfold set_add. destruct (set_mem eqb v s) eqn:E.
    - split; [auto|]. intros [H|H]; [exact H|]. apply (mem_eqb _ _ s H), set_mem_iff, E.
    - rewrite mem_app, mem_cons. pose proof (mem_nil x). tauto.
  Qed.
  Lemma set_add_incl v s x : In x s -> In x (set_add eqb v s).
  Proof. unfold set_add. destruct set_mem; rewrite ?in_app_iff; auto. Qed.
  Lemma set_add_from v s x : In x (set_add eqb v s) -> In x s \/ x = v.
  Proof. unfold set_add. destruct set_mem; rewrite ?in_app_iff; cbn; intuition auto. Qed.

  Lemma set_union_spec l : forall s, distinct eqb s ->
    distinct eqb (set_union eqb s l) /\
    (forall x, mem x (set_union eqb s l) <-> mem x s \/ mem x l) /\
    (forall x, In x s -> In x (set_union eqb s l)) /\
    (forall x, In x (set_union eqb s l) -> In x s \/ In x l).
  Proof.
    unfold set_union. induction l as [|v l IH]; intros s HD; cbn.
    - repeat split; auto. intros [H|H]; [exact H|destruct (mem_nil _ H)].
    - destruct (IH (set_add eqb v s) (set_add_distinct v s HD)) as (H1 & H2 & H3 & H4).
      repeat split; auto.
      + rewrite H2, set_add_mem, mem_cons. tauto.
      + rewrite H2, set_add_mem, mem_cons. tauto.
      + intros x Hx. apply H3, set_add_incl, Hx.
      + intros x Hx. apply H4 in Hx as [Hx|Hx]; [|auto]. apply set_add_from in Hx as [Hx| ->]; auto.
  Qed.
  Lemma set_of_spec l : distinct eqb (set_of eqb l) /\ (forall x, mem x (set_of eqb l) <-> mem x l) /\
    (forall x, In x (set_of eqb l) -> In x l).
  Proof.
    destruct (set_union_spec l [] I) as (H1 & H2 & _ & H3). repeat split; auto.
    - intros H. apply H2 in H as [H|H]; [destruct (mem_nil _ H)|exact H].
    - intros H. apply H2. auto.
    - intros x H. apply H3 in H as [[]|H]. exact H.
  Qed.
  (** A list of distinct values is its own set. *)
  Lemma set_union_distinct l : forall s, distinct eqb (s ++ l) -> set_union eqb s l = s ++ l.
  Proof.
    unfold set_union. induction l as [|v l IH]; intros s H; cbn; [rewrite app_nil_r; reflexivity|].
    replace (s ++ v :: l) with ((s ++ [v]) ++ l) in * by (rewrite <- app_assoc; reflexivity).
    rewrite <- IH by exact H. f_equal. unfold set_add. replace (set_mem eqb v s) with false; [reflexivity|].
    symmetry. apply set_mem_false. intros (y & Hy & E). apply distinct_app in H as (H & _ & _).
    apply distinct_app in H as (_ & _ & H). rewrite (H y v) in E; cbn; auto. discriminate.
  Qed.
  Lemma set_of_distinct l : distinct eqb l -> set_of eqb l = l.
  Proof. intros H. apply (set_union_distinct l []), H. Qed.

  (** ** difference *)
  Lemma set_del_In v s x : In x (set_del eqb v s) <-> In x s /\ eqb x v = false.
  Proof. unfold set_del. rewrite filter_In. destruct (eqb x v); cbn; intuition congruence. Qed.
  Lemma set_del_mem v s x : mem x (set_del eqb v s) <-> mem x s /\ eqb x v = false.
  Proof.
    unfold set_del. rewrite mem_filter.
    - destruct (eqb x v); cbn; intuition congruence.
    - intros y z E. rewrite (eqb_l _ _ v E). reflexivity.
  Qed.
  Lemma set_del_distinct v s : distinct eqb s -> distinct eqb (set_del eqb v s).
  Proof. apply distinct_filter. Qed.
  Lemma set_del_absent v s : ~ mem v s -> set_del eqb v s = s.
  Proof.
    intros H. apply filter_all. intros x Hx. destruct (eqb x v) eqn:E; [|reflexivity].
    destruct H. exists x; auto.
  Qed.
  Lemma set_del_mid v a x b : distinct eqb (a ++ x :: b) -> eqb x v = true ->
    set_del eqb v (a ++ x :: b) = a ++ b.
  Proof.
    intros HD E. pose proof (distinct_mid a x b v HD E) as HM. unfold set_del.
    rewrite filter_app. cbn. rewrite E. cbn. rewrite <- filter_app.
    apply filter_all. intros z Hz. rewrite HM by exact Hz. reflexivity.
  Qed.
  Lemma set_del_perm v s s' : Permutation s s' -> Permutation (set_del eqb v s) (set_del eqb v s').
  Proof. apply filter_perm. Qed.

  Lemma set_diff_filter l : forall s,
    set_diff eqb s l = filter (fun y => negb (set_mem eqb y l)) s.
  Proof.
    unfold set_diff. induction l as [|v l IH]; intros s; cbn.
    - symmetry. apply filter_all. reflexivity.
    - rewrite IH. unfold set_del. induction s as [|x s IHs]; cbn; [reflexivity|].
      rewrite (eqb_sym v x). destruct (eqb x v); cbn; [apply IHs|].
      unfold set_mem at 1; destruct (existsb (fun y => eqb y x) l); cbn; [apply IHs|f_equal; apply IHs].
  Qed.
  Lemma set_diff_In l s x : In x (set_diff eqb s l) <-> In x s /\ ~ mem x l.
  Proof.
    rewrite set_diff_filter, filter_In, <- set_mem_iff. destruct (set_mem eqb x l); cbn; intuition congruence.
  Qed.
  Lemma set_diff_distinct l s : distinct eqb s -> distinct eqb (set_diff eqb s l).
  Proof. rewrite set_diff_filter. apply distinct_filter. Qed.
  Lemma set_diff_perm l s s' : Permutation s s' -> Permutation (set_diff eqb s l) (set_diff eqb s' l).
  Proof. rewrite !set_diff_filter. apply filter_perm. Qed.

  Lemma in_any_concat x its : mem x (concat (map (@items V) its)) <-> in_any eqb x its.
  Proof.
    unfold in_any. induction its as [|a its IH]; cbn.
    - split; [intros H; destruct (mem_nil _ H)|intros (a & [] & _)].
    - rewrite mem_app, IH. split.
      + intros [H|(b & H & Hb)]; [exists a|exists b]; auto.
      + intros (b & [<-|H] & Hb); [left; exact Hb|right; eauto].
  Qed.
  Lemma In_concat_items x (its : list (arg (V:=V))) : In x (concat (map (@items V) its)) <->
    exists a, In a its /\ In x (items a).
  Proof.
    induction its as [|a its IH]; cbn.
    - split; [intros []|intros (a & [] & _)].
    - rewrite in_app_iff, IH. split.
      + intros [H|(b & H & Hb)]; [exists a|exists b]; auto.
      + intros (b & [<-|H] & Hb); [left; exact Hb|right; eauto].
  Qed.

  Lemma fold_diff its : forall s,
    (forall x, In x (fold_left (fun s a => set_diff eqb s (items a)) its s) <-> In x s /\ ~ in_any eqb x its) /\
    (distinct eqb s -> distinct eqb (fold_left (fun s a => set_diff eqb s (items a)) its s)).
  Proof.
    induction its as [|a its IH]; intros s; cbn.
    - split; [|auto]. intros x. split; [|tauto]. intros H. split; [exact H|]. intros (b & [] & _).
    - destruct (IH (set_diff eqb s (items a))) as [H1 H2]. split.
      + intros x. rewrite H1, set_diff_In. unfold in_any. split.
        * intros [[H3 H4] H5]. split; [exact H3|]. intros (b & [<-|H] & Hb); eauto.
        * intros [H3 H4]. repeat split; auto.
          -- intros H. apply H4. exists a. cbn; auto.
          -- intros (b & H & Hb). apply H4. exists b. cbn; auto.
      + intros H. apply H2, set_diff_distinct, H.
  Qed.

  (** ** symmetric difference *)
  Lemma set_toggle_spec s v : distinct eqb s ->
    distinct eqb (set_toggle eqb s v) /\
    (forall x, mem x (set_toggle eqb s v) <->
       (mem x s /\ eqb v x = false) \/ (~ mem v s /\ eqb v x = true)  \/ (mem x s /\ ~ mem v s)) /\
    (forall x, In x (set_toggle eqb s v) -> In x s \/ x = v).
  Proof.
    intros HD. unfold set_toggle. destruct (set_mem eqb v s) eqn:E.
    - apply set_mem_iff in E. split; [apply set_del_distinct, HD|]. split.
      + intros x. rewrite set_del_mem, (eqb_sym x v). tauto.
      + intros x H. apply set_del_In in H. tauto.
    - apply set_mem_false in E. split; [apply distinct_snoc; auto|]. split.
      + intros x. rewrite mem_app, mem_cons. pose proof (mem_nil x).
        destruct (eqb v x) eqn:Ev; [|intuition congruence].
        split; [auto|]. tauto.
      + intros x H. apply in_app_iff in H as [H|[<-|[]]]; auto.
  Qed.
  Lemma fold_toggle t : distinct eqb t -> forall s, distinct eqb s ->
    distinct eqb (fold_left (set_toggle eqb) t s) /\
    (forall x, mem x (fold_left (set_toggle eqb) t s) <-> (mem x s /\ ~ mem x t) \/ (~ mem x s /\ mem x t)) /\
    (forall x, In x (fold_left (set_toggle eqb) t s) -> In x s \/ In x t).
  Proof.
    induction t as [|v t IH]; intros Ht s Hs; cbn.
    - split; [exact Hs|]. split; [|auto]. intros x. pose proof (mem_nil x). tauto.
    - destruct Ht as [Hv Ht]. destruct (set_toggle_spec s v Hs) as (H1 & H2 & H3).
      destruct (IH Ht _ H1) as (H4 & H5 & H6). split; [exact H4|]. split.
      + intros x. rewrite H5, !H2, mem_cons.
        assert (Hx : eqb v x = true -> ~ mem x t).
        { intros E (y & Hy & Ey). rewrite <- (eqb_r _ _ y E), eqb_sym, Hv in Ey; [discriminate|exact Hy]. }
        destruct (eqb v x) eqn:E.
        * specialize (Hx eq_refl). rewrite <- (mem_eqb _ _ s E).
          split; [|intuition congruence].
          intros [[[[? ?]|[[? _]|[? ?]]] _]|[_ ?]]; try congruence; try tauto.
        * destruct (mem_dec x s), (mem_dec x t), (mem_dec v s); intuition congruence.
      + intros x Hx. apply H6 in Hx as [Hx|Hx]; [|auto]. apply H3 in Hx as [Hx| ->]; auto.
  Qed.
  Lemma set_sym_spec s l : distinct eqb s ->
    distinct eqb (set_sym eqb s l) /\
    (forall x, mem x (set_sym eqb s l) <-> (mem x s /\ ~ mem x l) \/ (~ mem x s /\ mem x l)) /\
    (forall x, In x (set_sym eqb s l) -> In x s \/ In x l).
  Proof.
    intros Hs. destruct (set_of_spec l) as (H1 & H2 & H3).
    destruct (fold_toggle _ H1 s Hs) as (H4 & H5 & H6). split; [exact H4|]. split.
    - intros x. unfold set_sym. rewrite H5, H2. reflexivity.
    - intros x Hx. apply H6 in Hx as [Hx|Hx]; auto.
  Qed.
  Lemma set_sym_new_spec s l : distinct eqb s ->
    distinct eqb (set_sym_new eqb s l) /\
    (forall x, mem x (set_sym_new eqb s l) <-> (mem x s /\ ~ mem x l) \/ (~ mem x s /\ mem x l)) /\
    (forall x, In x (set_sym_new eqb s l) -> In x s \/ In x l).
  Proof.
    intros Hs. destruct (set_of_spec l) as (H1 & H2 & H3).
    destruct (fold_toggle _ Hs _ H1) as (H4 & H5 & H6). split; [exact H4|]. split.
    - intros x. unfold set_sym_new. rewrite H5, H2. tauto.
    - intros x Hx. apply H6 in Hx as [Hx|Hx]; auto.
  Qed.

  (** ** intersection *)
  Lemma keep_spec l other :
    distinct eqb (set_of eqb (filter (fun x => set_mem eqb x other) l)) /\
    (forall x, mem x (set_of eqb (filter (fun x => set_mem eqb x other) l)) <-> mem x l /\ mem x other) /\
    (forall x, In x (set_of eqb (filter (fun x => set_mem eqb x other) l)) -> In x l).
  Proof.
    destruct (set_of_spec (filter (fun x => set_mem eqb x other) l)) as (H1 & H2 & H3).
    split; [exact H1|]. split.
    - intros x. rewrite H2, mem_filter, set_mem_iff; [reflexivity|]. intros y z. apply set_mem_eqb.
    - intros x Hx. apply H3, filter_In in Hx. tauto.
  Qed.
  Lemma set_inter_spec s a :
    distinct eqb (set_inter eqb s a) /\
    (forall x, mem x (set_inter eqb s a) <-> mem x s /\ mem x (items a)) /\
    (forall x, In x (set_inter eqb s a) -> In x s \/ In x (items a)).
  Proof.
    destruct a as [l|l]; cbn [set_inter items]; cbv zeta; [|destruct (length s <? length l)];
      [destruct (keep_spec l s) as (H1 & H2 & H3)|destruct (keep_spec s l) as (H1 & H2 & H3)
      |destruct (keep_spec l s) as (H1 & H2 & H3)]; (split; [exact H1|]; split;
      [intros x; rewrite H2; tauto|intros x Hx; apply H3 in Hx; auto]).
  Qed.
  Lemma fold_inter its : forall s, distinct eqb s ->
    distinct eqb (fold_left (set_inter eqb) its s) /\
    (forall x, mem x (fold_left (set_inter eqb) its s) <-> mem x s /\ forall a, In a its -> mem x (items a)) /\
    (forall x, In x (fold_left (set_inter eqb) its s) -> In x s \/ exists a, In a its /\ In x (items a)).
  Proof.
    induction its as [|a its IH]; intros s Hs; cbn.
    - split; [exact Hs|]. split; [|auto]. intros x. split; [|tauto]. intros H. split; [exact H|intros ? []].
    - destruct (set_inter_spec s a) as (H1 & H2 & H3). destruct (IH _ H1) as (H4 & H5 & H6).
      split; [exact H4|]. split.
      + intros x. rewrite H5, H2. split.
        * intros [[? ?] ?]. split; [assumption|]. intros b [<-|Hb]; auto.
        * intros [? Ha]. repeat split; auto.
      + intros x Hx. apply H6 in Hx as [Hx|(b & ? & ?)]; [|right; exists b; auto].
        apply H3 in Hx as [Hx|Hx]; [auto|right; exists a; auto].
  Qed.

  (** ** comparisons *)
  Lemma forallb_subset s o : forallb (fun x => set_mem eqb x o) s = true <-> subset eqb s o.
  Proof.
    rewrite forallb_forall. split.
    - intros H x (y & Hy & E). apply H, set_mem_iff in Hy. apply (mem_eqb _ _ o E), Hy.
    - intros H x Hx. apply set_mem_iff, H, mem_In, Hx.
  Qed.
  Lemma pigeon s : distinct eqb s -> forall o, subset eqb s o -> length s <= length o.
  Proof.
    induction s as [|x s IH]; cbn; intros HD o HS; [lia|]. destruct HD as [Hx HD].
    destruct (HS x) as (y & Hy & E); [apply mem_cons; left; apply eqb_refl|].
    apply in_split in Hy as (a & b & ->). rewrite app_length. cbn.
    specialize (IH HD (a ++ b)). rewrite app_length in IH. enough (length s <= length a + length b) by lia.
    apply IH. intros z (w & Hw & Ew).
    assert (Hm : mem w (a ++ y :: b)) by (apply HS, mem_cons; right; apply mem_In, Hw).
    apply (mem_eqb _ _ _ Ew). rewrite mem_app, mem_cons in Hm. rewrite mem_app.
    destruct Hm as [Hm|[Hm|Hm]]; [auto| |auto].
    rewrite (eqb_l _ _ w E), Hx in Hm; [discriminate|exact Hw].
  Qed.
  Lemma pigeon_back s o : distinct eqb s -> subset eqb s o -> length o <= length s -> subset eqb o s.
  Proof.
    intros HD HS HL x Hx. destruct (mem_dec x s) as [H|H]; [exact H|exfalso].
    destruct Hx as (y & Hy & E). assert (Hys : ~ mem y s) by (rewrite (mem_eqb _ _ s E); exact H).
    apply in_split in Hy as (a & b & ->).
    enough (length s <= length (a ++ b)) by (rewrite app_length in *; cbn in *; lia).
    apply pigeon; [exact HD|]. intros z Hz. pose proof (HS z Hz) as Hm.
    rewrite mem_app, mem_cons in Hm. rewrite mem_app. destruct Hm as [Hm|[Hm|Hm]]; [auto| |auto].
    destruct Hys. apply (mem_eqb _ _ s Hm), Hz.
  Qed.
  Lemma set_le_spec s o : distinct eqb s -> set_le eqb s o = true <-> subset eqb s o.
  Proof.
    intros HD. unfold set_le. rewrite andb_true_iff, forallb_subset, Nat.leb_le. split; [tauto|].
    intros H. split; [|exact H]. apply pigeon; assumption.
  Qed.
  Lemma set_cmp_spec op s o : distinct eqb s -> distinct eqb o ->
    set_cmp eqb op s o = true <-> set_cmp_means eqb op s o.
  Proof.
    intros Hs Ho.
    assert (HEq : (length s =? length o) && set_le eqb s o = true <-> subset eqb s o /\ subset eqb o s).
    { rewrite andb_true_iff, Nat.eqb_eq, (set_le_spec s o Hs). split.
      - intros [HL H]. split; [exact H|]. apply pigeon_back; auto. lia.
      - intros [H1 H2]. split; [|exact H1]. apply Nat.le_antisymm; apply pigeon; assumption. }
    assert (HLt : forall s o, distinct eqb s -> distinct eqb o ->
              (length s <? length o) && set_le eqb s o = true <-> subset eqb s o /\ ~ subset eqb o s).
    { clear - HE. intros s o Hs Ho. rewrite andb_true_iff, Nat.ltb_lt, (set_le_spec s o Hs). split.
      - intros [HL H]. split; [exact H|]. intros H'. apply (pigeon _ Ho) in H'. lia.
      - intros [H1 H2]. split; [|exact H1]. destruct (Nat.lt_ge_cases (length s) (length o)); [assumption|].
        destruct H2. apply pigeon_back; auto. }
    destruct op; cbn [set_cmp set_cmp_means].
    - exact HEq.
    - rewrite negb_true_iff, <- HEq. destruct (_ && _); split; congruence.
    - apply HLt; assumption.
    - apply HLt; assumption.
    - apply set_le_spec; assumption.
    - apply set_le_spec; assumption.
  Qed.
  Lemma isdisjoint_spec s l : forallb (fun x => negb (set_mem eqb x s)) l = true <-> disjoint eqb s l.
  Proof.
    rewrite forallb_forall. unfold disjoint. split.
    - intros H x [Hs (y & Hy & E)]. apply H in Hy. apply negb_true_iff, set_mem_false in Hy.
      apply Hy. apply (mem_eqb _ _ s E), Hs.
    - intros H x Hx. apply negb_true_iff, set_mem_false. intros Hs. apply (H x). split; [exact Hs|apply mem_In, Hx].
  Qed.

  (** ** A set and the list of its members *)
  Lemma subset_perm a a' b b' : Permutation a a' -> Permutation b b' -> subset eqb a b <-> subset eqb a' b'.
  Proof.
    intros Ha Hb. unfold subset. split; intros H x Hx.
    - apply (mem_perm x _ _ Hb), H, (mem_perm x _ _ Ha), Hx.
    - apply (mem_perm x _ _ Hb), H, (mem_perm x _ _ Ha), Hx.
  Qed.

  (** Removing the values of a slice is removing its positions. *)
  Lemma distinct_nth l i j x y : distinct eqb l -> nth_error l i = Some x -> nth_error l j = Some y ->
    eqb x y = true -> i = j.
  Proof.
    intros HD Hi Hj E. destruct (Nat.lt_trichotomy i j) as [H|[H|H]]; [|exact H|]; exfalso.
    - apply nth_error_split in Hj as (a & b & -> & Ha). apply distinct_app in HD as (_ & _ & HD).
      rewrite nth_error_app1 in Hi by lia. apply nth_error_In in Hi. rewrite (HD x y) in E; cbn; auto. discriminate.
    - apply nth_error_split in Hi as (a & b & -> & Ha). apply distinct_app in HD as (_ & _ & HD).
      rewrite nth_error_app1 in Hj by lia. apply nth_error_In in Hj.
      rewrite eqb_sym, (HD y x) in E; cbn; auto. discriminate.
  Qed.
  Lemma getz_nth {A} (l : list A) i x : (0 <= i)%Z -> getz l i = Ok x -> nth_error l (Z.to_nat i) = Some x.
  Proof. intros Hi. rewrite getz_nonneg by exact Hi. unfold getn. destruct nth_error; congruence. Qed.
  Lemma slice_diff sl l vs : distinct eqb l -> sp_slice sl l = Ok vs ->
    exists l', sp_del_slice sl l = Ok l' /\ set_diff eqb l vs = l'.
  Proof.
    intros HD. unfold sp_slice, sp_del_slice.
    destruct (slice_indices sl (length l)) as [[[start stop] step]|e] eqn:ES; cbn; [|discriminate].
    intros HV. eexists. split; [reflexivity|]. rewrite set_diff_filter.
    set (idxs := rangez start stop step) in *.
    assert (HB : forall i, In i idxs -> (0 <= i < Z.of_nat (length l))%Z).
    { intros i Hi. apply slice_indices_Ok in ES as (H0 & H1 & H2).
      destruct (rangez_bound _ _ _ _ H0 Hi) as [H3 H4].
      destruct (Z.lt_trichotomy step 0) as [H|[H|H]]; [|contradiction|]; lia. }
    assert (HM : forall k x, nth_error l k = Some x ->
               set_mem eqb x vs = existsb (Z.eqb (Z.of_nat k)) idxs).
    { intros k x Hk. destruct (existsb (Z.eqb (Z.of_nat k)) idxs) eqn:E.
      - apply existsb_eqb_true in E. apply set_mem_iff. exists x. split; [|apply eqb_refl].
        destruct (mapR_all _ _ _ _ HV E) as [y Ey]. pose proof (getz_nth _ _ _ (Nat2Z.is_nonneg k) Ey) as Hy.
        rewrite Nat2Z.id, Hk in Hy. injection Hy as ->.
        clear - HV E Ey. revert vs HV. induction idxs as [|i t IH]; [destruct E|].
        intros vs HV. apply mapR_cons_inv in HV as (z & r & -> & Ez & Er).
        destruct E as [->|E]; [left; congruence|right; apply IH; assumption].
      - apply set_mem_false. intros (y & Hy & Ey). apply existsb_eqb_false in E. apply E.
        destruct (mapR_In _ _ _ _ HV Hy) as (i & Hi & Ei). pose proof (HB i Hi).
        assert (Hi0 : (0 <= i)%Z) by lia. pose proof (getz_nth _ _ _ Hi0 Ei) as Hn.
        rewrite <- (distinct_nth _ _ _ _ _ HD Hn Hk Ey). rewrite Z2Nat.id by lia. exact Hi. }
    assert (HG : forall pre suf, l = pre ++ suf ->
      filter (fun y => negb (set_mem eqb y vs)) suf = drop_positions idxs (Z.of_nat (length pre)) suf).
    { intros pre suf. revert pre. induction suf as [|x suf IH]; intros pre El; cbn; [reflexivity|].
      assert (Hx : nth_error l (length pre) = Some x).
      { rewrite El, nth_error_app2, Nat.sub_diag by lia. reflexivity. }
      rewrite (HM _ _ Hx). specialize (IH (pre ++ [x])). rewrite <- app_assoc in IH. specialize (IH El).
      rewrite app_length in IH. cbn in IH. replace (Z.of_nat (length pre) + 1)%Z with (Z.of_nat (length pre + 1)) by lia.
      rewrite IH. destruct (existsb _ idxs); reflexivity. }
    apply (HG [] l eq_refl).
  Qed.
End Hash.

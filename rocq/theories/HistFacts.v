(** * Every history of operations agrees with the reference list

    One step at a time (every public operation on a state satisfying the
    invariant), then all histories by induction. *)
From Verif Require Import PyBase Model Spec History BaseFacts SpecFacts SliceFacts IndexFacts
  Shape CoreFacts VtFacts KeyFacts KeyLook ListSim ListFacts.
From Coq Require Import Sorting.Permutation Sorting.Sorted.
Local Unset Implicit Arguments.

(** ** The reference list stays sorted *)
Section RefSorted.
  Context {V : Type}.
  Variables ltb eqb vltb : V -> V -> bool.
  Hypothesis HO : SWO ltb.

  Lemma drop_sorted idxs l : sorted ltb l -> forall k, sorted ltb (drop_positions idxs k l).
  Proof.
    assert (HI : forall (l : list V) k x, In x (drop_positions idxs k l) -> In x l).
    { clear. induction l as [|a t IH]; intros k x; simpl; [easy|].
      destruct (existsb (Z.eqb k) idxs); simpl; intros H; [eauto|].
      destruct H as [->|H]; eauto. }
    induction l as [|a t IH]; intros Hs k; [apply sorted_nil|].
    destruct (sorted_cons_inv _ _ _ Hs) as [Ht Ha]. simpl.
    destruct (existsb (Z.eqb k) idxs); [auto|].
    constructor; [apply IH; exact Ht|]. apply Forall_forall. intros y Hy. apply Ha. eauto.
  Qed.

  Lemma sp_del_sorted i l l' : sorted ltb l -> sp_del i l = Ok l' -> sorted ltb l'.
  Proof.
    intros Hs H. unfold sp_del in H.
    destruct (((if (i <? 0)%Z then (i + Z.of_nat (length l))%Z else i) <? 0)%Z); [discriminate|].
    set (n := Z.to_nat _) in H. clearbody n. unfold deln in H.
    destruct (Nat.ltb_spec n (length l)) as [Hl|Hl]; [|discriminate].
    destruct (split_at l n Hl) as (a & x & b & E & Ea). subst n. rewrite E in H.
    rewrite firstn_app_len, skipn_S_app_len in H.
    assert (E2 : a ++ b = l') by congruence. rewrite <- E2, E in *. eapply sorted_del; eauto.
  Qed.

  Lemma sp_discard_sorted v l : sorted ltb l -> sorted ltb (sp_discard eqb v l).
  Proof.
    assert (HI : forall (l : list V) x, In x (sp_discard eqb v l) -> In x l).
    { clear. induction l as [|a t IH]; intros x; simpl; [easy|].
      destruct (eqb a v); simpl; intros H; [auto|]. destruct H as [->|H]; eauto. }
    induction l as [|a t IH]; intros Hs; [apply sorted_nil|].
    destruct (sorted_cons_inv _ _ _ Hs) as [Ht Ha]. simpl.
    destruct (eqb a v); [exact Ht|]. constructor; [exact (IH Ht)|].
    apply Forall_forall. intros y Hy. apply Ha. eauto.
  Qed.

  Lemma sp_step_sorted o l : sorted ltb l -> sorted ltb (snd (sp_step ltb eqb vltb o l)).
  Proof.
    intros Hs. destruct o; simpl; auto;
      try solve [apply sp_add_sorted; auto | apply sp_sort_sorted; auto | apply sorted_nil
                | apply sp_discard_sorted; auto].
    - unfold sp_remove. destruct (sp_contains eqb v l); simpl; [apply sp_discard_sorted|]; auto.
    - destruct (sp_del i l) eqn:E; simpl; [eapply sp_del_sorted|]; eauto.
    - unfold sp_del_slice. destruct (slice_indices sl (length l)) as [[[a b] c]|]; simpl; auto.
      apply drop_sorted; auto.
    - destruct (getz l i); simpl; auto. destruct (sp_del i l) eqn:E; simpl; auto.
      eapply sp_del_sorted; eauto.
  Qed.

  Lemma sp_run_sorted ops : forall l, sorted ltb l -> sorted ltb (snd (sp_run ltb eqb vltb ops l)).
  Proof.
    induction ops as [|o ops IH]; intros l Hs; [exact Hs|].
    unfold sp_run. cbn [run]. pose proof (sp_step_sorted o l Hs) as H.
    destruct (sp_step ltb eqb vltb o l) as [r l1]. cbn [snd] in H.
    specialize (IH l1 H). unfold sp_run in IH.
    destruct (run (sp_step ltb eqb vltb) ops l1) as [rs l2]. exact IH.
  Qed.
End RefSorted.

(** ** Comparisons of whole sequences *)
Section CompareFacts.
  Context {V K : Type}.
  Variables vltb eqb : V -> V -> bool.
  Notation lt := (total2 vltb).
  Notation eq := (total2 eqb).

  Lemma sp_eq_length l : forall o, length l <> length o -> sp_eq eqb l o = false.
  Proof.
    induction l as [|a l IH]; intros [|b o] H; simpl in *; try reflexivity; try (now contradict H).
    rewrite IH by lia. apply andb_false_r.
  Qed.

  Lemma cmp_loop_eq n l : forall o, length l = length o -> cmp_loop lt eq Ceq n n l o = Ok (sp_eq eqb l o).
  Proof.
    induction l as [|a l IH]; intros [|b o] H; simpl in *; try discriminate.
    - rewrite Nat.eqb_refl. reflexivity.
    - destruct (eqb a b) eqn:E; simpl; [apply IH; lia | unfold total2; rewrite E; reflexivity].
  Qed.
  Lemma cmp_loop_ne n l : forall o, length l = length o -> cmp_loop lt eq Cne n n l o = Ok (negb (sp_eq eqb l o)).
  Proof.
    induction l as [|a l IH]; intros [|b o] H; simpl in *; try discriminate.
    - rewrite Nat.eqb_refl. reflexivity.
    - destruct (eqb a b) eqn:E; simpl; [apply IH; lia | reflexivity].
  Qed.

  Lemma cmp_loop_lex op l : TotalOrder vltb eqb -> op <> Ceq -> op <> Cne -> forall o d1 d2,
    cmp_loop lt eq op (d1 + length l) (d2 + length o) l o =
    (if d1 =? d2 then Ok (sp_compare eqb vltb op l o) else cmp_loop lt eq op (d1 + length l) (d2 + length o) l o).
  Proof.
    intros HT H1 H2. induction l as [|a l IH]; intros o d1 d2; destruct (Nat.eqb_spec d1 d2) as [<-|]; auto.
    - destruct o as [|b o]; simpl.
      + destruct op; simpl; try congruence;
          try (rewrite Nat.ltb_irrefl); try (rewrite Nat.leb_refl); reflexivity.
      + destruct op; simpl; try congruence; f_equal;
          first [apply Nat.ltb_lt | apply Nat.leb_le | apply Nat.ltb_ge | apply Nat.leb_gt]; lia.
    - destruct o as [|b o].
      + cbn [cmp_loop]. destruct op; simpl; try congruence; f_equal;
          first [apply Nat.ltb_lt; lia | apply Nat.leb_le; lia | apply Nat.ltb_ge; lia | apply Nat.leb_gt; lia].
      + cbn [cmp_loop]. unfold total2 at 1. cbn [rbind].
        pose proof (to_eq HT a b) as E.
        destruct (vltb a b) eqn:L1; [|destruct (vltb b a) eqn:L2]; simpl in E; rewrite E.
        * destruct op; try congruence; simpl; unfold total2; simpl; rewrite ?L1, ?(swo_asym _ (to_swo HT) _ _ L1); simpl; reflexivity.
        * destruct op; try congruence; simpl; unfold total2; simpl; rewrite ?L1, ?L2; simpl; reflexivity.
        * specialize (IH o (S d1) (S d1)). rewrite Nat.eqb_refl in IH.
          replace (d1 + length (a :: l)) with (S d1 + length l) by (simpl; lia).
          replace (d1 + length (b :: o)) with (S d1 + length o) by (simpl; lia).
          rewrite IH. destruct op; try congruence; simpl; rewrite L1, L2; reflexivity.
  Qed.

  (** The order of values matters for [<], [>], [<=], [>=] only. *)
  Definition orders (op : cmpop) : bool := match op with Ceq | Cne => false | _ => true end.

  Lemma compare_ok op other (c : core V K) : len c = length (contents c) ->
    (orders op = true -> TotalOrder vltb eqb) ->
    compare lt eq op other c = (Ok (sp_compare eqb vltb op (contents c) other), c).
  Proof.
    intros Hl HT. unfold compare. rewrite bind_get. cbv zeta. rewrite Hl.
    destruct (Nat.eqb_spec (length (contents c)) (length other)) as [E|E]; cbn [negb andb].
    - unfold liftr. f_equal. destruct op; cbn [orders] in HT.
      + rewrite <- E. apply cmp_loop_eq; exact E.
      + rewrite <- E. apply cmp_loop_ne; exact E.
      + exact (cmp_loop_lex Clt (contents c) (HT eq_refl) ltac:(discriminate) ltac:(discriminate) other 0 0).
      + exact (cmp_loop_lex Cgt (contents c) (HT eq_refl) ltac:(discriminate) ltac:(discriminate) other 0 0).
      + exact (cmp_loop_lex Cle (contents c) (HT eq_refl) ltac:(discriminate) ltac:(discriminate) other 0 0).
      + exact (cmp_loop_lex Cge (contents c) (HT eq_refl) ltac:(discriminate) ltac:(discriminate) other 0 0).
    - destruct op; cbn [orders] in HT.
      + unfold ret. simpl. rewrite sp_eq_length by exact E. reflexivity.
      + unfold ret. simpl. rewrite sp_eq_length by exact E. reflexivity.
      + unfold liftr. f_equal. exact (cmp_loop_lex Clt (contents c) (HT eq_refl) ltac:(discriminate) ltac:(discriminate) other 0 0).
      + unfold liftr. f_equal. exact (cmp_loop_lex Cgt (contents c) (HT eq_refl) ltac:(discriminate) ltac:(discriminate) other 0 0).
      + unfold liftr. f_equal. exact (cmp_loop_lex Cle (contents c) (HT eq_refl) ltac:(discriminate) ltac:(discriminate) other 0 0).
      + unfold liftr. f_equal. exact (cmp_loop_lex Cge (contents c) (HT eq_refl) ltac:(discriminate) ltac:(discriminate) other 0 0).
  Qed.
End CompareFacts.

(** Load factor after an operation. *)
Definition load_after {V} (dflt : nat) (o : lop V) (ld : nat) : nat :=
  match o with
  | LReset n => n
  | LCopy | LPlus _ | LMul _ | LReduce => dflt
  | _ => ld
  end.

(** ** SortedList *)
Section ListHist.
  Context {V : Type}.
  Variables ltb eqb : V -> V -> bool.
  Hypothesis HT : TotalOrder ltb eqb.
  Variable dflt : nat.
  Hypothesis Hd : 1 <= dflt.
  Notation lt := (total2 ltb).
  Notation eq := (total2 eqb).
  Notation SL := (core V V).
  Notation HO := (to_swo HT).
  Notation ref := (sp_step ltb eqb ltb).
  Notation step := (sl_step lt eq dflt).

  Lemma obs_ok {A} (inj : A -> out V) (m : M SL A) c a c' :
    m c = (Ok a, c') -> observe inj m c = (inj a, c').
  Proof. intros H. unfold observe. rewrite H. reflexivity. Qed.
  Lemma obs_err {A} (inj : A -> out V) (m : M SL A) c e c' :
    m c = (Err e, c') -> observe inj m c = (RExn e, c').
  Proof. intros H. unfold observe. rewrite H. reflexivity. Qed.
  Lemma obs_res {A} (inj : A -> out V) (m : M SL A) c r c' :
    m c = (r, c') -> observe inj m c = (of_res inj r, c').
  Proof. intros H. unfold observe, of_res. rewrite H. destruct r; reflexivity. Qed.

  Lemma new_step (m : M SL SL) l c : LShape c -> m c = liftr (sl_new lt dflt l) c ->
    exists c', @rebind SL V m c = (RUnit, c') /\ LShape c' /\ contents c' = sp_sort ltb l /\ load c' = dflt.
  Proof.
    intros Hs E. destruct (sl_new_ok ltb HO dflt l Hd) as (c' & E1 & H1 & H2 & H3).
    exists c'. unfold rebind. rewrite E. unfold liftr. rewrite E1. auto.
  Qed.

  Lemma sl_step_ok o (c : SL) : LShape c -> sorted ltb (contents c) -> lop_ok o ->
    exists c', step o c = (fst (ref o (contents c)), c') /\ LShape c' /\
      contents c' = snd (ref o (contents c)) /\ load c' = load_after dflt o (load c).
  Proof.
    intros Hs Ho Hok. pose proof (lshape_core c Hs) as HC.
    assert (Q : forall A (inj : A -> out V) (m : M SL A) r c', m c = (r, c') -> touch c c' ->
              exists c'', observe inj m c = (of_res inj r, c'') /\ LShape c'' /\ contents c'' = contents c /\
                          load c'' = load c).
    { intros A inj m r c' E1 E2. exists c'. repeat split.
      - apply obs_res. exact E1.
      - eapply lshape_touch; eauto.
      - apply touch_contents; auto.
      - apply touch_load; auto. }
    pose proof (touch_refl c HC) as HR.
    destruct o; cbn [sl_step sp_step fst snd load_after] in *.
    - destruct (sl_add_ok ltb HO v c Hs Ho) as (c' & E & H). exists c'. split; [exact (obs_ok _ _ _ _ _ E)|tauto].
    - destruct (sl_update_ok ltb HO it c Hs Ho) as (c' & E & H). exists c'. split; [exact (obs_ok _ _ _ _ _ E)|tauto].
    - eexists. split; [reflexivity|]. repeat split. apply lshape_empty. apply lshape_load; exact Hs.
    - destruct (sl_discard_ok ltb eqb HT v c Hs Ho) as (c' & E & H). exists c'. split; [exact (obs_ok _ _ _ _ _ E)|tauto].
    - destruct (sl_remove_ok ltb eqb HT v c Hs Ho) as (c' & E & H). exists c'.
      split; [rewrite (obs_res _ _ _ _ _ E); reflexivity|tauto].
    - exact (Q _ _ _ _ _ (sl_contains_ok ltb eqb HT v c Hs Ho) HR).
    - destruct (getitem_int_ok c i HC) as (c' & E & H). exact (Q _ _ _ _ _ E H).
    - destruct (getitem_slice_ok c sl HC) as (c' & E & H). exact (Q _ _ _ _ _ E H).
    - destruct (delitem_int_ok _ _ (sl_vt_ok lt) c i Hs) as [(c' & l' & E & E1 & H1 & H2 & H3)|[E E1]];
        change (vcont (sl_vt lt) c) with (contents c) in E1; rewrite E1; cbn [fst snd].
      + exists c'. split; [exact (obs_ok _ _ _ _ _ E)|auto].
      + exists c. split; [exact (obs_err _ _ _ _ _ E)|auto].
    - destruct (delitem_slice_ok _ _ (sl_vt_ok lt) ltb HO (sl_update_vt ltb HO) c sl Hs Ho) as [(c' & l' & E & E1 & H1 & H2 & H3)|[E E1]];
        change (vcont (sl_vt lt) c) with (contents c) in E1; rewrite E1; cbn [fst snd].
      + exists c'. split; [exact (obs_ok _ _ _ _ _ E)|auto].
      + exists c. split; [exact (obs_err _ _ _ _ _ E)|auto].
    - destruct (pop_ok _ _ (sl_vt_ok lt) c i Hs) as [(c' & v & l' & E & E1 & E2 & H1 & H2 & H3)|[E E1]];
        change (vcont (sl_vt lt) c) with (contents c) in *; rewrite E1; cbn [fst snd].
      + rewrite E2. exists c'. split; [exact (obs_ok _ _ _ _ _ E)|auto].
      + exists c. split; [exact (obs_err _ _ _ _ _ E)|auto].
    - pose proof (Q _ (@RNat V) length_of _ _ eq_refl HR) as H. simpl in H. rewrite (co_len _ HC) in H. exact H.
    - exact (Q _ (@RList V) iter _ _ eq_refl HR).
    - exact (Q _ (@RList V) reversed _ _ (reversed_ok c) HR).
    - destruct (sl_bisect_left_ok ltb HO v c Hs Ho) as (c' & E & H). exact (Q _ _ _ _ _ E H).
    - destruct (sl_bisect_right_ok ltb HO v c Hs Ho) as (c' & E & H). exact (Q _ _ _ _ _ E H).
    - destruct (sl_count_ok ltb eqb HT v c Hs Ho) as (c' & E & H). exact (Q _ _ _ _ _ E H).
    - destruct (sl_index_ok ltb eqb HT v start stop c Hs Ho) as (c' & E & H). exact (Q _ _ _ _ _ E H).
    - exact (Q _ _ _ _ _ (sl_irange_ok ltb HO mn mx imin imax reverse c Hs Ho) HR).
    - destruct (islice_ok c start stop reverse HC) as (r & c' & E & H & E1). rewrite E1.
      exact (Q _ _ _ _ _ E H).
    - destruct (reset_ok _ _ (sl_vt_ok lt) ltb HO (sl_update_vt ltb HO) ld c Hs Ho Hok) as (c' & E & H).
      exists c'. split; [exact (obs_ok _ _ _ _ _ E)|tauto].
    - destruct (sl_update_ok ltb HO it c Hs Ho) as (c' & E & H). exists c'. split; [exact (obs_ok _ _ _ _ _ E)|tauto].
    - destruct (imul_ok _ _ (sl_vt_ok lt) ltb (sl_update_vt ltb HO) n c Hs) as (c' & E & H).
      exists c'. split; [exact (obs_ok _ _ _ _ _ E)|tauto].
    - destruct (new_step (sl_copy lt dflt) (contents c) c Hs eq_refl) as (c' & E & H1 & H2 & H3).
      exists c'. split; [exact E|]. rewrite sp_sort_id in H2 by (auto using HO). auto.
    - exact (new_step (sl_plus lt dflt it) (contents c ++ it) c Hs eq_refl).
    - exact (new_step (sl_mul lt dflt n) (list_mul (contents c) n) c Hs eq_refl).
    - destruct (new_step (sl_reduce lt dflt) (contents c) c Hs eq_refl) as (c' & E & H1 & H2 & H3).
      exists c'. split; [exact E|]. rewrite sp_sort_id in H2 by (auto using HO). auto.
    - exact (Q _ (@RBool V) _ _ _ (compare_ok ltb eqb op other c (co_len _ HC) (fun _ => HT)) HR).
    - exists c. repeat split; auto.
  Qed.

  Definition LInv (c : SL) : Prop := LShape c /\ sorted ltb (contents c).

  Lemma sl_init_inv : LInv (sl_init dflt).
  Proof. split; [apply lshape_empty; exact Hd | apply sorted_nil]. Qed.

  Lemma sl_step_inv o c : LInv c -> lop_ok o ->
    exists c', step o c = (fst (ref o (contents c)), c') /\ LInv c' /\
      contents c' = snd (ref o (contents c)) /\ load c' = load_after dflt o (load c).
  Proof.
    intros [Hs Ho] Hok. destruct (sl_step_ok o c Hs Ho Hok) as (c' & E & H1 & H2 & H3).
    exists c'. split; [exact E|]. repeat split; auto. rewrite H2. apply sp_step_sorted; auto using HO.
  Qed.

  Lemma sl_run_ok ops : forall c, LInv c -> Forall lop_ok ops ->
    exists c', sl_run lt eq dflt ops c = (fst (sp_run ltb eqb ltb ops (contents c)), c') /\ LInv c' /\
      contents c' = snd (sp_run ltb eqb ltb ops (contents c)) /\
      load c' = fold_left (fun ld o => load_after dflt o ld) ops (load c).
  Proof.
    induction ops as [|o ops IH]; intros c HI Hok.
    - exists c. repeat split; auto; apply HI.
    - inversion Hok as [|? ? Ho Hos]; subst.
      destruct (sl_step_inv o c HI Ho) as (c1 & E1 & HI1 & Ec & El).
      destruct (IH c1 HI1 Hos) as (c2 & E2 & HI2 & Ec2 & El2).
      exists c2. unfold sl_run, sp_run in *. cbn [run fold_left]. rewrite E1.
      destruct (ref o (contents c)) as [r l1]. cbn [fst snd] in *. subst l1.
      rewrite E2. rewrite <- El.
      destruct (run (sp_step ltb eqb ltb) ops (contents c1)) as [rs l2]. cbn [fst snd] in *.
      auto.
  Qed.
End ListHist.

(** ** SortedKeyList *)
Section KeyHist.
  Context {V K : Type}.
  Variable key : V -> K.
  Variables kltb keqb : K -> K -> bool.
  Variables vltb eqb : V -> V -> bool.
  Hypothesis HKT : TotalOrder kltb keqb.
  Hypothesis HE : EqCompat (by_key key kltb) eqb.
  Variable dflt : nat.
  Hypothesis Hd : 1 <= dflt.
  Notation klt := (total2 kltb).
  Notation keq := (total2 keqb).
  Notation vlt := (total2 vltb).
  Notation eq := (total2 eqb).
  Notation kf := (total1 key).
  Notation ltb := (by_key key kltb).
  Notation SKL := (skl V K).
  Notation HK := (to_swo HKT).
  Notation ref := (sp_step ltb eqb vltb).
  Notation kref := (sp_kstep eqb vltb key kltb).
  Notation T := (skl_vt klt kf).
  Notation Shape := (Shape kf).

  (** Ordering comparisons of whole lists need a total order on the values;
      nothing else does. *)
  Definition cmp_ok (o : lop V) : Prop :=
    match o with LCompare op _ => orders op = true -> TotalOrder vltb eqb | _ => True end.
  Definition kcmp_ok (o : kop V K) : Prop :=
    match o with KList o => cmp_ok o | _ => True end.

  Lemma kobs_ok {A} (inj : A -> out V) (m : M SKL A) c a c' :
    m c = (Ok a, c') -> observe inj m c = (inj a, c').
  Proof. intros H. unfold observe. rewrite H. reflexivity. Qed.
  Lemma kobs_err {A} (inj : A -> out V) (m : M SKL A) c e c' :
    m c = (Err e, c') -> observe inj m c = (RExn e, c').
  Proof. intros H. unfold observe. rewrite H. reflexivity. Qed.
  Lemma kobs_res {A} (inj : A -> out V) (m : M SKL A) c r c' :
    m c = (r, c') -> observe inj m c = (of_res inj r, c').
  Proof. intros H. unfold observe, of_res. rewrite H. destruct r; reflexivity. Qed.

  Lemma knew_step (m : M SKL SKL) l s : m s = liftr (skl_new klt kf dflt l) s ->
    exists s', @rebind SKL V m s = (RUnit, s') /\ Shape s' /\ contents (kc s') = sp_sort ltb l /\ load (kc s') = dflt.
  Proof.
    intros E. destruct (skl_new_ok key kltb HK dflt l Hd) as (c' & E1 & H1 & H2 & H3).
    exists c'. unfold rebind. rewrite E. unfold liftr. rewrite E1. auto.
  Qed.

  Lemma quiet_step {A} (inj : A -> out V) (m : M SKL A) s r s' : Shape s -> m s = (r, s') -> ktouch s s' ->
    exists s'', observe inj m s = (of_res inj r, s'') /\ Shape s'' /\ contents (kc s'') = contents (kc s) /\
                load (kc s'') = load (kc s).
  Proof.
    intros Hs E1 E2. exists s'. repeat split.
    - apply kobs_res. exact E1.
    - eapply ktouch_shape; eauto.
    - apply ktouch_contents; auto.
    - apply ktouch_load; auto.
  Qed.

  Lemma core_step {A} (inj : A -> out V) (m : M (core V K) A) s r c' : Shape s -> m (kc s) = (r, c') -> touch (kc s) c' ->
    exists s'', observe inj (oncore T m) s = (of_res inj r, s'') /\ Shape s'' /\ contents (kc s'') = contents (kc s) /\
                load (kc s'') = load (kc s).
  Proof.
    intros Hs E1 E2. destruct (oncore_ktouch klt kf m s r c' E1 E2) as (s' & E & H).
    eapply quiet_step; eauto.
  Qed.

  Lemma skl_lstep_ok o (s : SKL) : Shape s -> sorted ltb (contents (kc s)) -> lop_ok o -> cmp_ok o ->
    exists s', skl_lstep vlt eq klt keq kf dflt o s = (fst (ref o (contents (kc s))), s') /\ Shape s' /\
      contents (kc s') = snd (ref o (contents (kc s))) /\ load (kc s') = load_after dflt o (load (kc s)).
  Proof.
    intros Hs Ho Hok Hcmp. pose proof (shape_core _ s Hs) as HC.
    pose proof (ktouch_refl kf s Hs) as HR. pose proof (touch_refl _ HC) as HRc.
    pose proof (HOk key kltb HK) as HO.
    destruct o; cbn [skl_lstep sp_step fst snd load_after] in *.
    - destruct (skl_add_ok key kltb HK v s Hs Ho) as (c' & E & H). exists c'. split; [exact (kobs_ok _ _ _ _ _ E)|tauto].
    - destruct (skl_update_ok key kltb HK it s Hs Ho) as (c' & E & H). exists c'. split; [exact (kobs_ok _ _ _ _ _ E)|tauto].
    - eexists. split; [reflexivity|]. repeat split. apply shape_empty. destruct Hs as (rows & H & _). exact (sh_load _ _ _ H).
    - destruct (skl_discard_ok key kltb keqb eqb HKT HE v s Hs Ho) as (c' & E & H). exists c'. split; [exact (kobs_ok _ _ _ _ _ E)|tauto].
    - destruct (skl_remove_ok key kltb keqb eqb HKT HE v s Hs Ho) as (c' & E & H). exists c'.
      split; [rewrite (kobs_res _ _ _ _ _ E); reflexivity|tauto].
    - exact (quiet_step _ _ _ _ _ Hs (skl_contains_ok key kltb keqb eqb HKT HE v s Hs Ho) HR).
    - destruct (getitem_int_ok (kc s) i HC) as (c' & E & H). exact (core_step _ _ _ _ _ Hs E H).
    - destruct (getitem_slice_ok (kc s) sl HC) as (c' & E & H). exact (core_step _ _ _ _ _ Hs E H).
    - destruct (delitem_int_ok _ _ (skl_vt_ok klt kf) s i Hs) as [(c' & l' & E & E1 & H1 & H2 & H3)|[E E1]];
        change (vcont T s) with (contents (kc s)) in E1; rewrite E1; cbn [fst snd].
      + exists c'. split; [exact (kobs_ok _ _ _ _ _ E)|auto].
      + exists s. split; [exact (kobs_err _ _ _ _ _ E)|auto].
    - destruct (delitem_slice_ok _ _ (skl_vt_ok klt kf) ltb HO (skl_update_vt key kltb HK) s sl Hs Ho) as [(c' & l' & E & E1 & H1 & H2 & H3)|[E E1]];
        change (vcont T s) with (contents (kc s)) in E1; rewrite E1; cbn [fst snd].
      + exists c'. split; [exact (kobs_ok _ _ _ _ _ E)|auto].
      + exists s. split; [exact (kobs_err _ _ _ _ _ E)|auto].
    - destruct (pop_ok _ _ (skl_vt_ok klt kf) s i Hs) as [(c' & v & l' & E & E1 & E2 & H1 & H2 & H3)|[E E1]];
        change (vcont T s) with (contents (kc s)) in *; rewrite E1; cbn [fst snd].
      + rewrite E2. exists c'. split; [exact (kobs_ok _ _ _ _ _ E)|auto].
      + exists s. split; [exact (kobs_err _ _ _ _ _ E)|auto].
    - pose proof (core_step (@RNat V) length_of s _ _ Hs eq_refl HRc) as H. cbn [of_res] in H. rewrite (co_len _ HC) in H. exact H.
    - exact (core_step (@RList V) iter s _ _ Hs eq_refl HRc).
    - exact (core_step (@RList V) reversed s _ _ Hs (reversed_ok (kc s)) HRc).
    - destruct (bisect_key_left_ok key kltb keqb HKT (key v) s Hs Ho) as (c' & E & H). exact (quiet_step _ _ _ _ _ Hs E H).
    - destruct (bisect_key_right_ok key kltb keqb HKT (key v) s Hs Ho) as (c' & E & H). exact (quiet_step _ _ _ _ _ Hs E H).
    - exact (quiet_step _ _ _ _ _ Hs (skl_count_ok key kltb keqb eqb HKT HE v s Hs Ho) HR).
    - destruct (skl_index_ok key kltb keqb eqb HKT HE v start stop s Hs Ho) as (c' & E & H). exact (quiet_step _ _ _ _ _ Hs E H).
    - exact (quiet_step _ _ _ _ _ Hs (irange_ok key kltb keqb HKT mn mx imin imax reverse s Hs Ho) HR).
    - destruct (islice_ok (kc s) start stop reverse HC) as (r & c' & E & H & E1). rewrite E1.
      exact (core_step _ _ _ _ _ Hs E H).
    - destruct (reset_ok _ _ (skl_vt_ok klt kf) ltb HO (skl_update_vt key kltb HK) ld s Hs Ho Hok) as (c' & E & H).
      exists c'. split; [exact (kobs_ok _ _ _ _ _ E)|tauto].
    - destruct (skl_update_ok key kltb HK it s Hs Ho) as (c' & E & H). exists c'. split; [exact (kobs_ok _ _ _ _ _ E)|tauto].
    - destruct (imul_ok _ _ (skl_vt_ok klt kf) ltb (skl_update_vt key kltb HK) n s Hs) as (c' & E & H).
      exists c'. split; [exact (kobs_ok _ _ _ _ _ E)|tauto].
    - destruct (knew_step (skl_copy klt kf dflt) (contents (kc s)) s eq_refl) as (c' & E & H1 & H2 & H3).
      exists c'. split; [exact E|]. rewrite sp_sort_id in H2 by auto. auto.
    - exact (knew_step (skl_plus klt kf dflt it) (contents (kc s) ++ it) s eq_refl).
    - exact (knew_step (skl_mul klt kf dflt n) (list_mul (contents (kc s)) n) s eq_refl).
    - destruct (knew_step (skl_reduce klt kf dflt) (contents (kc s)) s eq_refl) as (c' & E & H1 & H2 & H3).
      exists c'. split; [exact E|]. rewrite sp_sort_id in H2 by auto. auto.
    - exact (core_step (@RBool V) _ _ _ _ Hs (compare_ok vltb eqb op other (kc s) (co_len _ HC) Hcmp) HRc).
    - exists s. repeat split; auto.
  Qed.

  Definition KInv (s : SKL) : Prop := Shape s /\ sorted ltb (contents (kc s)).

  Lemma skl_init_inv : KInv (skl_init dflt).
  Proof. split; [apply shape_empty; exact Hd | apply sorted_nil]. Qed.

  Definition kload_after (o : kop V K) (ld : nat) : nat :=
    match o with KList o => load_after dflt o ld | _ => ld end.

  Lemma skl_step_inv o s : KInv s -> kop_ok o -> kcmp_ok o ->
    exists s', skl_step vlt eq klt keq kf dflt o s = (fst (kref o (contents (kc s))), s') /\ KInv s' /\
      contents (kc s') = snd (kref o (contents (kc s))) /\ load (kc s') = kload_after o (load (kc s)).
  Proof.
    intros [Hs Ho] Hok Hcmp. pose proof (ktouch_refl kf s Hs) as HR.
    assert (W : forall r, (exists s'', skl_step vlt eq klt keq kf dflt o s = (r, s'') /\ Shape s'' /\
              contents (kc s'') = contents (kc s) /\ load (kc s'') = load (kc s)) ->
              exists s', skl_step vlt eq klt keq kf dflt o s = (r, s') /\ KInv s' /\
                contents (kc s') = contents (kc s) /\ load (kc s') = load (kc s)).
    { intros r (s'' & E & H1 & H2 & H3). exists s''. repeat split; auto. rewrite H2. exact Ho. }
    destruct o as [o|k|k|mn mx a b r]; cbn [skl_step sp_kstep kload_after fst snd] in *.
    - destruct (skl_lstep_ok o s Hs Ho Hok Hcmp) as (c' & E & H1 & H2 & H3).
      exists c'. split; [exact E|]. repeat split; auto. rewrite H2. apply sp_step_sorted; auto.
      apply HOk. exact HK.
    - apply W. destruct (bisect_key_left_ok key kltb keqb HKT k s Hs Ho) as (c' & E & H).
      exact (quiet_step _ _ _ _ _ Hs E H).
    - apply W. destruct (bisect_key_right_ok key kltb keqb HKT k s Hs Ho) as (c' & E & H).
      exact (quiet_step _ _ _ _ _ Hs E H).
    - apply W. exact (quiet_step _ _ _ _ _ Hs (irange_key_ok key kltb keqb HKT mn mx a b r s Hs Ho) HR).
  Qed.

  Lemma skl_run_ok ops : forall s, KInv s -> Forall kop_ok ops -> Forall kcmp_ok ops ->
    exists s', skl_run vlt eq klt keq kf dflt ops s
               = (fst (sp_krun eqb vltb key kltb ops (contents (kc s))), s') /\ KInv s' /\
      contents (kc s') = snd (sp_krun eqb vltb key kltb ops (contents (kc s))) /\
      load (kc s') = fold_left (fun ld o => kload_after o ld) ops (load (kc s)).
  Proof.
    induction ops as [|o ops IH]; intros c HI Hok Hcmp.
    - exists c. repeat split; auto; apply HI.
    - inversion Hok as [|? ? Ho Hos]; subst. inversion Hcmp as [|? ? Hc Hcs]; subst.
      destruct (skl_step_inv o c HI Ho Hc) as (c1 & E1 & HI1 & Ec & El).
      destruct (IH c1 HI1 Hos Hcs) as (c2 & E2 & HI2 & Ec2 & El2).
      exists c2. unfold skl_run, sp_krun in *. cbn [run fold_left]. rewrite E1.
      destruct (kref o (contents (kc c))) as [r l1]. cbn [fst snd] in *. subst l1.
      rewrite E2. rewrite <- El.
      destruct (run kref ops (contents (kc c1))) as [rs l2]. cbn [fst snd] in *.
      auto.
  Qed.
End KeyHist.

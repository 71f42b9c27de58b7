(** * Slices, rebuilding and new objects on the heap *)
From Verif Require Import PyBase Model Spec History ModelHeap HeapFacts HeapSim.
Local Unset Implicit Arguments.

Section Slices.
  Context {V : Type}.
  Variables lt eq : V -> V -> res bool.
  Variable dflt : nat.
  Notation ST := (heap V * hsl V)%type.

  Lemma sim_hend {A B} n (P : ST -> Prop) (R : A -> B -> ST -> Prop) a hm : hdo n P hm (R a) -> sim n P R (ret a) hm.
  Proof.
    intros H s HG Hn HP. destruct (H s HG Hn HP) as (b & s' & E & Ev & G & F & X). rewrite E. cbn.
    split; [exact Ev|]. split; [exact G|]. split; [exact F|exact X].
  Qed.
  Lemma sim_reading_keep {A} n L (m : M (core V V) A) : keeps m ->
    sim n (fun s => lists (view s) = L) (fun a b s => a = b /\ lists (view s) = L) m (reading m).
  Proof.
    intros H s HG Hn HP. destruct (sim_reading m H n s HG Hn I) as (E & G & F & X). split; [exact E|]. split; [exact G|]. split; [exact F|].
    destruct (fst (m (view s))), (fst (reading m s)); try exact X. split; [exact X|]. rewrite E, H. exact HP.
  Qed.
  Lemma sim_keep_bind {A A' B'} n L (Q : A' -> B' -> ST -> Prop) (m : M (core V V) A) k hk : keeps m ->
    (forall a, sim n (fun s => lists (view s) = L) Q (k a) (hk a)) ->
    sim n (fun s => lists (view s) = L) Q (bind m k) (bind (reading m) hk).
  Proof.
    intros H1 H2. eapply sim_bind; [apply sim_reading_keep, H1|]. intros a b. cbv beta. apply sim_pure. intros <-. apply H2.
  Qed.
  (** [_lists[i]] and its content. *)
  Lemma sim_row {A B} n L i (P : ST -> Prop) (Q : A -> B -> ST -> Prop) k hk :
    (forall s, P s -> lists (view s) = L) -> (forall l, sim n P Q (k l) (hk l)) ->
    sim n P Q (bind (liftr (getn L i)) k) (bind (h_row i) (fun r => bind (h_cell r) hk)).
  Proof.
    intros HP H [h o] HG Hn Hs. pose proof (HP _ Hs) as E. cbn in E. subst L. unfold bind, liftr, h_row, h_cell. cbn [snd fst].
    rewrite getn_map. destruct (getn (rows o) i) as [r|e]; cbn [rbind].
    - exact (H _ (h, o) HG Hn Hs).
    - cbn. split; [reflexivity|]. split; [exact HG|]. split; [apply frame_refl|reflexivity].
  Qed.
  Lemma hdo_lists {B} n (P : ST -> Prop) L (hm : M ST B) R :
    hdo n (fun s => lists (view s) = L /\ P s) hm R ->
    hdo n (fun s => lists (view s) = L /\ P s) hm (fun b s => lists (view s) = L /\ R b s).
  Proof.
    intros H s HG Hn Hs. destruct (H s HG Hn Hs) as (b & s' & E & Ev & G & F & X). exists b, s'.
    repeat (split; [assumption|]). split; [rewrite Ev; apply Hs|exact X].
  Qed.
  Lemma hdo_alloc2 n v w p : hdo n (newlist (V:=V) n w p) (h_alloc v) (fun b s => newlist n v b s /\ newlist n w p s /\ b <> p).
  Proof.
    intros s HG Hn Hs. destruct (hdo_alloc n _ v (newlist_stable n w p) s HG Hn Hs) as (b & s' & E & Ev & G & F & X & Y).
    exists b, s'. repeat (split; [assumption|]). unfold h_alloc, alloc in E. destruct Hs as (_ & Hp & _).
    assert (b = length (fst s)) by congruence. subst b. intros <-. lia.
  Qed.

  Notation fresh_list n := (fun (v : list V) b s => newlist n v b s).

  Lemma sim_getitem_fwd n start stop : sim n any (fresh_list n) (getitem_fwd start stop) (h_getitem_fwd start stop).
  Proof.
    unfold getitem_fwd, h_getitem_fwd. apply sim_get2. intros c.
    destruct ((start =? 0) && (stop =? Z.of_nat (len c)))%Z.
    { apply sim_hend. eapply hdo_weaken; [| |apply (hdo_flat n c)]; [intros s [H _]; exact H|]. intros b s [_ H]. exact H. }
    apply sim_pre with (P := fun s => lists (view s) = lists c); [intros s [<- _]; reflexivity|].
    apply sim_keep_bind; [apply keeps_pos|]. intros p. cbv zeta. apply sim_row; [auto|]. intros sl.
    destruct (fst p, snd p) as [sp si] eqn:Ep. apply pair_equal_spec in Ep as [-> ->].
    destruct (si + Z.to_nat (stop - start) <=? length sl).
    { apply sim_hend. eapply hdo_weaken; [| |apply (hdo_alloc n any), any_stable]; [intros s H; exact I|]. intros b s [H _]. exact H. }
    apply sim_keep_bind.
    { destruct (stop =? Z.of_nat (len c))%Z; [|apply keeps_pos]. cbv zeta. apply keeps_bind; [apply keeps_liftr|]. intros; apply keeps_ret. }
    intros q. apply sim_row; [auto|]. intros l1.
    eapply sim_hstep.
    { eapply hdo_weaken; [| |apply (hdo_lists n any (lists c) (h_alloc (skipn si l1)))]; [intros s H; split; [exact H|exact I]|intros b s H; exact H|].
      eapply hdo_weaken; [intros s [_ H]; exact H| |apply (hdo_alloc n any), any_stable]. intros b s [H _]. exact H. }
    intros prefix. cbv beta. eapply sim_hstep.
    { apply hdo_lists. apply (hdo_reduce n prefix (skipn si l1) (fun o => slicen (rows o) (sp + 1) (fst q)) (concat (slicen (lists c) (sp + 1) (fst q)))).
      - intros s [_ H]. exact H.
      - intros [h o] [E (_ & _ & Hi & _)]. cbn in E, Hi |- *. split; [intros H; apply Hi; eapply In_slicen, H|].
        rewrite <- E, slicen_map. reflexivity. }
    intros u. cbv beta. apply sim_row; [intros s [H _]; exact H|]. intros l2. eapply sim_hstep.
    { apply hdo_lists. eapply hdo_weaken; [intros s [_ H]; exact H|intros b s H; exact H|apply hdo_alloc2]. }
    intros tl. cbv beta. apply sim_hend. eapply hdo_bind.
    { apply (hdo_reduce n prefix (skipn si l1 ++ concat (slicen (lists c) (sp + 1) (fst q))) (fun _ => [tl]) (firstn (snd q) l2)).
      - intros s (_ & _ & H & _). exact H.
      - intros s (_ & (H & _) & _ & Hn). split; [intros [->|[]]; contradiction|]. cbn. rewrite H. apply app_nil_r. }
    intros u'. eapply hdo_weaken; [intros s H; exact H| |apply hdo_ret]. intros x s [-> H]. exact H.
  Qed.

  Lemma sim_getitem_slice_rec f : forall n sl, sim n any (fresh_list n) (getitem_slice_rec f sl) (h_getitem_slice_rec f sl).
  Proof.
    induction f as [|f IH]; intros n sl.
    { intros s HG Hn _. cbn. split; [reflexivity|]. split; [exact HG|]. split; [apply frame_refl|reflexivity]. }
    cbn [getitem_slice_rec h_getitem_slice_rec]. apply sim_get2. intros c. apply sim_any.
    apply simn_bind; [apply sim_liftr|]. intros [[start stop] step].
    destruct ((step =? 1) && (start <? stop))%Z; [apply sim_getitem_fwd|].
    destruct ((step =? -1) && (stop <? start))%Z.
    - eapply sim_bind; [apply IH|]. intros v b. cbv beta. apply (sim_cell n _ b v); [intros s (E & _); exact E|].
      apply sim_hend. eapply hdo_bind; [apply hdo_write|]. intros u. cbv beta.
      eapply hdo_weaken; [intros s H; exact H| |apply hdo_ret]. intros x s [-> H]. exact H.
    - eapply (sim_point n _ _ _ (bind (mapM getitem_int (rangez start stop step)) (fun v => ret v))); [|reflexivity|].
      { intros c1. unfold bind. destruct (mapM getitem_int _ c1) as [[]]; reflexivity. }
      apply simn_bind; [apply sim_reading, keeps_mapM; intros; apply keeps_getitem|]. intros v. apply sim_hend.
      eapply hdo_weaken; [| |apply (hdo_alloc n any), any_stable]; [intros s H; exact I|]. intros b s [H _]. exact H.
  Qed.
  Lemma sim_getitem_slice n sl : sim n any (fresh_list n) (getitem_slice sl) (h_getitem_slice sl).
  Proof. apply sim_getitem_slice_rec. Qed.
  (** ... while another list of its own is around. *)
  Lemma sim_getitem_slice2 n w p sl :
    sim n (newlist (V:=V) n w p) (fun v b s => newlist n v b s /\ newlist n w p s /\ b <> p) (getitem_slice sl) (h_getitem_slice sl).
  Proof.
    intros s HG Hn Hs. destruct (sim_getitem_slice (length (fst s)) sl s HG (le_n _) I) as (E & G & F & X).
    split; [exact E|]. split; [exact G|]. split; [eapply frame_le; eassumption|].
    destruct (fst (getitem_slice sl (view s))), (fst (h_getitem_slice sl s)); try exact X. destruct X as (X1 & X2 & X3 & X4).
    split; [repeat split; try assumption; lia|]. split; [exact (newlist_stable n w p s _ HG F Hs)|]. destruct Hs as (_ & Hp & _). lia.
  Qed.

  Lemma sim_delitem_slice sl : sim0 (delitem_slice (sl_vt lt) sl) (h_delitem_slice lt sl).
  Proof.
    intros n. unfold delitem_slice, h_delitem_slice.
    eapply (sim_point n _ _ _ (bind get _)); [intros c; unfold bind at 1; rewrite oncore_sl; reflexivity|reflexivity|].
    apply sim_get2. intros c. apply sim_any. apply simn_bind; [apply sim_liftr|]. intros [[start stop] step]. cbv zeta.
    match goal with |- sim _ _ _ ?m _ => match m with context [forM (delitem_int (sl_vt lt)) ?l] =>
      assert (XL : sim n any same (forM (delitem_int (sl_vt lt)) l) (forM (delitem_int (h_vt lt)) l)) by (apply sim_forM; intros; apply sim_delitem)
    end end.
    destruct ((step =? 1) && (start <? stop))%Z; [|exact XL].
    destruct ((start =? 0) && (stop =? Z.of_nat (len c)))%Z; [apply sim_clear|].
    destruct (Z.of_nat (len c) <=? 8 * (stop - start))%Z; [|exact XL]. cbn [vt_clear vt_update sl_vt].
    eapply sim_bind; [eapply sim_point; [apply oncore_sl|reflexivity|apply sim_getitem_slice]|]. intros v b. cbv beta.
    eapply sim_bind with (R := fun v (_ : unit) s => newlist n v b s).
    { destruct (stop <? Z.of_nat (len c))%Z.
      - eapply sim_bind; [eapply sim_point; [apply oncore_sl|reflexivity|apply sim_getitem_slice2]|]. intros v2 b2. cbv beta.
        apply sim_hend. apply (hdo_reduce n b v (fun _ => [b2]) v2).
        + intros s (_ & H & _). exact H.
        + intros s ((E & _) & _ & Hn). split; [intros [->|[]]; contradiction|]. cbn. rewrite E. apply app_nil_r.
      - apply sim_hend. eapply hdo_weaken; [intros s H; exact H| |apply hdo_ret]. intros x s [_ H]. exact H. }
    intros v1 u. apply simP_bind; [apply newlist_stable|apply sim_clear|]. intros _. apply sim_update_list.
  Qed.

  Lemma sim_flat_get {A B} n (Q : A -> B -> ST -> Prop) k hk :
    (forall c b, sim n (newlist n (contents c) b) Q (k c) (hk b)) -> sim n any Q (bind get k) (bind h_flat hk).
  Proof.
    intros H. apply sim_get. intros c. eapply sim_hstep; [eapply hdo_weaken; [intros s [E _]; exact E|intros b s X; exact X|apply hdo_flat]|].
    intros b. cbv beta. eapply sim_pre; [intros s [_ X]; exact X|]. apply H.
  Qed.
  Lemma sim_reset ld : sim0 (reset (sl_vt lt) ld) (h_reset lt ld).
  Proof.
    intros n. unfold reset, h_reset. eapply (sim_point n _ _ _ (bind get _)); [intros c; unfold bind at 1; rewrite oncore_sl; reflexivity|reflexivity|].
    apply sim_flat_get. intros c b. cbv zeta. cbn [vt_clear vt_update sl_vt].
    apply simP_bind; [apply newlist_stable|apply sim_clear|]. intros _.
    apply simP_bind; [apply newlist_stable| |intros _; apply sim_update_list].
    intros k. eapply sim_point; [apply oncore_sl|reflexivity|]. apply sim_reading, keeps_modify. reflexivity.
  Qed.
  Lemma sim_imul num : sim0 (imul (sl_vt lt) num) (h_imul lt num).
  Proof.
    intros n. unfold imul, h_imul. eapply (sim_point n _ _ _ (bind get _)); [intros c; unfold bind at 1; rewrite oncore_sl; reflexivity|reflexivity|].
    apply sim_flat_get. intros c b. cbv zeta. cbn [vt_clear vt_update sl_vt].
    apply (sim_cell n _ b (contents c)); [intros s (E & _); exact E|].
    eapply sim_hstep; [eapply hdo_weaken; [intros s H; exact I| |apply (hdo_alloc n any (list_mul (contents c) num)), any_stable]; intros b1 s [H _]; exact H|].
    intros b1. cbv beta. apply simP_bind; [apply newlist_stable|apply sim_clear|]. intros _. apply sim_update_list.
  Qed.

  (** ** New objects *)
  Lemma new_sim a v (h : heap V) : elems h a = v ->
    length h <= length (snd (h_new lt dflt a h)) /\
    (forall r, r < length h -> cell (snd (h_new lt dflt a h)) r = cell h r) /\
    match sl_new lt dflt v, fst (h_new lt dflt a h) with
    | Ok c, Ok o => view (snd (h_new lt dflt a h), o) = c /\ good (snd (h_new lt dflt a h), o) /\ (forall r, In r (rows o) -> length h <= r)
    | Err e, Err e' => e = e'
    | _, _ => False
    end.
  Proof.
    intros Ha. unfold sl_new, h_new. set (s := (h, mkhsl [] [] [] 0 0 dflt) : ST).
    assert (HG : good s) by (split; constructor).
    destruct (sim_update lt (length h) a v s HG (le_n _) Ha) as (E & G & (FL & FC & FR) & X).
    change (view s) with (core_empty (V:=V) (K:=V) dflt) in *.
    destruct (sl_update lt v (core_empty dflt)) as [[u|e] c]; destruct (h_update lt a s) as [[u'|e'] [h' o']]; cbn in *; try contradiction;
      (split; [exact FL|]; split; [intros r Hr; apply FC; auto|]).
    - split; [exact E|]. split; [exact G|]. intros r Hr. destruct (FR r Hr) as [[]|H]; exact H.
    - exact X.
  Qed.
  (** [o'] is a new object. *)
  Definition newobj (n : nat) (c : core V V) (o' : hsl V) (s : ST) : Prop :=
    view (fst s, o') = c /\ good (fst s, o') /\ forall r, In r (rows o') -> n <= r /\ ~ In r (rows (snd s)).
  Lemma sim_class n a v : sim n (gives a v) (newobj n) (liftr (sl_new lt dflt v)) (h_class lt dflt a).
  Proof.
    intros [h o] [HN HF] Hn Ha. cbn [fst snd] in *. destruct (new_sim a v h Ha) as (L & C & X). unfold h_class. cbn [fst snd].
    destruct (h_new lt dflt a h) as [r h']. cbn [fst snd] in *. unfold liftr. cbn [fst snd]. split; [|split; [|split]].
    - apply view_local. intros r' Hr. apply C. rewrite Forall_forall in HF. apply HF, Hr.
    - split; [exact HN|]. eapply Forall_impl; [|exact HF]. cbn. intros; lia.
    - split; cbn; [exact L|]. split; [intros r' Hr _; apply C; lia|]. intros r' Hr. left. exact Hr.
    - destruct (sl_new lt dflt v) as [c|e], r as [o'|e']; try contradiction; [|exact X].
      destruct X as (X1 & X2 & X3). split; [exact X1|]. split; [exact X2|]. intros r' Hr. specialize (X3 r' Hr). split; [lia|].
      cbn. intros H. rewrite Forall_forall in HF. specialize (HF _ H). lia.
  Qed.
  Lemma sim_copy n : sim n any (newobj n) (sl_copy lt dflt) (h_copy lt dflt).
  Proof.
    unfold sl_copy. apply sim_get. intros c [h o] HG Hn [<- _]. unfold h_copy.
    exact (sim_class n (HRows (rows o)) _ (h, o) HG Hn eq_refl).
  Qed.
  Lemma sim_class_list n b v : sim n (newlist n v b) (newobj n) (liftr (sl_new lt dflt v)) (h_class lt dflt (HList b)).
  Proof. eapply sim_pre; [|apply sim_class]. intros s (E & _). exact E. Qed.
  Definition arg_in (a : harg) (s : ST) : Prop :=
    match a with HList r => r < length (fst s) | HRows rs => Forall (fun r => r < length (fst s)) rs end.
  Lemma elems_ext a (h h' : heap V) o : arg_in a (h, o) -> (forall r, r < length h -> cell h' r = cell h r) -> elems h' a = elems h a.
  Proof.
    intros H E. destruct a as [r|rs]; cbn in *; [apply E, H|]. f_equal. apply cells_same. intros r Hr. apply E.
    rewrite Forall_forall in H. apply H, Hr.
  Qed.
  Lemma sim_plus n a x : sim n (fun s => gives a x s /\ arg_in a s) (newobj n) (sl_plus lt dflt x) (h_plus lt dflt a).
  Proof.
    unfold sl_plus, h_plus. apply sim_get. intros c.
    eapply sim_hstep with (R := fun b s => newlist n (contents c) b s /\ gives a x s).
    { intros [h o] HG Hn (Hc & Ha & Hi). destruct (hdo_flat n c _ HG Hn Hc) as (b & s' & E & Ev & G & F & _ & X).
      exists b, s'. split; [exact E|]. split; [exact Ev|]. split; [exact G|]. split; [exact F|]. split; [exact X|].
      unfold h_flat, h_alloc, alloc, bind, modify, ret in E. cbn in E.
      assert (Es : s' = (reduce_iadd (rows o) (length h) (h ++ [[]]), o)) by congruence. subst s'. unfold gives in *. cbn [fst] in *.
      rewrite <- Ha. eapply elems_ext; [exact Hi|]. intros r Hr. rewrite reduce_other by lia. apply cell_app_old, Hr. }
    intros b. cbv beta. apply (sim_cell n _ b (contents c)); [intros s [(E & _) _]; exact E|].
    eapply sim_hstep with (R := fun y s => y = x /\ newlist n (contents c) b s).
    { intros s HG Hn [H1 H2]. exists x, s. unfold gives in H2. rewrite H2. split; [reflexivity|]. split; [reflexivity|]. split; [exact HG|].
      split; [apply frame_refl|]. split; [reflexivity|exact H1]. }
    intros y. cbv beta. apply sim_pure. intros ->. eapply sim_hstep; [apply hdo_write|]. intros u. apply sim_class_list.
  Qed.
  Lemma sim_mul n num : sim n any (newobj n) (sl_mul lt dflt num) (h_mul lt dflt num).
  Proof.
    unfold sl_mul, h_mul. apply sim_flat_get. intros c b. apply (sim_cell n _ b (contents c)); [intros s (E & _); exact E|].
    eapply sim_hstep; [eapply hdo_weaken; [intros s H; exact I| |apply (hdo_alloc n any (list_mul (contents c) num)), any_stable]; intros b1 s [H _]; exact H|].
    intros b1. apply sim_class_list.
  Qed.
  Lemma sim_reduce n : sim n any (newobj n) (sl_reduce lt dflt) (h_reduce lt dflt).
  Proof.
    unfold sl_reduce, h_reduce. apply sim_flat_get. intros c b. apply (sim_cell n _ b (contents c)); [intros s (E & _); exact E|].
    eapply sim_hstep; [eapply hdo_weaken; [intros s H; exact I| |apply (hdo_alloc n any (contents c)), any_stable]; intros b1 s [H _]; exact H|].
    intros b1. apply sim_class_list.
  Qed.
End Slices.

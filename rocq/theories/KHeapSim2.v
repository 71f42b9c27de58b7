(** * Readers, slices, rebuilding and new SortedKeyLists on the heap *)
From Verif Require Import PyBase Model Spec History ModelHeap ModelKHeap HeapFacts HeapSim HeapSim2 KHeapFacts KHeapSim.
Local Unset Implicit Arguments.

Ltac kkeep :=
  cbv zeta;
  first [ assumption | apply kkeeps_ret | apply kkeeps_raise | apply kkeeps_liftr | apply kkeeps_get
        | apply kkeeps_oncore; apply keeps_loc
        | match goal with H : forall _, kkeeps _ |- _ => apply H | H : forall _ _ _, kkeeps _ |- _ => apply H end
        | apply kkeeps_bind; [kkeep|intros; kkeep]
        | match goal with |- kkeeps (match ?x with _ => _ end) => destruct x; kkeep end ].

Section Readers.
  Context {V : Type}.
  Variables lt eq : V -> V -> res bool.
  Variable kf : V -> res V.
  Lemma kkeeps_find v : kkeeps (skl_find eq lt eq kf v).
  Proof. unfold skl_find. kkeep. Qed.
  Lemma kkeeps_contains v : kkeeps (skl_contains eq lt eq kf v).
  Proof. pose proof kkeeps_find. unfold skl_contains. kkeep. Qed.
  Lemma kkeeps_bisect_key_left k : kkeeps (skl_bisect_key_left lt kf k).
  Proof. unfold skl_bisect_key_left. kkeep. Qed.
  Lemma kkeeps_bisect_key_right k : kkeeps (skl_bisect_key_right lt kf k).
  Proof. unfold skl_bisect_key_right. kkeep. Qed.
  Lemma kkeeps_bisect_left v : kkeeps (skl_bisect_left lt kf v).
  Proof. pose proof kkeeps_bisect_key_left. unfold skl_bisect_left. kkeep. Qed.
  Lemma kkeeps_bisect_right v : kkeeps (skl_bisect_right lt kf v).
  Proof. pose proof kkeeps_bisect_key_right. unfold skl_bisect_right. kkeep. Qed.
  Lemma kkeeps_count v : kkeeps (skl_count eq lt eq kf v).
  Proof. unfold skl_count. kkeep. Qed.
  Lemma kkeeps_index_loop f : forall key v a b pos idx n, kkeeps (index_loop eq lt eq kf f key v a b pos idx n).
  Proof.
    induction f as [|f IH]; intros; cbn [index_loop]; [apply kkeeps_raise|]. cbv zeta. apply kkeeps_bind; [apply kkeeps_get|]. intros s.
    apply kkeeps_bind; [apply kkeeps_liftr|]. intros ks. apply kkeeps_bind; [apply kkeeps_liftr|]. intros k.
    apply kkeeps_bind; [apply kkeeps_liftr|]. intros sm. destruct (negb sm); [apply kkeeps_raise|].
    apply kkeeps_bind; [apply kkeeps_liftr|]. intros l. apply kkeeps_bind; [apply kkeeps_liftr|]. intros x.
    apply kkeeps_bind; [apply kkeeps_liftr|]. intros fd.
    match goal with |- kkeeps (if _ then _ else ?m) => assert (X : kkeeps m) end.
    { destruct (idx + 1 =? n); [|apply IH]. destruct (pos + 1 =? length (keys s)); [apply kkeeps_raise|].
      apply kkeeps_bind; [apply kkeeps_liftr|]. intros; apply IH. }
    kkeep.
  Qed.
  Lemma kkeeps_index v a b : kkeeps (skl_index eq lt eq kf v a b).
  Proof.
    unfold skl_index. repeat (cbv zeta; first [apply kkeeps_index_loop | apply kkeeps_raise | apply kkeeps_get | apply kkeeps_liftr
      | apply kkeeps_bind; [|intros] | match goal with |- kkeeps (if ?x then _ else _) => destruct x end]).
  Qed.
  Lemma kkeeps_irange_key mn mx a b r : kkeeps (skl_irange_key (V:=V) lt mn mx a b r).
  Proof. unfold skl_irange_key. kkeep. Qed.
  Lemma kkeeps_irange mn mx a b r : kkeeps (skl_irange lt kf mn mx a b r).
  Proof. unfold skl_irange. apply kkeeps_bind; [apply kkeeps_liftr|]. intros. apply kkeeps_bind; [apply kkeeps_liftr|]. intros. apply kkeeps_irange_key. Qed.
End Readers.

Section Slices.
  Context {V : Type}.
  Variables lt eq : V -> V -> res bool.
  Variable kf : V -> res V.
  Variable dflt : nat.
  Notation ST := (heap V * khsl V)%type.
  Notation T := (skl_vt lt kf).
  Notation KT := (k_vt lt kf).

  Lemma ksim_inherit {A} (m : M (core V V) A) : keeps m -> ksim0 (oncore T m) (onbase (reading m)).
  Proof. intros H. apply ksim_base. apply sim_reading, H. Qed.
  Lemma ksim_oncore {A} (m : M (core V V) A) : keeps m -> ksim0 (oncore T m) (oncore KT m).
  Proof.
    intros H n. eapply ksim_point; [reflexivity| |apply ksim_inherit, H]. intros [h [o ks]]. unfold oncore, onbase, reading, zoom. cbn.
    destruct (m _). reflexivity.
  Qed.
  Lemma ksim_delitem i : ksim0 (delitem_int T i) (delitem_int KT i).
  Proof. intros n. unfold delitem_int. apply ksimn_bind; [apply ksim_oncore, keeps_pos|]. intros p. apply (ksim_delete lt kf). Qed.
  Lemma ksim_forM {A} n (f : A -> M (skl V V) unit) hf l : (forall a, ksim n kany ksame (f a) (hf a)) -> ksim n kany ksame (forM f l) (forM hf l).
  Proof.
    intros H. induction l as [|a l IH]; cbn; [apply ksim_ret|]. apply ksimn_bind; [apply H|]. intros _. exact IH.
  Qed.
  Ltac ksimp :=
    cbv zeta;
    first [ apply ksim_ret | apply ksim_raise | apply ksim_liftr | apply (ksim_delete lt kf) | apply ksim_oncore, keeps_get | apply ksim_oncore, keeps_pos
          | apply ksimn_bind; [ksimp|intros; ksimp]
          | match goal with |- ksim _ _ _ (match ?x with _ => _ end) _ => destruct x; ksimp end ].
  Lemma ksim_pop i : ksim0 (pop T i) (pop KT i).
  Proof. intros n. unfold pop. cbn [vt_delete skl_vt k_vt]. ksimp. Qed.
  Lemma ksim_discard v : ksim0 (skl_discard eq lt eq kf v) (k_discard lt eq kf v).
  Proof. intros n. unfold skl_discard, k_discard. apply ksimn_bind; [apply ksim_reading, kkeeps_find|]. intros r. ksimp. Qed.
  Lemma ksim_remove v : ksim0 (skl_remove eq lt eq kf v) (k_remove lt eq kf v).
  Proof. intros n. unfold skl_remove, k_remove. apply ksimn_bind; [apply ksim_reading, kkeeps_find|]. intros r. ksimp. Qed.

  Lemma ksim_coreget {A B} n (P : ST -> Prop) (Q : A -> B -> ST -> Prop) k hm :
    ksim n P Q (bind get (fun s => k (kc s))) hm -> ksim n P Q (bind (oncore T get) k) hm.
  Proof. apply ksim_point; [|reflexivity]. intros c. unfold bind. rewrite oncore_skl. destruct c. reflexivity. Qed.
  Lemma ksim_hend {A B} n (P : ST -> Prop) (R : A -> B -> ST -> Prop) a hm : khdo n P hm (R a) -> ksim n P R (ret a) hm.
  Proof.
    intros H s HG Hn HP. destruct (H s HG Hn HP) as (b & s' & E & Ev & G & F & X). rewrite E. cbn.
    split; [exact Ev|]. split; [exact G|]. split; [exact F|exact X].
  Qed.
  Notation fresh_list n := (fun (v : list V) b s => knewlist n v b s).
  Lemma ksim_getitem_slice n sl : ksim n kany (fresh_list n) (oncore T (getitem_slice sl)) (k_getitem_slice sl).
  Proof. apply ksim_base_new. intros k. apply sim_getitem_slice. Qed.
  Lemma ksim_getitem_slice2 n w p sl :
    ksim n (knewlist (V:=V) n w p) (fun v b s => knewlist n v b s /\ knewlist n w p s /\ b <> p) (oncore T (getitem_slice sl)) (k_getitem_slice sl).
  Proof.
    intros s HG Hn Hs. destruct (ksim_getitem_slice (length (fst s)) sl s HG (le_n _) I) as (E & G & F & X).
    split; [exact E|]. split; [exact G|]. split; [eapply kframe_le; eassumption|].
    destruct (fst (oncore T (getitem_slice sl) (kview s))), (fst (k_getitem_slice sl s)); try exact X. destruct X as (X1 & X2 & X3 & X4).
    split; [repeat split; try assumption; lia|]. split; [exact (knewlist_stable n w p s _ HG F Hs)|]. destruct Hs as (_ & Hp & _). lia.
  Qed.
  Lemma ksim_delitem_slice sl : ksim0 (delitem_slice T sl) (k_delitem_slice lt kf sl).
  Proof.
    intros n. unfold delitem_slice, k_delitem_slice.
    apply ksim_coreget.
    apply ksim_get2. intros c. apply ksim_any. cbv beta. apply ksimn_bind; [apply ksim_liftr|]. intros [[start stop] step]. cbv zeta.
    match goal with |- ksim _ _ _ ?m _ => match m with context [forM (delitem_int T) ?l] =>
      assert (XL : ksim n kany ksame (forM (delitem_int T) l) (forM (delitem_int KT) l)) by (apply ksim_forM; intros; apply ksim_delitem)
    end end.
    destruct ((step =? 1) && (start <? stop))%Z; [|exact XL].
    destruct ((start =? 0) && (stop =? Z.of_nat (len (kc c))))%Z; [apply ksim_clear|].
    destruct (Z.of_nat (len (kc c)) <=? 8 * (stop - start))%Z; [|exact XL]. cbn [vt_clear vt_update skl_vt].
    eapply ksim_bind; [apply ksim_getitem_slice|]. intros v b. cbv beta.
    eapply ksim_bind with (R := fun v (_ : unit) s => knewlist n v b s).
    { destruct (stop <? Z.of_nat (len (kc c)))%Z.
      - eapply ksim_bind; [apply ksim_getitem_slice2|]. intros v2 b2. cbv beta.
        apply ksim_hend. apply (khdo_reduce n b v (fun _ => [b2]) v2).
        + intros s (_ & H & _). exact H.
        + intros s ((E & _) & _ & Hn). split; [intros [->|[]]; contradiction|]. cbn. rewrite E. apply app_nil_r.
      - apply ksim_hend. eapply khdo_weaken; [intros s H; exact H| |apply khdo_ret]. intros x s [_ H]. exact H. }
    intros v1 u. apply ksimP_bind; [apply knewlist_stable|apply ksim_clear|]. intros _. apply ksim_update_list.
  Qed.

  Lemma ksim_flat_get {A B} n (Q : A -> B -> ST -> Prop) k hk :
    (forall c b, ksim n (knewlist n (contents (kc c)) b) Q (k c) (hk b)) -> ksim n kany Q (bind get k) (bind k_flat hk).
  Proof.
    intros H. apply ksim_get. intros c. eapply ksim_hstep; [eapply khdo_weaken; [intros s [E _]; exact E|intros b s X; exact X|apply khdo_flat]|].
    intros b. cbv beta. eapply ksim_pre; [intros s [_ X]; exact X|]. apply H.
  Qed.
  Lemma ksim_reset ld : ksim0 (reset T ld) (k_reset lt kf ld).
  Proof.
    intros n. unfold reset, k_reset.
    apply ksim_coreget.
    apply ksim_flat_get. intros c b. cbv zeta beta. cbn [vt_clear vt_update skl_vt].
    apply ksimP_bind; [apply knewlist_stable|apply ksim_clear|]. intros _.
    apply ksimP_bind; [apply knewlist_stable| |intros _; apply ksim_update_list].
    intros k. eapply (ksim_point k _ _ _ (modify (on_kc (set_load ld)))); [intros s; rewrite oncore_skl; destruct s; reflexivity|reflexivity|].
    apply ksim_reading, kkeeps_modify. reflexivity.
  Qed.
  Lemma ksim_imul num : ksim0 (imul T num) (k_imul lt kf num).
  Proof.
    intros n. unfold imul, k_imul.
    apply ksim_coreget.
    apply ksim_flat_get. intros c b. cbv zeta beta. cbn [vt_clear vt_update skl_vt].
    apply (ksim_cell n _ b (contents (kc c))); [intros s (E & _); exact E|].
    eapply ksim_hstep; [eapply khdo_weaken; [intros s H; exact I| |apply (khdo_new n (list_mul (contents (kc c)) num))]; intros b1 s H; exact H|].
    intros b1. cbv beta. apply ksimP_bind; [apply knewlist_stable|apply ksim_clear|]. intros _. apply ksim_update_list.
  Qed.

  (** ** New objects *)
  Lemma knew_sim a v (h : heap V) : elems h a = v ->
    length h <= length (snd (k_new lt kf dflt a h)) /\
    (forall r, r < length h -> cell (snd (k_new lt kf dflt a h)) r = cell h r) /\
    match skl_new lt kf dflt v, fst (k_new lt kf dflt a h) with
    | Ok c, Ok o => kview (snd (k_new lt kf dflt a h), o) = c /\ kgood (snd (k_new lt kf dflt a h), o) /\ (forall r, In r (krefs o) -> length h <= r)
    | Err e, Err e' => e = e'
    | _, _ => False
    end.
  Proof.
    intros Ha. unfold skl_new, k_new. set (s := (h, mkkhsl (mkhsl [] [] [] 0 0 dflt) []) : ST).
    assert (HG : kgood s) by (split; constructor).
    destruct (ksim_update lt kf (length h) a v s HG (le_n _) Ha) as (E & G & (FL & FC & FR) & X).
    change (kview s) with (mkskl (core_empty (V:=V) (K:=V) dflt) []) in *.
    destruct (skl_update lt kf v _) as [[u|e] c]; destruct (k_update lt kf a s) as [[u'|e'] [h' o']]; cbn in *; try contradiction;
      (split; [exact FL|]; split; [intros r Hr; apply FC; auto|]).
    - split; [exact E|]. split; [exact G|]. intros r Hr. destruct (FR r Hr) as [[]|H]; exact H.
    - exact X.
  Qed.
  (** [o'] is a new object. *)
  Definition knewobj (n : nat) (c : skl V V) (o' : khsl V) (s : ST) : Prop :=
    kview (fst s, o') = c /\ kgood (fst s, o') /\ forall r, In r (krefs o') -> n <= r /\ ~ In r (krefs (snd s)).
  Lemma ksim_class n a v : ksim n (kgives a v) (knewobj n) (liftr (skl_new lt kf dflt v)) (k_class lt kf dflt a).
  Proof.
    intros [h o] [HN HF] Hn Ha. cbn [fst snd] in *. destruct (knew_sim a v h Ha) as (L & C & X). unfold k_class. cbn [fst snd].
    destruct (k_new lt kf dflt a h) as [r h']. cbn [fst snd] in *. unfold liftr. cbn [fst snd]. split; [|split; [|split]].
    - apply kview_local. intros r' Hr. apply C. rewrite Forall_forall in HF. apply HF, Hr.
    - split; [exact HN|]. eapply Forall_impl; [|exact HF]. cbn. intros; lia.
    - split; cbn; [exact L|]. split; [intros r' Hr _; apply C; lia|]. intros r' Hr. left. exact Hr.
    - destruct (skl_new lt kf dflt v) as [c|e], r as [o'|e']; try contradiction; [|exact X].
      destruct X as (X1 & X2 & X3). split; [exact X1|]. split; [exact X2|]. intros r' Hr. specialize (X3 r' Hr). split; [lia|].
      cbn. intros H. rewrite Forall_forall in HF. specialize (HF _ H). lia.
  Qed.
  Lemma ksim_copy n : ksim n kany (knewobj n) (skl_copy lt kf dflt) (k_copy lt kf dflt).
  Proof.
    unfold skl_copy. apply ksim_get. intros c [h o] HG Hn [<- _]. unfold k_copy.
    exact (ksim_class n (HRows (rows (kbase o))) _ (h, o) HG Hn eq_refl).
  Qed.
  Lemma ksim_class_list n b v : ksim n (knewlist n v b) (knewobj n) (liftr (skl_new lt kf dflt v)) (k_class lt kf dflt (HList b)).
  Proof. eapply ksim_pre; [|apply ksim_class]. intros s (E & _). exact E. Qed.
  Definition karg_in (a : harg) (s : ST) : Prop :=
    match a with HList r => r < length (fst s) | HRows rs => Forall (fun r => r < length (fst s)) rs end.
  Lemma ksim_plus n a x : ksim n (fun s => kgives a x s /\ karg_in a s) (knewobj n) (skl_plus lt kf dflt x) (k_plus lt kf dflt a).
  Proof.
    unfold skl_plus, k_plus. apply ksim_get. intros c.
    eapply ksim_hstep with (R := fun b s => knewlist n (contents (kc c)) b s /\ kgives a x s).
    { intros [h [o ks]] HG Hn (Hc & Ha & Hi). destruct (khdo_flat n c _ HG Hn Hc) as (b & s' & E & Ev & G & F & _ & X).
      exists b, s'. split; [exact E|]. split; [exact Ev|]. split; [exact G|]. split; [exact F|]. split; [exact X|].
      unfold k_flat, onbase, zoom, h_flat, h_alloc, alloc, bind, modify, ret in E. cbn in E.
      assert (Es : s' = (reduce_iadd (rows o) (length h) (h ++ [[]]), mkkhsl o ks)) by congruence. subst s'. unfold kgives in *. cbn [fst] in *.
      rewrite <- Ha. apply (elems_ext a h _ o); [exact Hi|]. intros r Hr. rewrite reduce_other by lia. apply cell_app_old, Hr. }
    intros b. cbv beta. apply (ksim_cell n _ b (contents (kc c))); [intros s [(E & _) _]; exact E|].
    eapply ksim_hstep with (R := fun y s => y = x /\ knewlist n (contents (kc c)) b s).
    { intros s HG Hn [H1 H2]. exists x, s. unfold kgives in H2. rewrite H2. split; [reflexivity|]. split; [reflexivity|]. split; [exact HG|].
      split; [apply kframe_refl|]. split; [reflexivity|exact H1]. }
    intros y. cbv beta. apply ksim_pure. intros ->. eapply ksim_hstep; [apply khdo_write|]. intros u. apply ksim_class_list.
  Qed.
  Lemma ksim_mul n num : ksim n kany (knewobj n) (skl_mul lt kf dflt num) (k_mul lt kf dflt num).
  Proof.
    unfold skl_mul, k_mul. apply ksim_flat_get. intros c b. apply (ksim_cell n _ b (contents (kc c))); [intros s (E & _); exact E|].
    eapply ksim_hstep; [eapply khdo_weaken; [intros s H; exact I|intros b1 s H; exact H|apply (khdo_new n (list_mul (contents (kc c)) num))]|].
    intros b1. apply ksim_class_list.
  Qed.
  Lemma ksim_reduce n : ksim n kany (knewobj n) (skl_reduce lt kf dflt) (k_reduce lt kf dflt).
  Proof.
    unfold skl_reduce, k_reduce. apply ksim_flat_get. intros c b. apply (ksim_cell n _ b (contents (kc c))); [intros s (E & _); exact E|].
    eapply ksim_hstep; [eapply khdo_weaken; [intros s H; exact I|intros b1 s H; exact H|apply (khdo_new n (contents (kc c)))]|].
    intros b1. apply ksim_class_list.
  Qed.
End Slices.

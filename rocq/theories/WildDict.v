(** * SortedDict under arbitrary comparisons *)
From Coq Require Import Permutation.
From Verif Require Import PyBase Model Spec History BaseFacts SpecFacts SliceFacts Reach ListProps
  ListClass ClassSpec ClassFacts ModelSet SetSpec HashFacts ModelDict DictSpec MapFacts DictFacts FaultSpec WildSpec WildClass.
Local Unset Implicit Arguments.

Section WildDict.
  Context {S A B K : Type}.
  Variable T : listcls S A K.
  Variable eqb : A -> A -> bool.
  Variable veqb : B -> B -> bool.
  Hypothesis HE : Equiv eqb.
  Variable raised : exn -> Prop.
  Variable R : S -> list A -> Prop.
  Hypothesis HK : WildOK T eqb raised R.
  Notation SD := (sdict S A B).
  Notation map_t := (list (A * B)).
  Notation keys := (map (@fst A B)).
  Notation dk := (distinct_keys eqb).

  (** The list holds the keys of the dict, in the order of [l]. *)
  Definition DW (s : SD) (l : map_t) : Prop := R (d_list s) (keys l) /\ Permutation l (d_items s) /\ dk (d_items s).
  Definition goes {X} (m : M SD X) (s : SD) (r : res X) (d l : map_t) : Prop :=
    exists s', m s = (r, s') /\ d_items s' = d /\ DW s' l.

  Lemma dw_In s l p : DW s l -> In p l -> In p (d_items s).
  Proof. intros (_ & H & _). apply Permutation_in, H. Qed.
  Lemma dw_dk s l : DW s l -> dk l.
  Proof. intros (_ & H & HD). eapply dk_perm; [exact HE|symmetry; exact H|exact HD]. Qed.
  Lemma dw_lookup s l k : DW s l -> lookup eqb k l = lookup eqb k (d_items s).
  Proof. intros HI. pose proof HI as (_ & H & HD). apply lookup_perm; [exact HE|exact H|eapply dw_dk; eauto]. Qed.
  Lemma dw_of (s : SD) ks : R (d_list s) ks -> Permutation ks (keys (d_items s)) -> dk (d_items s) -> exists l, DW s l /\ keys l = ks.
  Proof.
    intros HR HP HD. apply Permutation_map_inv in HP as (l & -> & HP). exists l. split; [|reflexivity].
    split; [exact HR|]. split; [symmetry; exact HP|exact HD].
  Qed.

  Lemma goes_bind {X Y} (m : M SD X) (f : X -> M SD Y) s x d l r d' l' :
    goes m s (Ok x) d l -> (forall s', d_items s' = d -> DW s' l -> goes (f x) s' r d' l') ->
    goes (bind m f) s r d' l'.
  Proof.
    intros (s1 & E & Hd & HI) H. destruct (H s1 Hd HI) as (s2 & E2 & Hd2 & HI2).
    exists s2. unfold bind. rewrite E. auto.
  Qed.
  Lemma goes_bind_err {X Y} (m : M SD X) (f : X -> M SD Y) s e d l :
    goes m s (Err e) d l -> goes (bind m f) s (Err e) d l.
  Proof. intros (s1 & E & H). exists s1. unfold bind. rewrite E. auto. Qed.
  Lemma goes_pure {X} (m : M SD X) r s l : DW s l -> m s = (r, s) -> goes m s r (d_items s) l.
  Proof. intros HI E. exists s. auto. Qed.

  (** ** Reading *)
  Lemma w_get_items (s : SD) l : dk (d_items s) -> (forall p, In p l -> In p (d_items s)) ->
    mapM (fun k => v <- sd_getitem eqb k ;; ret (k, v)) (keys l) s = (Ok l, s).
  Proof.
    intros HD. induction l as [|p l IH]; intros Hin; [reflexivity|]. cbn. unfold bind at 1 2.
    rewrite (getitem_ok eqb _ _ _ (lookup_self eqb HE p _ HD (Hin p (or_introl eq_refl)))). unfold ret at 1, bind at 1.
    rewrite IH by (intros q Hq; apply Hin; right; exact Hq). destruct p; reflexivity.
  Qed.
  Lemma w_get_values (s : SD) l : dk (d_items s) -> (forall p, In p l -> In p (d_items s)) ->
    mapM (sd_getitem eqb) (keys l) s = (Ok (map snd l), s).
  Proof.
    intros HD. induction l as [|p l IH]; intros Hin; [reflexivity|]. cbn [map mapM]. unfold bind at 1.
    rewrite (getitem_ok eqb _ _ _ (lookup_self eqb HE p _ HD (Hin p (or_introl eq_refl)))). unfold bind at 1.
    rewrite IH by (intros q Hq; apply Hin; right; exact Hq). reflexivity.
  Qed.
  Lemma w_iter_ok (s : SD) l : DW s l -> sd_iter T s = (Ok (keys l), s).
  Proof. intros (HR & _). unfold sd_iter, onkeys, zoom. rewrite (w_iter _ _ _ _ HK _ _ HR). destruct s; reflexivity. Qed.
  Lemma w_rev_ok (s : SD) l : DW s l -> sd_reversed T s = (Ok (rev (keys l)), s).
  Proof. intros (HR & _). unfold sd_reversed, onkeys, zoom. rewrite (w_reversed _ _ _ _ HK _ _ HR). destruct s; reflexivity. Qed.
  Lemma w_items_ok (s : SD) l : DW s l -> sd_items T eqb s = (Ok l, s).
  Proof.
    intros HI. unfold sd_items, bind at 1. rewrite (w_iter_ok s l HI). apply w_get_items; [apply HI|intros; eapply dw_In; eauto].
  Qed.
  Lemma w_values_ok (s : SD) l : DW s l -> sd_values T eqb s = (Ok (map snd l), s).
  Proof.
    intros HI. unfold sd_values, bind at 1. rewrite (w_iter_ok s l HI). apply w_get_values; [apply HI|intros; eapply dw_In; eauto].
  Qed.
  Lemma w_read {X} (m : M S X) r s l : DW s l ->
    (forall x l, R x l -> exists x', m x = (r l, x') /\ R x' l) ->
    goes (onkeys m) s (r (keys l)) (d_items s) l.
  Proof.
    intros (HR & HP & HD) H. destruct (H _ _ HR) as (x' & E & HR'). unfold goes, onkeys, zoom. rewrite E.
    eexists. split; [reflexivity|]. split; [reflexivity|]. split; auto.
  Qed.
  Lemma w_key_at i (s : SD) l : DW s l -> goes (onkeys (l_get T i)) s (rmap fst (getz l i)) (d_items s) l.
  Proof. intros HI. rewrite <- getz_map. apply (w_read _ (fun l => getz l i)); [exact HI|]. intros x k Hx. apply (w_get _ _ _ _ HK i x k Hx). Qed.
  Lemma w_key_slice sl (s : SD) l : DW s l -> goes (onkeys (l_slice T sl)) s (rmap (map fst) (sp_slice sl l)) (d_items s) l.
  Proof. intros HI. rewrite <- sp_slice_map. apply (w_read _ (fun l => sp_slice sl l)); [exact HI|]. intros x k Hx. apply (w_slice _ _ _ _ HK sl x k Hx). Qed.
  Lemma w_item_at i (s : SD) l : DW s l ->
    goes (k <- onkeys (l_get T i) ;; v <- sd_getitem eqb k ;; ret (k, v)) s (getz l i) (d_items s) l.
  Proof.
    intros HI. pose proof (w_key_at i s l HI) as H. destruct (getz l i) as [p|e] eqn:E; cbn in H.
    - eapply goes_bind; [exact H|]. intros s' Hd HI'. rewrite <- Hd. apply goes_pure; [exact HI'|].
      apply getz_In in E. apply (dw_In s' l p HI') in E. unfold bind.
      rewrite (getitem_ok eqb _ _ _ (lookup_self eqb HE p _ (proj2 (proj2 HI')) E)). destruct p; reflexivity.
    - apply goes_bind_err, H.
  Qed.
  Lemma w_value_at i (s : SD) l : DW s l ->
    goes (k <- onkeys (l_get T i) ;; sd_getitem eqb k) s (rmap snd (getz l i)) (d_items s) l.
  Proof.
    intros HI. pose proof (w_key_at i s l HI) as H. destruct (getz l i) as [p|e] eqn:E; cbn in H |- *.
    - eapply goes_bind; [exact H|]. intros s' Hd HI'. rewrite <- Hd. apply goes_pure; [exact HI'|].
      apply getz_In in E. apply (dw_In s' l p HI') in E.
      rewrite (getitem_ok eqb _ _ _ (lookup_self eqb HE p _ (proj2 (proj2 HI')) E)). reflexivity.
    - apply goes_bind_err, H.
  Qed.
  Lemma w_iv_slice sl (s : SD) l : DW s l -> goes (iv_slice T eqb sl) s (sp_slice sl l) (d_items s) l.
  Proof.
    intros HI. pose proof (w_key_slice sl s l HI) as H. unfold iv_slice. destruct (sp_slice sl l) as [l1|e] eqn:E; cbn in H.
    - eapply goes_bind; [exact H|]. intros s' Hd HI'. rewrite <- Hd. apply goes_pure; [exact HI'|].
      apply w_get_items; [apply HI'|]. intros p Hp. eapply dw_In; [exact HI'|]. eapply sp_slice_In; eauto.
    - apply goes_bind_err, H.
  Qed.
  Lemma w_vv_slice sl (s : SD) l : DW s l -> goes (vv_slice T eqb sl) s (rmap (map snd) (sp_slice sl l)) (d_items s) l.
  Proof.
    intros HI. pose proof (w_key_slice sl s l HI) as H. unfold vv_slice. destruct (sp_slice sl l) as [l1|e] eqn:E; cbn in H |- *.
    - eapply goes_bind; [exact H|]. intros s' Hd HI'. rewrite <- Hd. apply goes_pure; [exact HI'|].
      apply w_get_values; [apply HI'|]. intros p Hp. eapply dw_In; [exact HI'|]. eapply sp_slice_In; eauto.
    - apply goes_bind_err, H.
  Qed.
  Lemma w_view_reversed {X} (at_ : Z -> M SD X) (f : A * B -> X) (s : SD) l : DW s l ->
    (forall i s', DW s' l -> goes (at_ i) s' (rmap f (getz l i)) (d_items s') l) ->
    goes (view_reversed at_) s (Ok (rev (map f l))) (d_items s) l.
  Proof.
    intros HI H. unfold view_reversed. eapply goes_bind; [apply goes_pure; [exact HI|reflexivity]|].
    intros s0 Hd0 HI0. rewrite <- Hd0. clear s HI Hd0. rename s0 into s, HI0 into HI.
    rewrite <- (Permutation_length (proj1 (proj2 HI))).
    assert (G : forall m s', m <= length l -> d_items s' = d_items s -> DW s' l ->
      goes (mapM (fun i => at_ (Z.of_nat i)) (rev (seq 0 m))) s' (Ok (rev (map f (firstn m l)))) (d_items s') l).
    { induction m as [|m IH]; intros s' Hm Hd HI'; [apply goes_pure; [exact HI'|reflexivity]|].
      rewrite seq_S, rev_app_distr. cbn [rev app mapM plus].
      destruct (nth_error l m) as [p|] eqn:Ep; [|apply nth_error_None in Ep; lia].
      pose proof (H (Z.of_nat m) s' HI') as H1.
      assert (Eg : getz l (Z.of_nat m) = Ok p).
      { unfold getz. destruct (Z.ltb_spec (Z.of_nat m) 0); [lia|]. destruct (Z.ltb_spec (Z.of_nat m) 0); [lia|].
        unfold getn. rewrite Nat2Z.id, Ep. reflexivity. }
      rewrite Eg in H1. cbn in H1. eapply goes_bind; [exact H1|]. intros s2 Hd2 HI2.
      eapply goes_bind; [apply IH; [lia|congruence|exact HI2]|]. intros s3 Hd3 HI3.
      replace (rev (map f (firstn (Datatypes.S m) l))) with (f p :: rev (map f (firstn m l))).
      - replace (d_items s') with (d_items s3) by congruence. apply goes_pure; [exact HI3|reflexivity].
      - rewrite <- (rev_involutive (f p :: _)). f_equal. cbn. rewrite rev_involutive.
        change [f p] with (map f [p]). rewrite <- map_app. f_equal.
        clear - Ep. revert m Ep. induction l as [|q l IH]; intros [|m] Ep; cbn in *; try discriminate; [congruence|].
        f_equal. apply IH, Ep. }
    specialize (G (length l) s (le_n _) eq_refl HI). rewrite firstn_all in G. exact G.
  Qed.

  (** ** Storing and erasing *)
  Lemma store_perm k v (l d : map_t) : Permutation l d -> dk d -> lookup eqb k l <> None ->
    Permutation (store eqb k v l) (store eqb k v d).
  Proof.
    intros HP HD Hk. unfold store.
    rewrite <- (lookup_perm eqb HE k l d HP) by (eapply dk_perm; [exact HE|symmetry; exact HP|exact HD]).
    destruct (lookup eqb k l); [|congruence]. apply Permutation_map, HP.
  Qed.
  Lemma wsetitem k v (s : SD) l : DW s l ->
    (exists s' l', sd_setitem T eqb k v s = (Ok tt, s') /\ d_items s' = store eqb k v (d_items s) /\ DW s' l' /\
       (lookup eqb k l <> None -> l' = store eqb k v l)) \/
    (exists e s', sd_setitem T eqb k v s = (Err e, s') /\ raised e /\ d_items s' = d_items s /\ DW s' l).
  Proof.
    intros HI. pose proof HI as (HR & HP & HD). unfold sd_setitem, items_of, put_items, modify, bind, get, ret.
    rewrite d_mem_lookup, d_set_store, <- (dw_lookup s l k HI).
    pose proof (store_keys eqb k v (d_items s)) as Ek. pose proof (store_dk eqb k v _ HD) as HD'.
    rewrite <- (dw_lookup s l k HI) in Ek.
    destruct (lookup eqb k l) eqn:E.
    - left. eexists _, (store eqb k v l). split; [reflexivity|]. split; [reflexivity|]. split; [|auto]. split; [|split; [|exact HD']]; cbn [d_list d_items].
      + rewrite store_keys, E. exact HR.
      + apply store_perm; auto. congruence.
    - unfold onkeys, zoom. destruct (w_add _ _ _ _ HK k _ _ HR) as [(x & ks & Ex & HR' & Hp)|(e & x & Ex & Hr & HR')]; rewrite Ex.
      + left. destruct (dw_of (mksd (store eqb k v (d_items s)) x) ks HR') as (l' & HI' & _); cbn [d_items]; [|exact HD'|].
        * rewrite Ek, Hp, HP. apply Permutation_cons_append.
        * eexists _, l'. split; [reflexivity|]. split; [reflexivity|]. split; [exact HI'|congruence].
      + right. eexists e, _. split; [reflexivity|]. split; [exact Hr|]. split; [reflexivity|]. split; auto.
  Qed.
  Lemma wset_each ps : forall (s : SD) l, DW s l ->
    exists r s' l' a b, forM (fun p => sd_setitem T eqb (fst p) (snd p)) ps s = (r, s') /\ DW s' l' /\ ps = a ++ b /\
      d_items s' = merge eqb (d_items s) a /\ ((r = Ok tt /\ b = []) \/ (exists e, r = Err e /\ raised e)).
  Proof.
    induction ps as [|[k v] ps IH]; intros s l HI; cbn [forM fst snd].
    - exists (Ok tt), s, l, [], []. split; [reflexivity|]. auto 8.
    - unfold bind. destruct (wsetitem k v s l HI) as [(s1 & l1 & E & Hd & HI1 & _)|(e & s1 & E & Hr & Hd & HI1)]; rewrite E.
      + destruct (IH s1 l1 HI1) as (r & s' & l' & a & b & E2 & HI2 & -> & Hd2 & H). exists r, s', l', ((k, v) :: a), b.
        split; [exact E2|]. split; [exact HI2|]. split; [reflexivity|]. split; [rewrite Hd2, Hd; reflexivity|exact H].
      + exists (Err e), s1, l, [], ((k, v) :: ps). split; [reflexivity|]. split; [exact HI1|]. split; [reflexivity|].
        split; [exact Hd|]. right. eauto.
  Qed.
  Lemma werase_inv k (s : SD) l x : DW s l -> R x (set_del eqb k (keys l)) -> DW (mksd (erase eqb k (d_items s)) x) (erase eqb k l).
  Proof.
    intros (_ & HP & HD) HR. split; cbn [d_list d_items]; [rewrite erase_keys; exact HR|]. split; [|apply erase_dk; exact HD].
    apply filter_perm, HP.
  Qed.
  Lemma wremove_key k (s : SD) l (d : map_t) v : DW s l -> lookup eqb k (d_items s) = Some v ->
    (exists x, onkeys (l_remove T k) (mksd d (d_list s)) = (Ok tt, mksd d x) /\ R x (set_del eqb k (keys l))) \/
    (exists e x, onkeys (l_remove T k) (mksd d (d_list s)) = (Err e, mksd d x) /\ (raised e \/ e = ValueError) /\ R x (keys l)).
  Proof.
    intros HI El. pose proof HI as [HR _]. unfold onkeys, zoom. cbn [d_list].
    destruct (w_remove _ _ _ _ HK k _ _ HR) as [(x & a & y & b & Ex & Ha & HR' & Ey)|(e & x & Ex & Hr & HR')]; rewrite Ex.
    - left. exists x. split; [reflexivity|]. rewrite Ha, (set_del_mid eqb HE k a y b); [exact HR'| |exact Ey].
      rewrite <- Ha. exact (dw_dk s l HI).
    - right. exists e, x. auto.
  Qed.
  Lemma wdelitem k (s : SD) l : DW s l ->
    match lookup eqb k (d_items s) with
    | None => sd_delitem T eqb k s = (Err KeyError, s)
    | Some _ =>
        goes (sd_delitem T eqb k) s (Ok tt) (erase eqb k (d_items s)) (erase eqb k l) \/
        exists e s', sd_delitem T eqb k s = (Err e, s') /\ (raised e \/ e = ValueError) /\
          d_items s' = erase eqb k (d_items s) /\ R (d_list s') (keys l)
    end.
  Proof.
    intros HI. unfold goes, sd_delitem. unfold bind. destruct (lookup eqb k (d_items s)) as [v|] eqn:E.
    - rewrite dict_delitem_ok by congruence.
      destruct (wremove_key k s l (erase eqb k (d_items s)) v HI E) as [(x & Ex & HR)|(e & x & Ex & Hr & HR)]; rewrite Ex.
      + left. eexists. split; [reflexivity|]. split; [reflexivity|]. apply werase_inv; assumption.
      + right. eexists e, _. split; [reflexivity|]. auto.
    - unfold dict_delitem, items_of, bind, get, ret. rewrite d_mem_lookup, E. reflexivity.
  Qed.
  Lemma wdpop k dv (s : SD) l : DW s l ->
    match lookup eqb k (d_items s) with
    | None => sd_pop T eqb k dv s = (match dv with Some v => Ok v | None => Err KeyError end, s)
    | Some v =>
        goes (sd_pop T eqb k dv) s (Ok v) (erase eqb k (d_items s)) (erase eqb k l) \/
        exists e, (raised e \/ e = ValueError) /\ goes (sd_pop T eqb k dv) s (Err e) (d_items s) l
    end.
  Proof.
    intros HI. unfold goes. pose proof (d_mem_lookup eqb k (d_items s)) as Em.
    destruct (lookup eqb k (d_items s)) as [v|] eqn:E.
    2:{ unfold sd_pop, items_of, bind, get, ret. rewrite Em. destruct dv; reflexivity. }
    assert (E0 : sd_pop T eqb k dv s = (onkeys (l_remove T k) ;;; v <- sd_getitem eqb k ;; dict_delitem eqb k ;;; ret v) s)
      by (unfold sd_pop, items_of, bind, get, ret; rewrite Em; reflexivity).
    rewrite E0. clear E0 Em.
    destruct s as [d y]. cbn [d_items d_list] in *.
    destruct (wremove_key k (mksd d y) l d v HI E) as [(x & Ex & HR)|(e & x & Ex & Hr & HR)]; cbn [d_list] in Ex.
    - left. unfold bind at 1. rewrite Ex. unfold bind at 1. rewrite (getitem_ok eqb k (mksd d x) v E). unfold bind at 1.
      rewrite dict_delitem_ok by (cbn; congruence). cbn. eexists. split; [reflexivity|]. split; [reflexivity|].
      apply (werase_inv k (mksd d y)); assumption.
    - right. exists e. split; [exact Hr|]. unfold bind at 1. rewrite Ex. eexists. split; [reflexivity|]. split; [reflexivity|].
      split; [exact HR|]. exact (proj2 HI).
  Qed.
  Lemma wpop_pos i (s : SD) l : DW s l ->
    (exists p x, getz l i = Ok p /\ onkeys (l_pop T i) s = (Ok (fst p), mksd (d_items s) x) /\
       In p (d_items s) /\ R x (set_del eqb (fst p) (keys l))) \/
    (getz l i = Err IndexError /\ goes (onkeys (l_pop T i)) s (Err IndexError) (d_items s) l).
  Proof.
    intros HI. pose proof HI as (HR & HP & HD). destruct (w_pop _ _ _ _ HK i _ _ HR) as (x & Ex & HR').
    pose proof (getz_map fst l i) as Eg.
    unfold sp_pop in *. destruct (sp_del_cases (keys l) i) as [(a & y & b & Ha & _ & Ed & Ey)|(_ & Ed & Ey)];
      rewrite Ed, Ey in *; cbn [fst snd] in *.
    - left. destruct (getz l i) as [p|] eqn:Ep; [|discriminate]. injection Eg as ->.
      exists p, x. split; [reflexivity|]. unfold onkeys, zoom. rewrite Ex. split; [reflexivity|].
      split; [eapply dw_In; [exact HI|]; eapply getz_In; eauto|]. rewrite Ha.
      rewrite (set_del_mid eqb HE); [exact HR'| |apply (eqv_refl HE)]. rewrite <- Ha. exact (dw_dk s l HI).
    - right. destruct (getz l i) as [p|e] eqn:Ep; [discriminate|]. injection Eg as <-. split; [reflexivity|].
      unfold goes, onkeys, zoom. rewrite Ex. eexists. split; [reflexivity|]. split; [reflexivity|]. split; auto.
  Qed.
  Lemma wview_del i (s : SD) l : DW s l -> goes (view_del T eqb i) s (rmap (fun _ => tt) (getz l i))
    (match getz l i with Ok p => erase eqb (fst p) (d_items s) | Err _ => d_items s end)
    (match getz l i with Ok p => erase eqb (fst p) l | Err _ => l end).
  Proof.
    intros HI. unfold view_del. destruct (wpop_pos i s l HI) as [(p & x & Eg & Ex & Hp & HR)|[Eg H]]; rewrite Eg; cbn.
    - unfold goes, bind. rewrite Ex, dict_delitem_ok.
      2:{ cbn. rewrite (lookup_self eqb HE p _ (proj2 (proj2 HI)) Hp). discriminate. }
      cbn [d_items d_list]. eexists. split; [reflexivity|]. split; [reflexivity|]. apply werase_inv; assumption.
    - apply goes_bind_err, H.
  Qed.
  Lemma wpopitem i (s : SD) l : DW s l -> d_items s <> [] -> goes (sd_popitem T eqb i) s (getz l i)
    (match getz l i with Ok p => erase eqb (fst p) (d_items s) | Err _ => d_items s end)
    (match getz l i with Ok p => erase eqb (fst p) l | Err _ => l end).
  Proof.
    intros HI Hn. unfold sd_popitem. unfold goes, items_of, get, ret. unfold bind at 1 2.
    destruct (Nat.eqb_spec (length (d_items s)) 0) as [E0|_]; [apply length_zero_iff_nil in E0; contradiction|].
    destruct (wpop_pos i s l HI) as [(p & x & Eg & Ex & Hp & HR)|[Eg H]]; rewrite Eg; cbn.
    - pose proof (lookup_self eqb HE p _ (proj2 (proj2 HI)) Hp) as El.
      unfold bind at 1. rewrite Ex. unfold bind at 1. rewrite (getitem_ok eqb (fst p) (mksd (d_items s) x) (snd p) El).
      unfold bind at 1. rewrite dict_delitem_ok by (cbn; congruence). cbn. rewrite <- surjective_pairing.
      eexists. split; [reflexivity|]. split; [reflexivity|]. apply werase_inv; assumption.
    - eapply goes_bind_err in H. exact H.
  Qed.
  Lemma w_del_each (ps : map_t) : forall (d : map_t) x, dk d -> dk ps -> (forall p, In p ps -> In p d) ->
    forM (dict_delitem eqb) (keys ps) (mksd (S:=S) d x) =
    (Ok tt, mksd (filter (fun p => negb (existsb (same eqb (fst p)) ps)) d) x).
  Proof.
    induction ps as [|p ps IH]; intros d x HD HP Hin; cbn [map forM existsb].
    - assert (Et : filter (fun _ => negb false) d = d).
      { clear. induction d as [|q d IH]; [reflexivity|]. cbn in *. rewrite IH. reflexivity. }
      rewrite Et. reflexivity.
    - unfold bind. rewrite dict_delitem_ok.
      2:{ cbn. rewrite (lookup_self eqb HE p d HD (Hin p (or_introl eq_refl))). discriminate. }
      cbn [d_items d_list]. destruct HP as [HP1 HP2]. rewrite IH.
      + do 2 f_equal. unfold erase. rewrite filter_filter. apply filter_ext. intros q. unfold same at 1 3.
        rewrite (eqb_sym eqb HE (fst q)). destruct (eqb (fst p) (fst q)); reflexivity.
      + apply erase_dk, HD.
      + exact HP2.
      + intros q Hq. unfold erase. apply filter_In. split; [apply Hin; right; exact Hq|]. unfold same.
        rewrite (eqb_sym eqb HE), HP1; [reflexivity|]. apply in_map, Hq.
  Qed.
  Lemma wview_del_slice sl (s : SD) l : DW s l ->
    match sp_slice sl l with
    | Err e => goes (view_del_slice T eqb sl) s (Err e) (d_items s) l
    | Ok ps =>
        (exists l', goes (view_del_slice T eqb sl) s (Ok tt) (filter (fun p => negb (existsb (same eqb (fst p)) ps)) (d_items s)) l') \/
        (exists e s' l1, view_del_slice T eqb sl s = (Err e, s') /\ raised e /\ d_items s' = d_items s /\ R (d_list s') [] /\
           sp_del_slice sl (keys l) = Ok l1)
    end.
  Proof.
    intros HI. pose proof (w_key_slice sl s l HI) as H. unfold view_del_slice.
    destruct (sp_slice sl l) as [ps|e] eqn:E; cbn in H |- *; [|apply goes_bind_err, H].
    destruct H as (s1 & E1 & Hd & HI1). unfold goes. unfold bind at 1 3. rewrite E1. rewrite <- Hd in *. clear s HI E1 Hd. rename s1 into s, HI1 into HI.
    pose proof HI as (HR & HP & HD).
    assert (Ek : sp_slice sl (keys l) = Ok (keys ps)) by (rewrite sp_slice_map, E; reflexivity).
    destruct (slice_diff eqb HE sl _ _ (dw_dk s l HI) Ek) as (l1 & El1 & Ediff).
    unfold bind. unfold onkeys, zoom.
    destruct (w_del_slice _ _ _ _ HK sl _ _ HR) as [(e & s' & Ee & _)|(l1' & El1' & [(x & ks & Ex & HR' & Hp)|(e & x & Ex & Hr & HR')])];
      [congruence| |]; rewrite Ex; rewrite El1 in El1'; injection El1' as <-.
    - left. rewrite w_del_each.
      + set (d' := filter _ (d_items s)).
        destruct (dw_of (mksd d' x) ks HR') as (l' & HI' & _).
        * cbn [d_items]. rewrite Hp, <- Ediff. unfold d'. rewrite (set_diff_filter eqb HE).
          rewrite <- (Permutation_map fst (filter_perm (fun p => negb (existsb (same eqb (fst p)) ps)) _ _ HP)).
          replace (keys (filter _ l)) with (filter (fun y => negb (set_mem eqb y (keys ps))) (keys l)); [reflexivity|].
          rewrite filter_map_comm. f_equal. apply filter_ext. intros p. f_equal. unfold set_mem, same. clear.
          induction ps as [|q ps IH]; [reflexivity|]. cbn. rewrite IH. reflexivity.
        * apply filter_dk, HD.
        * exists l'. eexists. split; [reflexivity|]. split; [reflexivity|exact HI'].
      + exact HD.
      + eapply slice_distinct; [exact HE|exact (dw_dk s l HI)|exact Ek].
      + intros p Hp1. eapply dw_In; [exact HI|]. eapply sp_slice_In; eauto.
    - right. eexists e, _, l1. split; [reflexivity|]. auto.
  Qed.
  Lemma wsetdefault k v (s : SD) l : DW s l ->
    match lookup eqb k (d_items s) with
    | Some w => sd_setdefault T eqb k v s = (Ok w, s)
    | None =>
        (exists s' l', sd_setdefault T eqb k v s = (Ok v, s') /\ d_items s' = store eqb k v (d_items s) /\ DW s' l') \/
        (exists e s', sd_setdefault T eqb k v s = (Err e, s') /\ raised e /\ d_items s' = d_items s ++ [(k, v)] /\ R (d_list s') (keys l))
    end.
  Proof.
    intros HI. pose proof HI as (HR & HP & HD). pose proof (d_mem_lookup eqb k (d_items s)) as Em. pose proof (store_keys eqb k v (d_items s)) as Ek. pose proof (store_dk eqb k v _ HD) as HD'.
    destruct (lookup eqb k (d_items s)) as [w|] eqn:E.
    - unfold sd_setdefault, items_of, bind, get, ret. rewrite Em. apply getitem_ok, E.
    - assert (E0 : sd_setdefault T eqb k v s = (put_items (d_set eqb k v (d_items s)) ;;; onkeys (l_add T k) ;;; ret v) s)
        by (unfold sd_setdefault, items_of, bind, get, ret; rewrite Em; reflexivity).
      rewrite E0, d_set_store. unfold bind, ret, put_items, modify, onkeys, zoom. cbn [d_list d_items].
      destruct (w_add _ _ _ _ HK k _ _ HR) as [(x & ks & Ex & HR' & Hp)|(e & x & Ex & Hr & HR')]; rewrite Ex.
      + left. destruct (dw_of (mksd (store eqb k v (d_items s)) x) ks HR') as (l' & HI' & _); cbn [d_items]; [|exact HD'|].
        * rewrite Ek, Hp, HP. apply Permutation_cons_append.
        * eexists _, l'. split; [reflexivity|]. split; [reflexivity|exact HI'].
      + right. eexists e, _. split; [reflexivity|]. split; [exact Hr|]. split; [|exact HR']. cbn. unfold store. rewrite E. reflexivity.
  Qed.
  Lemma wdclear (s : SD) l : DW s l -> goes (sd_clear T) s (Ok tt) [] [].
  Proof.
    intros (HR & _). unfold goes, sd_clear, put_items, modify, bind, onkeys, zoom. cbn [d_list d_items].
    destruct (w_clear _ _ _ _ HK _ _ HR) as (x & Ex & HR'). rewrite Ex.
    eexists. split; [reflexivity|]. split; [reflexivity|]. split; [exact HR'|]. split; [constructor|exact I].
  Qed.

  (** ** Update *)
  Lemma wfill (d : map_t) x : dk d -> R x [] ->
    (exists l, goes (keys_update T) (mksd d x) (Ok tt) d l) \/
    (exists e s', keys_update T (mksd d x) = (Err e, s') /\ raised e /\ d_items s' = d /\ R (d_list s') []).
  Proof.
    intros HD HR. unfold goes, keys_update, items_of, bind, get, ret, onkeys, zoom. cbn [d_list d_items].
    destruct (w_update _ _ _ _ HK (keys d) _ HR) as [(y & ks & Ey & HR' & Hp)|(e & y & Ey & Hr & HR')]; rewrite Ey.
    - left. destruct (dw_of (mksd d y) ks HR' Hp HD) as (l & HI & _). exists l. eexists. split; [reflexivity|]. split; [reflexivity|exact HI].
    - right. eexists e, _. split; [reflexivity|]. auto.
  Qed.
  Lemma wdupdate a (s : SD) l : DW s l ->
    (exists l', goes (sd_update T eqb a) s (Ok tt) (merge eqb (d_items s) (pairs_of a)) l') \/
    (exists e s' ks, sd_update T eqb a s = (Err e, s') /\ raised e /\ R (d_list s') ks /\
       ((d_items s' = merge eqb (d_items s) (pairs_of a) /\ ks = []) \/
        (exists ps qs, ps ++ qs = match a with ADict l => l | APairs l => merge eqb [] l end /\
           d_items s' = merge eqb (d_items s) ps /\ Permutation ks (keys (d_items s'))))).
  Proof.
    intros HI. pose proof HI as (HR & HP & HD).
    set (pairs := match a with ADict ps => ps | APairs ps => d_of eqb ps end).
    assert (E1 : sd_update T eqb a s =
      (if length (d_items s) =? 0 then put_items (d_update eqb (d_items s) (pairs_of a)) ;;; keys_update T
       else if length (d_items s) <? 10 * length pairs then put_items (d_update eqb (d_items s) pairs) ;;; onkeys (l_clear T) ;;; keys_update T
       else forM (fun p => sd_setitem T eqb (fst p) (snd p)) pairs) s) by reflexivity.
    unfold goes. rewrite E1. clear E1.
    destruct (Nat.eqb_spec (length (d_items s)) 0) as [E0|E0].
    - apply length_zero_iff_nil in E0. rewrite E0 in *. rewrite d_update_merge.
      assert (l = []) as -> by (apply Permutation_nil; symmetry; exact HP).
      unfold bind, put_items, modify. cbn [d_list].
      destruct (wfill (merge eqb [] (pairs_of a)) (d_list s) (merge_dk eqb _ _ HD) HR) as [(l' & s' & E & Hd & HI')|(e & s' & E & Hr & Hd & HR')].
      + left. exists l', s'. auto.
      + right. exists e, s', []. auto 8.
    - assert (Em : merge eqb (d_items s) pairs = merge eqb (d_items s) (pairs_of a)).
      { unfold pairs. destruct a; [reflexivity|]. cbn. unfold d_of. rewrite d_update_merge. apply merge_of, HE. }
      assert (Ep : pairs = match a with ADict l => l | APairs l => merge eqb [] l end).
      { unfold pairs. destruct a; [reflexivity|]. unfold d_of. apply d_update_merge. }
      destruct (Nat.ltb_spec (length (d_items s)) (10 * length pairs)) as [Hb|Hb].
      + rewrite d_update_merge, Em. unfold bind, put_items, modify, onkeys, zoom. cbn [d_list d_items].
        destruct (w_clear _ _ _ _ HK _ _ HR) as (x & Ex & HR1). rewrite Ex.
        destruct (wfill (merge eqb (d_items s) (pairs_of a)) x (merge_dk eqb _ _ HD) HR1) as [(l' & s' & E & Hd & HI')|(e & s' & E & Hr & Hd & HR')].
        * left. exists l', s'. auto.
        * right. exists e, s', []. auto 8.
      + destruct (wset_each pairs s l HI) as (r & s' & l' & ps & qs & E & HI' & Hpq & Hd & [[-> ->]|(e & -> & Hr)]).
        * left. exists l', s'. split; [exact E|]. split; [|exact HI']. rewrite app_nil_r in Hpq. rewrite Hd, <- Em, Hpq. reflexivity.
        * right. exists e, s', (keys l'). split; [exact E|]. split; [exact Hr|]. pose proof HI' as (HR' & HP' & _). split; [exact HR'|].
          right. exists ps, qs. split; [congruence|]. split; [exact Hd|]. apply Permutation_map, HP'.
  Qed.
  Lemma wdnew a :
    (exists s l, sd_new T eqb a = Ok s /\ d_items s = merge eqb [] (pairs_of a) /\ DW s l) \/
    (exists e, sd_new T eqb a = Err e /\ raised e).
  Proof.
    unfold sd_new. destruct (w_new _ _ _ _ HK []) as [(x & l & Ex & HR & Hp)|(e & Ex & Hr)]; rewrite Ex; cbn [rbind]; [|right; eauto].
    symmetry in Hp. apply Permutation_nil in Hp as ->.
    destruct (wdupdate a (mksd [] x) []) as [(l' & s & E & Hd & HI)|(e & s & ks & E & Hr & _)].
    - split; [exact HR|]. split; [constructor|exact I].
    - left. rewrite E. exists s, l'. auto.
    - right. rewrite E. eauto.
  Qed.

  (** ** One step *)
  Definition dwent (o : dop A B K) (s : SD) (l : map_t) (r : dout A B) (s' : SD) : Prop :=
    (exists l', DW s' l' /\ weak_deffect eqb veqb o (d_items s) l r (d_items s') l') \/
    (exists e ks', r = cut_result o e /\ (raised e \/ (e = ValueError /\ dmay_miss o)) /\ R (d_list s') ks' /\ dk (d_items s') /\
       dict_failed eqb o (d_items s) (keys l) (d_items s') ks').

  Lemma w_eq_ok d o : dk d -> dk o -> d_equal eqb veqb d o =
    (forallb (fun p => match lookup eqb (fst p) o with Some w => veqb (snd p) w | None => false end) d &&
     forallb (fun p => match lookup eqb (fst p) d with Some _ => true | None => false end) o)%bool.
  Proof.
    intros Hd Ho. unfold d_equal.
    replace (forallb (fun p => match find (fun q => eqb (fst q) (fst p)) o with Some q => veqb (snd p) (snd q) | None => false end) d)
      with (forallb (fun p => match lookup eqb (fst p) o with Some w => veqb (snd p) w | None => false end) d).
    2:{ clear. induction d as [|p d IH]; [reflexivity|]. cbn. rewrite IH. f_equal. unfold lookup, same.
        destruct (find _ o); reflexivity. }
    destruct (forallb (fun p => match lookup eqb (fst p) o with Some w => veqb (snd p) w | None => false end) d) eqn:F;
      [|rewrite andb_false_r; reflexivity].
    rewrite andb_true_r. cbn [andb].
    assert (Hsub : forall (a b : map_t), (forall p, In p a -> lookup eqb (fst p) b <> None) <-> subset eqb (keys a) (keys b)).
    { intros a b. split.
      - intros H k (k' & Hk & E). apply in_map_iff in Hk. destruct Hk as (p & <- & Hp).
        apply (mem_eqb eqb HE _ _ _ E). destruct (mem_dec eqb (fst p) (keys b)) as [Hm|Hm]; [exact Hm|].
        apply lookup_mem in Hm. destruct (H p Hp Hm).
      - intros H p Hp E. apply lookup_mem in E. apply E, H. exists (fst p). split; [apply in_map, Hp|apply (eqv_refl HE)]. }
    assert (Hs : subset eqb (keys d) (keys o)).
    { apply Hsub. intros p Hp E. rewrite forallb_forall in F. specialize (F p Hp). rewrite E in F. discriminate. }
    assert (Hf : forallb (fun p => match lookup eqb (fst p) d with Some _ => true | None => false end) o = true <->
                 subset eqb (keys o) (keys d)).
    { rewrite <- Hsub, forallb_forall. split; intros H p Hp; specialize (H p Hp); destruct (lookup eqb (fst p) d); congruence. }
    pose proof (pigeon eqb HE _ Hd _ Hs) as L. rewrite !map_length in L.
    destruct (forallb _ o) eqn:G.
    - apply Nat.eqb_eq. assert (subset eqb (keys o) (keys d)) as Hb by (apply Hf; reflexivity).
      pose proof (pigeon eqb HE _ Ho _ Hb) as L'. rewrite !map_length in L'. lia.
    - apply Nat.eqb_neq. intros El. assert (Hb : false = true); [|discriminate]. apply Hf.
      apply (pigeon_back eqb HE); [exact Hd|exact Hs|]. rewrite !map_length. lia.
  Qed.
  Lemma wdstep o (s : SD) l : DW s l -> dop_ok eqb o ->
    exists r s', sd_step T eqb veqb o s = (r, s') /\ dwent o s l r s'.
  Proof.
    intros HI Ho. pose proof HI as (HR & HP & HD).
    assert (OK : forall r s' l', DW s' l' -> weak_deffect eqb veqb o (d_items s) l r (d_items s') l' -> dwent o s l r s')
      by (intros r s' l' H1 H2; left; exists l'; auto).
    assert (NO : forall e s' ks', R (d_list s') ks' -> raised e \/ (e = ValueError /\ dmay_miss o) -> dk (d_items s') ->
       dict_failed eqb o (d_items s) (keys l) (d_items s') ks' -> dwent o s l (cut_result o e) s')
      by (intros e s' ks' H1 H2 H3 H4; right; exists e, ks'; split; [reflexivity|]; auto).
    assert (GO : forall X (inj : X -> dout A B) m (x : res X) d' l', goes m s x d' l' ->
       weak_deffect eqb veqb o (d_items s) l (reply inj x) d' l' -> exists r s', dsee inj m s = (r, s') /\ dwent o s l r s').
    { intros X inj m x d' l' (s' & E & Hd & HI') Hw. exists (reply inj x), s'. unfold dsee. rewrite E.
      split; [destruct x; reflexivity|]. apply (OK _ _ l' HI'). rewrite Hd. exact Hw. }
    assert (PU : forall X (inj : X -> dout A B) m (x : res X), m s = (x, s) ->
       weak_deffect eqb veqb o (d_items s) l (reply inj x) (d_items s) l -> exists r s', dsee inj m s = (r, s') /\ dwent o s l r s').
    { intros X inj m x E Hw. apply (GO X inj m x (d_items s) l); [|exact Hw]. apply goes_pure; assumption. }
    assert (NW : forall (m : M SD map_t) (f : map_t -> darg A B) x, m s = (Ok x, s) ->
       (forall d1 k1, dict_failed eqb o d1 k1 d1 k1) -> (forall e, cut_result (B:=B) o e = OExn e) ->
       (forall l', weak_deffect eqb veqb o (d_items s) l ONone (merge eqb [] (pairs_of (f x))) l') ->
       exists r s', drebind (bind m (fun l => liftr (sd_new T eqb (f l)))) s = (r, s') /\ dwent o s l r s').
    { intros m f x E Hf Hcr Hw. unfold drebind, bind. rewrite E. unfold liftr.
      destruct (wdnew (f x)) as [(s' & l' & E' & Hd' & HI')|(e & E' & Hr)]; rewrite E'.
      - exists ONone, s'. split; [reflexivity|]. apply (OK _ _ l' HI'). rewrite Hd'. apply Hw.
      - exists (OExn e), s. split; [reflexivity|]. rewrite <- Hcr. apply (NO _ _ (keys l)); auto. }
    destruct o; cbn [sd_step].
    - destruct (wsetitem k v s l HI) as [(s' & l' & E & Hd & HI' & Hl)|(e & s' & E & Hr & Hd & HI')]; unfold dsee; rewrite E.
      + exists ONone, s'. split; [reflexivity|]. apply (OK _ _ l' HI'). split; [exact Hl|]. cbn. rewrite Hd. reflexivity.
      + exists (OExn e), s'. split; [reflexivity|]. apply (NO _ _ (keys l)); auto; [apply HI'..|]. cbn. auto.
    - pose proof (wdelitem k s l HI) as H. destruct (lookup eqb k (d_items s)) as [v|] eqn:E.
      + destruct H as [H|(e & s' & E' & Hr & Hd & HR')].
        * eapply GO; [exact H|]. split; [reflexivity|]. cbn. rewrite E. reflexivity.
        * unfold dsee. rewrite E'. exists (OExn e), s'. split; [reflexivity|]. apply (NO _ _ (keys l)); [exact HR'|destruct Hr as [Hr|Hr]; [left; exact Hr|right; split; [exact Hr|exact I]]|..].
          -- rewrite Hd. apply erase_dk, HD.
          -- cbn. split; [congruence|auto].
      + eapply PU; [exact H|]. split; cbn; [|rewrite E; reflexivity]. symmetry. apply filter_all. intros p Hp.
        apply lookup_None with (p:=p) in E; [|eapply dw_In; eauto]. unfold same. rewrite E. reflexivity.
    - eapply PU; [unfold sd_getitem, items_of, bind, get, ret, liftr; reflexivity|]. rewrite d_get_lookup. split; [reflexivity|]. cbn.
      destruct (lookup eqb k (d_items s)); reflexivity.
    - eapply PU; [unfold sd_get, items_of, bind, get, ret; reflexivity|]. rewrite d_get_lookup. split; [reflexivity|]. cbn.
      destruct (lookup eqb k (d_items s)); reflexivity.
    - eapply PU; [unfold sd_contains, items_of, bind, get, ret; reflexivity|]. rewrite d_mem_lookup. split; reflexivity.
    - eapply PU; [reflexivity|]. split; reflexivity.
    - eapply PU; [apply w_iter_ok, HI|]. split; reflexivity.
    - eapply PU; [apply w_rev_ok, HI|]. split; reflexivity.
    - eapply GO; [eapply wdclear, HI|]. split; reflexivity || exact I.
    - pose proof (wdpop k default s l HI) as H. destruct (lookup eqb k (d_items s)) as [v|] eqn:E.
      + destruct H as [H|(e & Hr & s' & E' & Hd & HI')].
        * eapply GO; [exact H|]. split; [reflexivity|]. cbn. rewrite E. destruct default; reflexivity.
        * unfold dsee. rewrite E'. exists (OExn e), s'. split; [reflexivity|].
          apply (NO _ _ (keys l)); [apply HI'|destruct Hr as [Hr|Hr]; [left; exact Hr|right; split; [exact Hr|exact I]]|apply HI'|]. cbn. auto.
      + eapply PU; [exact H|]. split; cbn.
        * symmetry. apply filter_all. intros p Hp. apply lookup_None with (p:=p) in E; [|eapply dw_In; eauto]. unfold same. rewrite E. reflexivity.
        * rewrite E. destruct default; reflexivity.
    - destruct (d_items s) as [|q d] eqn:Ed.
      + assert (l = []) as -> by (apply Permutation_nil; symmetry; exact HP).
        eapply PU; [unfold sd_popitem, items_of, bind, get, ret; rewrite Ed; reflexivity|]. split; [|reflexivity].
        cbn. destruct (getz [] i) as [p|] eqn:E; [|reflexivity]. apply getz_In in E as [].
      + rewrite <- Ed in *. assert (Hn : d_items s <> []) by congruence.
        eapply GO; [apply wpopitem; [exact HI|exact Hn]|]. split; cbn.
        * destruct (getz l i); reflexivity.
        * rewrite Ed. destruct (getz l i); reflexivity.
    - eapply GO; [apply w_item_at, HI|]. split; reflexivity.
    - pose proof (wsetdefault k default s l HI) as H. destruct (lookup eqb k (d_items s)) as [w|] eqn:E.
      + eapply PU; [exact H|]. split; [intros _; reflexivity|]. cbn. rewrite E. reflexivity.
      + unfold dsee. destruct H as [(s' & l' & E' & Hd & HI')|(e & s' & E' & Hr & Hd & HR')]; rewrite E'.
        * exists (OVal default), s'. split; [reflexivity|]. apply (OK _ _ l' HI'). split.
          -- cbn. rewrite (dw_lookup s l k HI), E. congruence.
          -- cbn. rewrite E, Hd. reflexivity.
        * exists (OExn e), s'. split; [reflexivity|]. apply (NO _ _ (keys l)); auto.
          -- rewrite Hd. pose proof (store_dk eqb k default _ HD) as HD'. unfold store in HD'. rewrite E in HD'. exact HD'.
          -- cbn. auto.
    - destruct (wdupdate a s l HI) as [(l' & H)|(e & s' & ks & E & Hr & HR' & Hf)].
      + eapply GO; [exact H|]. split; [exact I|reflexivity].
      + unfold dsee. rewrite E. exists (OExn e), s'. split; [reflexivity|]. apply (NO _ _ ks); auto.
        destruct Hf as [[Hf _]|(ps & qs & _ & Hf & _)]; rewrite Hf; apply merge_dk, HD.
    - unfold sd_ior. destruct (wdupdate a s l HI) as [(l' & H)|(e & s' & ks & E & Hr & HR' & Hf)].
      + eapply GO; [exact H|]. split; [exact I|reflexivity].
      + unfold dsee. rewrite E. exists (OExn e), s'. split; [reflexivity|]. apply (NO _ _ ks); auto.
        destruct Hf as [[Hf _]|(ps & qs & _ & Hf & _)]; rewrite Hf; apply merge_dk, HD.
    - apply (NW _ (fun l => APairs (l ++ other)) l (w_items_ok s l HI)); [cbn; auto|reflexivity|]. intros l'. split; [exact I|].
      cbn. rewrite merge_app, merge_self; [reflexivity|]. eapply dw_dk; eauto.
    - apply (NW _ (fun l => APairs (other ++ l)) l (w_items_ok s l HI)); [cbn; auto|reflexivity|]. intros l'. split; [exact I|].
      cbn. rewrite merge_app. reflexivity.
    - apply (NW _ (fun l => APairs l) l (w_items_ok s l HI)); [cbn; auto|reflexivity|]. intros l'. split; [exact I|].
      cbn. rewrite merge_self; [reflexivity|]. eapply dw_dk; eauto.
    - destruct insertion.
      + apply (NW (bind items_of (fun d => ret d)) (fun l => ADict l) (d_items s) eq_refl); [cbn; auto|reflexivity|].
        intros l'. split; [exact I|]. cbn. rewrite merge_self; [reflexivity|exact HD].
      + apply (NW (bind items_of (fun _ => sd_items T eqb)) (fun l => ADict l) l).
        * unfold bind, items_of, bind, get, ret. apply w_items_ok, HI.
        * cbn; auto.
        * reflexivity.
        * intros l'. split; [exact I|]. cbn. rewrite merge_self; [reflexivity|]. eapply dw_dk; eauto.
    - eapply PU; [apply w_items_ok, HI|]. split; reflexivity.
    - eapply PU; [apply w_values_ok, HI|]. split; reflexivity.
    - eapply GO; [apply (w_view_reversed _ (fun p => p) s l HI)|].
      + intros i s' HI'. pose proof (w_item_at i s' l HI') as H. destruct (getz l i); exact H.
      + split; [reflexivity|]. cbn. rewrite map_id. reflexivity.
    - eapply GO; [apply (w_view_reversed _ snd s l HI)|]; [intros i s' HI'; apply w_value_at, HI'|]. split; reflexivity.
    - eapply GO; [apply (w_view_reversed _ fst s l HI)|]; [intros i s' HI'; apply w_key_at, HI'|]. split; reflexivity.
    - eapply PU; [unfold iv_contains, items_of, bind, get, ret; reflexivity|]. rewrite d_get_lookup. split; [reflexivity|]. cbn.
      destruct (lookup eqb k (d_items s)); reflexivity.
    - eapply PU; [unfold vv_contains, bind; rewrite (w_values_ok s l HI); reflexivity|]. split; [reflexivity|]. cbn.
      rewrite existsb_map, (existsb_perm _ _ _ HP). reflexivity.
    - eapply GO; [apply w_key_at, HI|]. split; [reflexivity|]. cbn. rewrite getz_map. reflexivity.
    - eapply GO; [apply w_item_at, HI|]. split; reflexivity.
    - eapply GO; [apply w_value_at, HI|]. split; [reflexivity|]. cbn. rewrite getz_map. reflexivity.
    - eapply GO; [apply w_key_slice, HI|]. split; [reflexivity|]. cbn. rewrite sp_slice_map. reflexivity.
    - eapply GO; [apply w_iv_slice, HI|]. split; reflexivity.
    - eapply GO; [apply w_vv_slice, HI|]. split; [reflexivity|]. cbn. rewrite sp_slice_map. reflexivity.
    - eapply GO; [apply wview_del, HI|]. split; cbn; destruct (getz l i); reflexivity.
    - pose proof (wview_del_slice sl s l HI) as H. destruct (sp_slice sl l) as [ps|e] eqn:E.
      + destruct H as [(l' & H)|(e & s' & l1 & E' & Hr & Hd & HR' & Hs)].
        * eapply GO; [exact H|]. split; [exact I|]. cbn. rewrite E. reflexivity.
        * unfold dsee. rewrite E'. exists (OExn e), s'. split; [reflexivity|]. apply (NO _ _ []); auto; [rewrite Hd; exact HD|].
          cbn. exists l1. auto.
      + eapply GO; [exact H|]. split; [exact I|]. cbn. rewrite E. reflexivity.
    - eapply PU; [unfold sd_eq, items_of, bind, get, ret; reflexivity|]. split; [reflexivity|]. cbn. rewrite w_eq_ok by (exact HD || exact Ho).
      reflexivity.
    - unfold sd_fwd.
      assert (Hc : query f \/ exists n, f = FReset n) by (destruct f; cbn; eauto).
      destruct Hc as [Hq|(n & ->)].
      + destruct (w_fwd _ _ _ _ HK f _ _ HR Hq) as (r & sl & E & HR'). rewrite E. eexists _, _. split; [reflexivity|].
        apply (OK _ _ l); [split; auto|]. split; destruct f; try contradiction; cbn; eauto.
      + destruct (w_reset _ _ _ _ HK n _ _ HR Ho) as [(sl & ks & E & HR' & Hp)|(e & sl & E & Hr & HR')]; rewrite E.
        * destruct (dw_of (mksd (d_items s) sl) ks HR') as (l' & HI' & _); [cbn; rewrite Hp; apply Permutation_map, HP|exact HD|].
          eexists _, _. split; [reflexivity|]. apply (OK _ _ l' HI'). split; [exact I|cbn; auto].
        * eexists _, _. split; [reflexivity|]. right. exists e, []. split; [reflexivity|]. cbn. auto.
  Qed.
End WildDict.

(** * SortedDict: the mapping and the list of keys stay in step *)
From Coq Require Import Permutation.
From Verif Require Import PyBase Model Spec History BaseFacts SpecFacts SliceFacts Reach ListProps
  ListClass ClassSpec ClassFacts ModelSet SetSpec HashFacts ModelDict DictSpec MapFacts.
Local Unset Implicit Arguments.

Lemma filter_filter {A} (f g : A -> bool) l : filter f (filter g l) = filter (fun x => g x && f x)%bool l.
Proof.
  induction l as [|x l IH]; [reflexivity|]. cbn. destruct (g x); cbn; [|exact IH]. destruct (f x); rewrite IH; reflexivity.
Qed.

Section DictFacts.
  Context {S A B K : Type}.
  Variable T : listcls S A K.
  Variables ltb eqb : A -> A -> bool.
  Variable veqb : B -> B -> bool.
  Variable fref : fwd A K -> list A -> out A * list A.
  Variable dflt : nat.
  Variable R : S -> list A -> Prop.
  Variable ld : S -> nat.
  Hypothesis HK : ClsOK T ltb eqb fref dflt R ld.
  Notation SD := (sdict S A B).
  Notation map_t := (list (A * B)).
  Notation keys := (map (@fst A B)).
  Notation dk := (distinct_keys eqb).
  Notation ls := (listing (B:=B) ltb).

  Let HE : Equiv eqb := k_equiv _ _ _ _ _ _ _ HK.
  Let HW : SWO ltb := k_swo _ _ _ _ _ _ _ HK.

  (** The keys are listed in the stable order of their insertion into the dict. *)
  Definition DInv (s : SD) : Prop := R (d_list s) (keys (ls (d_items s))) /\ dk (d_items s).
  (** [m] returns [r] and leads from [s] to a consistent dict with items [d]. *)
  Definition leads {X} (m : M SD X) (s : SD) (r : res X) (d : map_t) : Prop :=
    exists s', m s = (r, s') /\ d_items s' = d /\ DInv s' /\ ld (d_list s') = ld (d_list s).

  Lemma leads_ret {X} (x : X) s : DInv s -> leads (ret x) s (Ok x) (d_items s).
  Proof. intros H. exists s. split; [reflexivity|]. auto. Qed.
  Lemma leads_bind {X Y} (m : M SD X) (f : X -> M SD Y) s x d r d' :
    leads m s (Ok x) d -> (forall s', d_items s' = d -> DInv s' -> leads (f x) s' r d') ->
    leads (bind m f) s r d'.
  Proof.
    intros (s1 & E & Hd & HI & Hl) H. destruct (H s1 Hd HI) as (s2 & E2 & Hd2 & HI2 & Hl2).
    exists s2. unfold bind. rewrite E. split; [exact E2|]. split; [exact Hd2|]. split; [exact HI2|congruence].
  Qed.
  Lemma leads_bind_err {X Y} (m : M SD X) (f : X -> M SD Y) s e d :
    leads m s (Err e) d -> leads (bind m f) s (Err e) d.
  Proof. intros (s1 & E & H). exists s1. unfold bind. rewrite E. split; [reflexivity|exact H]. Qed.
  Lemma leads_items {Y} (f : map_t -> M SD Y) s r d : leads (f (d_items s)) s r d -> leads (bind (@items_of S A B) f) s r d.
  Proof. intros H. exact H. Qed.

  (** ** Reading *)
  Lemma getitem_ok k (s : SD) v : lookup eqb k (d_items s) = Some v -> sd_getitem eqb k s = (Ok v, s).
  Proof. intros H. unfold sd_getitem, items_of, bind, get, ret, liftr. rewrite d_get_lookup, H. reflexivity. Qed.
  Lemma get_items (s : SD) l : dk (d_items s) -> (forall p, In p l -> In p (d_items s)) ->
    mapM (fun k => v <- sd_getitem eqb k ;; ret (k, v)) (keys l) s = (Ok l, s).
  Proof.
    intros HD. induction l as [|p l IH]; intros Hin; [reflexivity|]. cbn. unfold bind at 1 2.
    rewrite (getitem_ok _ _ _ (lookup_self eqb HE p _ HD (Hin p (or_introl eq_refl)))). unfold ret at 1, bind at 1.
    rewrite IH by (intros q Hq; apply Hin; right; exact Hq). destruct p; reflexivity.
  Qed.
  Lemma get_values (s : SD) l : dk (d_items s) -> (forall p, In p l -> In p (d_items s)) ->
    mapM (sd_getitem eqb) (keys l) s = (Ok (map snd l), s).
  Proof.
    intros HD. induction l as [|p l IH]; intros Hin; [reflexivity|]. cbn [map mapM]. unfold bind at 1.
    rewrite (getitem_ok _ _ _ (lookup_self eqb HE p _ HD (Hin p (or_introl eq_refl)))). unfold bind at 1.
    rewrite IH by (intros q Hq; apply Hin; right; exact Hq). reflexivity.
  Qed.
  Lemma ls_In (s : SD) p : In p (ls (d_items s)) -> In p (d_items s).
  Proof. apply listing_In, HW. Qed.

  Lemma sd_iter_ok (s : SD) : DInv s -> sd_iter T s = (Ok (keys (ls (d_items s))), s).
  Proof.
    intros [HR _]. unfold sd_iter, onkeys, zoom. rewrite (k_iter _ _ _ _ _ _ _ HK _ _ HR). destruct s; reflexivity.
  Qed.
  Lemma sd_reversed_ok (s : SD) : DInv s -> sd_reversed T s = (Ok (rev (keys (ls (d_items s)))), s).
  Proof.
    intros [HR _]. unfold sd_reversed, onkeys, zoom. rewrite (k_reversed _ _ _ _ _ _ _ HK _ _ HR). destruct s; reflexivity.
  Qed.
  Lemma sd_items_ok (s : SD) : DInv s -> sd_items T eqb s = (Ok (ls (d_items s)), s).
  Proof.
    intros HI. unfold sd_items, bind at 1. rewrite sd_iter_ok by exact HI. apply get_items; [apply HI|apply ls_In].
  Qed.
  Lemma sd_values_ok (s : SD) : DInv s -> sd_values T eqb s = (Ok (map snd (ls (d_items s))), s).
  Proof.
    intros HI. unfold sd_values, bind at 1. rewrite sd_iter_ok by exact HI. apply get_values; [apply HI|apply ls_In].
  Qed.

  (** A method of the list that only reads it. *)
  Lemma onkeys_read {X} (m : M S X) r s : DInv s ->
    (forall x l, R x l -> exists x', m x = (r l, x') /\ R x' l /\ ld x' = ld x) ->
    leads (onkeys m) s (r (keys (ls (d_items s)))) (d_items s).
  Proof.
    intros [HR HD] H. destruct (H _ _ HR) as (x' & E & HR' & Hl). unfold leads, onkeys, zoom. rewrite E.
    eexists. split; [reflexivity|]. split; [reflexivity|]. split; [split; [exact HR'|exact HD]|exact Hl].
  Qed.
  Lemma key_at i (s : SD) : DInv s -> leads (onkeys (l_get T i)) s (rmap fst (getz (ls (d_items s)) i)) (d_items s).
  Proof.
    intros HI. rewrite <- getz_map. apply (onkeys_read _ (fun l => getz l i)); [exact HI|]. intros x l Hx. apply (k_get _ _ _ _ _ _ _ HK i x l Hx).
  Qed.
  Lemma key_slice sl (s : SD) : DInv s -> leads (onkeys (l_slice T sl)) s (rmap (map fst) (sp_slice sl (ls (d_items s)))) (d_items s).
  Proof.
    intros HI. rewrite <- sp_slice_map. apply (onkeys_read _ (fun l => sp_slice sl l)); [exact HI|].
    intros x l Hx. apply (k_slice _ _ _ _ _ _ _ HK sl x l Hx).
  Qed.
  Lemma leads_pure {X} (m : M SD X) r s : DInv s -> m s = (r, s) -> leads m s r (d_items s).
  Proof. intros HI E. exists s. auto. Qed.


  (** Look the key found at a position up in the dict. *)
  Lemma item_at i (s : SD) : DInv s ->
    leads (k <- onkeys (l_get T i) ;; v <- sd_getitem eqb k ;; ret (k, v)) s (getz (ls (d_items s)) i) (d_items s).
  Proof.
    intros HI. pose proof (key_at i s HI) as H. destruct (getz (ls (d_items s)) i) as [p|e] eqn:E; cbn in H.
    - eapply leads_bind; [exact H|]. intros s' Hd HI'. rewrite <- Hd. apply leads_pure; [exact HI'|].
      apply getz_In, ls_In in E. rewrite <- Hd in E. unfold bind.
      rewrite (getitem_ok _ _ _ (lookup_self eqb HE p _ (proj2 HI') E)). destruct p; reflexivity.
    - apply leads_bind_err, H.
  Qed.
  Lemma value_at i (s : SD) : DInv s ->
    leads (k <- onkeys (l_get T i) ;; sd_getitem eqb k) s (rmap snd (getz (ls (d_items s)) i)) (d_items s).
  Proof.
    intros HI. pose proof (key_at i s HI) as H. destruct (getz (ls (d_items s)) i) as [p|e] eqn:E; cbn in H |- *.
    - eapply leads_bind; [exact H|]. intros s' Hd HI'. rewrite <- Hd. apply leads_pure; [exact HI'|].
      apply getz_In, ls_In in E. rewrite <- Hd in E. 
      rewrite (getitem_ok _ _ _ (lookup_self eqb HE p _ (proj2 HI') E)). reflexivity.
    - apply leads_bind_err, H.
  Qed.
  Lemma iv_slice_ok sl (s : SD) : DInv s -> leads (iv_slice T eqb sl) s (sp_slice sl (ls (d_items s))) (d_items s).
  Proof.
    intros HI. pose proof (key_slice sl s HI) as H. unfold iv_slice. destruct (sp_slice sl (ls (d_items s))) as [l|e] eqn:E; cbn in H.
    - eapply leads_bind; [exact H|]. intros s' Hd HI'. rewrite <- Hd. apply leads_pure; [exact HI'|].
      apply get_items; [apply HI'|]. intros p Hp. rewrite Hd. apply ls_In. eapply sp_slice_In; eauto.
    - apply leads_bind_err, H.
  Qed.
  Lemma vv_slice_ok sl (s : SD) : DInv s -> leads (vv_slice T eqb sl) s (rmap (map snd) (sp_slice sl (ls (d_items s)))) (d_items s).
  Proof.
    intros HI. pose proof (key_slice sl s HI) as H. unfold vv_slice.
    destruct (sp_slice sl (ls (d_items s))) as [l|e] eqn:E; cbn in H |- *.
    - eapply leads_bind; [exact H|]. intros s' Hd HI'. rewrite <- Hd. apply leads_pure; [exact HI'|].
      apply get_values; [apply HI'|]. intros p Hp. rewrite Hd. apply ls_In. eapply sp_slice_In; eauto.
    - apply leads_bind_err, H.
  Qed.
  (** Indexing from the end, one position after the other. *)
  Lemma view_reversed_ok {X} (at_ : Z -> M SD X) (f : A * B -> X) (s : SD) : DInv s ->
    (forall i s', DInv s' -> leads (at_ i) s' (rmap f (getz (ls (d_items s')) i)) (d_items s')) ->
    leads (view_reversed at_) s (Ok (rev (map f (ls (d_items s))))) (d_items s).
  Proof.
    intros HI H. unfold view_reversed. eapply leads_bind; [apply leads_pure; [exact HI|reflexivity]|].
    intros s0 Hd0 HI0. rewrite <- Hd0. clear s HI Hd0. rename s0 into s, HI0 into HI.
    rewrite <- (listing_length ltb HW (d_items s)). remember (ls (d_items s)) as l eqn:El.
    assert (G : forall m s', m <= length l -> d_items s' = d_items s -> DInv s' ->
      leads (mapM (fun i => at_ (Z.of_nat i)) (rev (seq 0 m))) s' (Ok (rev (map f (firstn m l)))) (d_items s')).
    { induction m as [|m IH]; intros s' Hm Hd HI'; [apply leads_ret, HI'|].
      rewrite seq_S, rev_app_distr. cbn [rev app mapM plus].
      destruct (nth_error l m) as [p|] eqn:Ep; [|apply nth_error_None in Ep; lia].
      pose proof (H (Z.of_nat m) s' HI') as H1. rewrite Hd, <- El in H1.
      assert (Eg : getz l (Z.of_nat m) = Ok p).
      { unfold getz. destruct (Z.ltb_spec (Z.of_nat m) 0); [lia|]. destruct (Z.ltb_spec (Z.of_nat m) 0); [lia|].
        unfold getn. rewrite Nat2Z.id, Ep. reflexivity. }
      rewrite Eg in H1. cbn in H1. eapply leads_bind; [exact H1|]. intros s2 Hd2 HI2.
      eapply leads_bind; [apply IH; [lia|exact Hd2|exact HI2]|]. intros s3 Hd3 HI3.
      replace (rev (map f (firstn (Datatypes.S m) l))) with (f p :: rev (map f (firstn m l))).
      - replace (d_items s') with (d_items s3) by congruence. apply leads_ret, HI3.
      - rewrite <- (rev_involutive (f p :: _)). f_equal. cbn. rewrite rev_involutive.
        change [f p] with (map f [p]). rewrite <- map_app. f_equal.
        clear - Ep. revert m Ep. induction l as [|q l IH]; intros [|m] Ep; cbn in *; try discriminate; [congruence|].
        f_equal. apply IH, Ep. }
    specialize (G (length l) s (le_n _) eq_refl HI). rewrite firstn_all in G. exact G.
  Qed.

  (** ** Storing and erasing *)
  Lemma setitem_ok k v (s : SD) : DInv s -> leads (sd_setitem T eqb k v) s (Ok tt) (store eqb k v (d_items s)).
  Proof.
    intros [HR HD]. unfold leads, sd_setitem, items_of, put_items, modify, bind, get, ret. rewrite d_mem_lookup, d_set_store.
    pose proof (store_keys eqb k v (d_items s)) as Ek. pose proof (store_dk eqb k v _ HD) as HD'.
    destruct (lookup eqb k (d_items s)) eqn:E.
    - eexists. split; [reflexivity|]. split; [reflexivity|]. split; [|reflexivity]. split; [|exact HD']. cbn [d_list d_items].
      rewrite listing_keys, Ek, <- listing_keys. exact HR.
    - unfold onkeys, zoom. destruct (k_add _ _ _ _ _ _ _ HK k _ _ HR) as (x & Ex & HR' & Hl). rewrite Ex.
      eexists. split; [reflexivity|]. split; [reflexivity|]. split; [|exact Hl]. split; [|exact HD']. cbn [d_list d_items].
      rewrite listing_keys, Ek, (sp_sort_snoc ltb), <- listing_keys. exact HR'.
  Qed.
  Lemma set_each ps : forall (s : SD), DInv s ->
    leads (forM (fun p => sd_setitem T eqb (fst p) (snd p)) ps) s (Ok tt) (merge eqb (d_items s) ps).
  Proof.
    induction ps as [|[k v] ps IH]; intros s HI; [apply leads_ret, HI|]. cbn [forM merge fst snd].
    eapply leads_bind; [apply setitem_ok, HI|]. intros s' <- HI'. apply IH, HI'.
  Qed.
  (** What remains after dropping a key from both sides. *)
  Lemma erase_inv k (s : SD) x : DInv s -> R x (set_del eqb k (keys (ls (d_items s)))) -> DInv (mksd (erase eqb k (d_items s)) x).
  Proof.
    intros [_ HD] HR. split; cbn [d_list d_items]; [|apply erase_dk; exact HD].
    unfold erase in *. rewrite listing_filter by exact HW. rewrite <- erase_keys in HR. exact HR.
  Qed.
  Lemma keys_distinct (s : SD) : DInv s -> distinct eqb (keys (ls (d_items s))).
  Proof. intros [_ HD]. exact (listing_dk ltb eqb HW HE _ HD). Qed.
  Lemma keys_mem k (s : SD) : DInv s -> member eqb k (keys (ls (d_items s))) <-> lookup eqb k (d_items s) <> None.
  Proof.
    intros [_ HD]. rewrite <- (lookup_listing ltb eqb HW HE k _ HD). rewrite lookup_mem.
    destruct (mem_dec eqb k (keys (ls (d_items s)))); tauto.
  Qed.
  Lemma remove_key k (s : SD) (d : map_t) v : DInv s -> lookup eqb k (d_items s) = Some v ->
    exists x, l_remove T k (d_list s) = (Ok tt, x) /\ ld x = ld (d_list s) /\
      onkeys (l_remove T k) (mksd d (d_list s)) = (Ok tt, mksd d x) /\ R x (set_del eqb k (keys (ls (d_items s)))).
  Proof.
    intros HI El. pose proof HI as [HR _]. destruct (k_remove _ _ _ _ _ _ _ HK k _ _ HR) as (x & Ex & HR' & Hl).
    assert (HM : member eqb k (keys (ls (d_items s)))) by (apply keys_mem; [exact HI|congruence]).
    unfold sp_remove in *. destruct (sp_discard_cases eqb k (keys (ls (d_items s)))) as [(a & y & b & Ha & Ey & _ & Ed & Ec)|(Hn & _ & _)].
    2:{ destruct HM as (y & Hy & Ey). rewrite Hn in Ey by exact Hy. discriminate. }
    rewrite Ec in *. cbn in *. rewrite Ed in *. exists x. split; [exact Ex|]. split; [exact Hl|].
    unfold onkeys, zoom. cbn. rewrite Ex. split; [reflexivity|]. rewrite Ha.
    rewrite (set_del_mid eqb HE k a y b); [exact HR'| |exact Ey]. rewrite <- Ha. apply keys_distinct, HI.
  Qed.
  Lemma dict_delitem_ok k (s : SD) : lookup eqb k (d_items s) <> None ->
    dict_delitem eqb k s = (Ok tt, mksd (erase eqb k (d_items s)) (d_list s)).
  Proof.
    intros H. unfold dict_delitem, items_of, put_items, modify, bind, get, ret. rewrite d_mem_lookup.
    destruct (lookup eqb k (d_items s)); [reflexivity|congruence].
  Qed.
  Lemma delitem_ok k (s : SD) : DInv s -> leads (sd_delitem T eqb k) s
    (match lookup eqb k (d_items s) with Some _ => Ok tt | None => Err KeyError end)
    (match lookup eqb k (d_items s) with Some _ => erase eqb k (d_items s) | None => d_items s end).
  Proof.
    intros HI. unfold leads, sd_delitem, bind at 1. destruct (lookup eqb k (d_items s)) as [v|] eqn:E.
    - rewrite dict_delitem_ok by congruence. destruct (remove_key k s (erase eqb k (d_items s)) v HI E) as (x & _ & Hl & Ex & HR).
      rewrite Ex. eexists. split; [reflexivity|]. split; [reflexivity|]. split; [apply erase_inv; assumption|exact Hl].
    - exists s. unfold dict_delitem, items_of, bind, get, ret. rewrite d_mem_lookup, E. auto.
  Qed.
  Lemma pop_ok k dv (s : SD) : DInv s -> leads (sd_pop T eqb k dv) s
    (match lookup eqb k (d_items s), dv with Some v, _ => Ok v | None, Some v => Ok v | None, None => Err KeyError end)
    (match lookup eqb k (d_items s) with Some _ => erase eqb k (d_items s) | None => d_items s end).
  Proof.
    intros HI. unfold leads, sd_pop, items_of, get, ret. unfold bind at 1 2. rewrite d_mem_lookup.
    destruct (lookup eqb k (d_items s)) as [v|] eqn:E.
    - destruct (remove_key k s (d_items s) v HI E) as (x & _ & Hl & Ex & HR). destruct s as [d y]. cbn [d_items d_list] in *.
      unfold bind at 1. rewrite Ex. unfold bind at 1. rewrite (getitem_ok k (mksd d x) v E). unfold bind at 1.
      rewrite dict_delitem_ok by (cbn; congruence). cbn. eexists. split; [reflexivity|]. split; [reflexivity|].
      split; [apply (erase_inv k (mksd d y)); assumption|exact Hl].
    - exists s. destruct dv; auto.
  Qed.
  (** Popping a position of the list, whatever the dict. *)
  Lemma pop_pos i (s : SD) : DInv s ->
    (exists p x, getz (ls (d_items s)) i = Ok p /\ onkeys (l_pop T i) s = (Ok (fst p), mksd (d_items s) x) /\
       In p (d_items s) /\ R x (set_del eqb (fst p) (keys (ls (d_items s)))) /\ ld x = ld (d_list s)) \/
    (getz (ls (d_items s)) i = Err IndexError /\ leads (onkeys (l_pop T i)) s (Err IndexError) (d_items s)).
  Proof.
    intros HI. pose proof HI as [HR HD]. destruct (k_pop _ _ _ _ _ _ _ HK i _ _ HR) as (x & Ex & HR' & Hl).
    pose proof (getz_map fst (ls (d_items s)) i) as Eg.
    unfold sp_pop in *. destruct (sp_del_cases (keys (ls (d_items s))) i) as [(a & y & b & Ha & _ & Ed & Ey)|(_ & Ed & Ey)];
      rewrite Ed, Ey in *; cbn [fst snd] in *.
    - left. destruct (getz (ls (d_items s)) i) as [p|] eqn:Ep; [|discriminate]. injection Eg as ->.
      exists p, x. split; [reflexivity|]. unfold onkeys, zoom. rewrite Ex. split; [reflexivity|].
      split; [apply ls_In; eapply getz_In; eauto|]. split; [|exact Hl]. rewrite Ha.
      rewrite (set_del_mid eqb HE); [exact HR'| |apply (eqv_refl HE)]. rewrite <- Ha. apply keys_distinct, HI.
    - right. destruct (getz (ls (d_items s)) i) as [p|e] eqn:Ep; [discriminate|]. injection Eg as <-. split; [reflexivity|].
      unfold leads, onkeys, zoom. rewrite Ex. eexists. split; [reflexivity|]. split; [reflexivity|].
      split; [split; assumption|exact Hl].
  Qed.
  Lemma view_del_ok i (s : SD) : DInv s -> leads (view_del T eqb i) s
    (rmap (fun _ => tt) (getz (ls (d_items s)) i))
    (match getz (ls (d_items s)) i with Ok p => erase eqb (fst p) (d_items s) | Err _ => d_items s end).
  Proof.
    intros HI. unfold view_del. destruct (pop_pos i s HI) as [(p & x & Eg & Ex & Hp & HR & Hl)|[Eg H]]; rewrite Eg; cbn.
    - unfold leads, bind. rewrite Ex, dict_delitem_ok.
      2:{ cbn. rewrite (lookup_self eqb HE p _ (proj2 HI) Hp). discriminate. }
      cbn [d_items d_list]. eexists. split; [reflexivity|]. split; [reflexivity|]. split; [apply erase_inv; assumption|exact Hl].
    - apply leads_bind_err, H.
  Qed.
  Lemma popitem_ok i (s : SD) : DInv s -> leads (sd_popitem T eqb i) s
    (match d_items s with [] => Err KeyError | _ => getz (ls (d_items s)) i end)
    (match d_items s with [] => [] | _ => match getz (ls (d_items s)) i with Ok p => erase eqb (fst p) (d_items s) | Err _ => d_items s end end).
  Proof.
    intros HI. unfold sd_popitem. apply leads_items. destruct (d_items s) as [|q d] eqn:Ed.
    - cbn. exists s. rewrite Ed. auto.
    - rewrite <- Ed. replace (length (d_items s) =? 0) with false by (rewrite Ed; reflexivity).
      destruct (pop_pos i s HI) as [(p & x & Eg & Ex & Hp & HR & Hl)|[Eg H]]; rewrite Eg; cbn.
      + pose proof (lookup_self eqb HE p _ (proj2 HI) Hp) as El.
        unfold leads. unfold bind at 1. rewrite Ex. unfold bind at 1. rewrite (getitem_ok (fst p) (mksd (d_items s) x) (snd p) El).
        unfold bind at 1. rewrite dict_delitem_ok by (cbn; congruence). cbn. rewrite <- surjective_pairing.
        eexists. split; [reflexivity|]. split; [reflexivity|]. split; [apply erase_inv; assumption|exact Hl].
      + apply leads_bind_err, H.
  Qed.
  Lemma del_each (ps : map_t) : forall (d : map_t) x, dk d -> dk ps -> (forall p, In p ps -> In p d) ->
    forM (dict_delitem eqb) (keys ps) (mksd (S:=S) d x) =
    (Ok tt, mksd (filter (fun p => negb (existsb (same eqb (fst p)) ps)) d) x).
  Proof.
    induction ps as [|p ps IH]; intros d x HD HP Hin; cbn [map forM existsb].
    - assert (Et : filter (fun _ => negb false) d = d).
      { clear. induction d as [|q d IH]; [reflexivity|]. cbn in *. rewrite IH. reflexivity. }
      rewrite Et. reflexivity.
    - unfold bind. rewrite dict_delitem_ok.
      2:{ cbn. rewrite (lookup_self eqb HE p d HD (Hin p (or_introl eq_refl))). discriminate. }
      cbn [d_items d_list]. destruct HP as [HP1 HP2]. rewrite IH.
      + do 2 f_equal. unfold erase. rewrite filter_filter. apply filter_ext. intros q. unfold same at 1 3.
        rewrite (eqb_sym eqb HE (fst q)). destruct (eqb (fst p) (fst q)); reflexivity.
      + apply erase_dk, HD.
      + exact HP2.
      + intros q Hq. unfold erase. apply filter_In. split; [apply Hin; right; exact Hq|]. unfold same.
        rewrite (eqb_sym eqb HE), HP1; [reflexivity|]. apply in_map, Hq.
  Qed.
  Lemma view_del_slice_ok sl (s : SD) : DInv s -> leads (view_del_slice T eqb sl) s
    (rmap (fun _ => tt) (sp_slice sl (ls (d_items s))))
    (match sp_slice sl (ls (d_items s)) with
     | Ok ps => filter (fun p => negb (existsb (same eqb (fst p)) ps)) (d_items s)
     | Err _ => d_items s
     end).
  Proof.
    intros HI. pose proof (key_slice sl s HI) as H. unfold view_del_slice.
    destruct (sp_slice sl (ls (d_items s))) as [ps|e] eqn:E; cbn in H |- *; [|apply leads_bind_err, H].
    eapply leads_bind; [exact H|]. intros s' Hd HI'. rewrite <- Hd in *. clear s H HI Hd. rename s' into s, HI' into HI.
    pose proof HI as [HR HD].
    assert (Ek : sp_slice sl (keys (ls (d_items s))) = Ok (keys ps)) by (rewrite sp_slice_map, E; reflexivity).
    destruct (slice_diff eqb HE sl _ _ (keys_distinct s HI) Ek) as (l' & El' & Ediff).
    destruct (k_del_slice _ _ _ _ _ _ _ HK sl _ _ HR) as (x & Ex & HR' & Hl). rewrite El' in *. cbn in Ex, HR'.
    unfold leads. unfold bind at 1. unfold onkeys, zoom. rewrite Ex. rewrite del_each.
    - eexists. split; [reflexivity|]. split; [reflexivity|]. split; [|exact Hl]. split; cbn [d_items d_list].
      + rewrite listing_filter by exact HW. rewrite <- Ediff, (set_diff_filter eqb HE) in HR'.
        replace (keys (filter _ (ls (d_items s)))) with (filter (fun y => negb (set_mem eqb y (keys ps))) (keys (ls (d_items s)))); [exact HR'|].
        rewrite filter_map_comm. f_equal. apply filter_ext. intros p. f_equal. unfold set_mem, same. clear.
        induction ps as [|q ps IH]; [reflexivity|]. cbn. rewrite IH. reflexivity.
      + apply filter_dk, HD.
    - exact HD.
    - eapply slice_distinct; [exact HE|apply keys_distinct, HI|exact Ek].
    - intros p Hp. apply ls_In. eapply sp_slice_In; eauto.
  Qed.
  Lemma setdefault_ok k v (s : SD) : DInv s -> leads (sd_setdefault T eqb k v) s
    (Ok (match lookup eqb k (d_items s) with Some w => w | None => v end))
    (match lookup eqb k (d_items s) with Some _ => d_items s | None => store eqb k v (d_items s) end).
  Proof.
    intros HI. unfold sd_setdefault. apply leads_items. rewrite d_mem_lookup.
    destruct (lookup eqb k (d_items s)) as [w|] eqn:E.
    - apply leads_pure; [exact HI|apply getitem_ok, E].
    - destruct (setitem_ok k v s HI) as (s' & E' & Hd & HI' & Hl).
      unfold sd_setitem, items_of, put_items, modify, bind, get, ret, onkeys, zoom in E'. rewrite d_mem_lookup, E in E'.
      unfold leads, put_items, modify, bind, onkeys, zoom, ret. cbn [d_list d_items].
      destruct (l_add T k (d_list s)) as [[[]|e] x]; [|discriminate]. injection E' as <-.
      eexists. split; [reflexivity|]. auto.
  Qed.
  Lemma clear_ok (s : SD) : DInv s -> leads (sd_clear T) s (Ok tt) [].
  Proof.
    intros [HR HD]. unfold leads, sd_clear, put_items, modify, bind, onkeys, zoom. cbn [d_list d_items].
    destruct (k_clear _ _ _ _ _ _ _ HK _ _ HR) as (x & Ex & HR' & Hl). rewrite Ex.
    eexists. split; [reflexivity|]. split; [reflexivity|]. split; [|exact Hl]. split; [exact HR'|exact I].
  Qed.

  (** ** Update *)
  Lemma fill (d : map_t) x : dk d -> R x [] -> leads (keys_update T) (mksd d x) (Ok tt) d.
  Proof.
    intros HD HR. unfold leads, keys_update, items_of, bind, get, ret, onkeys, zoom. cbn [d_list d_items].
    destruct (k_update _ _ _ _ _ _ _ HK (keys d) _ _ HR) as (y & Ey & HR' & Hl). rewrite Ey.
    eexists. split; [reflexivity|]. split; [reflexivity|]. split; [|exact Hl]. split; [|exact HD]. cbn [d_list d_items].
    rewrite listing_keys. exact HR'.
  Qed.
  Lemma update_all_ok ps (s : SD) : DInv s -> leads (update_all T eqb ps) s (Ok tt) (merge eqb (d_items s) ps).
  Proof.
    intros [HR HD]. unfold update_all. apply leads_items. rewrite d_update_merge.
    unfold leads. unfold bind at 1. unfold put_items, modify. unfold bind at 1. unfold onkeys, zoom. cbn [d_list d_items].
    destruct (k_clear _ _ _ _ _ _ _ HK _ _ HR) as (x & Ex & HR' & Hl). rewrite Ex.
    destruct (fill (merge eqb (d_items s) ps) x (merge_dk eqb ps _ HD) HR') as (s' & E & Hd & HI & Hl').
    exists s'. split; [exact E|]. split; [exact Hd|]. split; [exact HI|]. cbn in Hl'. congruence.
  Qed.
  Lemma update_ok a (s : SD) : DInv s -> leads (sd_update T eqb a) s (Ok tt) (merge eqb (d_items s) (pairs_of a)).
  Proof.
    intros HI. pose proof HI as [HR HD]. unfold sd_update. apply leads_items.
    destruct (Nat.eqb_spec (length (d_items s)) 0) as [E0|E0].
    - apply length_zero_iff_nil in E0. rewrite E0 in *. rewrite d_update_merge.
      destruct (fill (merge eqb [] (pairs_of a)) (d_list s) (merge_dk eqb _ _ HD) HR) as (s' & E & H).
      exists s'. split; [exact E|exact H].
    - set (pairs := match a with ADict ps => ps | APairs ps => d_of eqb ps end).
      assert (Em : merge eqb (d_items s) pairs = merge eqb (d_items s) (pairs_of a)).
      { unfold pairs. destruct a; [reflexivity|]. cbn. unfold d_of. rewrite d_update_merge. apply merge_of, HE. }
      rewrite <- Em. destruct (Nat.ltb_spec (length (d_items s)) (10 * length pairs)) as [Hb|Hb].
      + exact (update_all_ok pairs s HI).
      + apply set_each, HI.
  Qed.
  Lemma new_ok a : exists s, sd_new T eqb a = Ok s /\ d_items s = merge eqb [] (pairs_of a) /\ DInv s /\ ld (d_list s) = dflt.
  Proof.
    unfold sd_new. destruct (k_new _ _ _ _ _ _ _ HK []) as (x & Ex & HR & Hl). rewrite Ex. cbn [rbind].
    destruct (update_ok a (mksd [] x)) as (s & E & Hd & HI & Hl'); [split; [exact HR|exact I]|]. rewrite E.
    exists s. split; [reflexivity|]. split; [exact Hd|]. split; [exact HI|]. cbn in Hl'. congruence.
  Qed.

  (** ** One operation *)
  Definition dload (o : dop A B K) (n : nat) : nat :=
    match o with
    | DFwd f => fwd_load f n
    | DOr _ | DROr _ | DCopy | DReduce _ => dflt
    | _ => n
    end.
  Notation rs := (ref_step ltb eqb veqb fref).
  Definition steps (o : dop A B K) (s : SD) : Prop :=
    exists s', sd_step T eqb veqb o s = (fst (rs o (d_items s)), s') /\ d_items s' = snd (rs o (d_items s)) /\
      DInv s' /\ ld (d_list s') = dload o (ld (d_list s)).
  Lemma dsee_ok {X} (inj : X -> dout A B) (m : M SD X) s r d : leads m s r d ->
    exists s', dsee inj m s = (reply inj r, s') /\ d_items s' = d /\ DInv s' /\ ld (d_list s') = ld (d_list s).
  Proof. intros (s' & E & H). exists s'. unfold dsee. rewrite E. split; [destruct r; reflexivity|exact H]. Qed.
  Lemma see_as {X} (inj : X -> dout A B) (m : M SD X) s r d o d' : leads m s r d -> reply inj r = o -> d = d' ->
    exists s', dsee inj m s = (o, s') /\ d_items s' = d' /\ DInv s' /\ ld (d_list s') = ld (d_list s).
  Proof. intros H <- <-. apply dsee_ok, H. Qed.
  Lemma rebind_ok (m : M SD (list (A * B))) (f : list (A * B) -> darg A B) (s : SD) l d : m s = (Ok l, s) -> merge eqb [] (pairs_of (f l)) = d ->
    exists s', drebind (bind m (fun l => liftr (sd_new T eqb (f l)))) s = (ONone, s') /\ d_items s' = d /\ DInv s' /\ ld (d_list s') = dflt.
  Proof.
    intros E Ed. destruct (new_ok (f l)) as (s' & E' & Hd & H). exists s'. unfold drebind, bind. rewrite E. unfold liftr.
    rewrite E'. split; [reflexivity|]. split; [congruence|exact H].
  Qed.
  Lemma reply_map {X Y} (inj : Y -> dout A B) (f : X -> Y) r : reply inj (rmap f r) = match r with Ok x => inj (f x) | Err e => OExn e end.
  Proof. destruct r; reflexivity. Qed.

  Lemma eq_ok d o : dk d -> dk o -> d_equal eqb veqb d o =
    (forallb (fun p => match lookup eqb (fst p) o with Some w => veqb (snd p) w | None => false end) d &&
     forallb (fun p => match lookup eqb (fst p) d with Some _ => true | None => false end) o)%bool.
  Proof.
    intros Hd Ho. unfold d_equal.
    replace (forallb (fun p => match find (fun q => eqb (fst q) (fst p)) o with Some q => veqb (snd p) (snd q) | None => false end) d)
      with (forallb (fun p => match lookup eqb (fst p) o with Some w => veqb (snd p) w | None => false end) d).
    2:{ clear. induction d as [|p d IH]; [reflexivity|]. cbn. rewrite IH. f_equal. unfold lookup, same.
        destruct (find _ o); reflexivity. }
    destruct (forallb (fun p => match lookup eqb (fst p) o with Some w => veqb (snd p) w | None => false end) d) eqn:F;
      [|rewrite andb_false_r; reflexivity].
    rewrite andb_true_r. cbn [andb].
    assert (Hsub : forall (a b : map_t), (forall p, In p a -> lookup eqb (fst p) b <> None) <-> subset eqb (keys a) (keys b)).
    { intros a b. split.
      - intros H k (k' & Hk & E). apply in_map_iff in Hk. destruct Hk as (p & <- & Hp).
        apply (mem_eqb eqb HE _ _ _ E). destruct (mem_dec eqb (fst p) (keys b)) as [Hm|Hm]; [exact Hm|].
        apply lookup_mem in Hm. destruct (H p Hp Hm).
      - intros H p Hp E. apply lookup_mem in E. apply E, H. exists (fst p). split; [apply in_map, Hp|apply (eqv_refl HE)]. }
    assert (Hs : subset eqb (keys d) (keys o)).
    { apply Hsub. intros p Hp E. rewrite forallb_forall in F. specialize (F p Hp). rewrite E in F. discriminate. }
    assert (Hf : forallb (fun p => match lookup eqb (fst p) d with Some _ => true | None => false end) o = true <->
                 subset eqb (keys o) (keys d)).
    { rewrite <- Hsub, forallb_forall. split; intros H p Hp; specialize (H p Hp); destruct (lookup eqb (fst p) d); congruence. }
    pose proof (pigeon eqb HE _ Hd _ Hs) as L. rewrite !map_length in L.
    destruct (forallb _ o) eqn:G.
    - apply Nat.eqb_eq. assert (subset eqb (keys o) (keys d)) as Hb by (apply Hf; reflexivity).
      pose proof (pigeon eqb HE _ Ho _ Hb) as L'. rewrite !map_length in L'. lia.
    - apply Nat.eqb_neq. intros El. assert (Hb : false = true); [|discriminate]. apply Hf.
      apply (pigeon_back eqb HE); [exact Hd|exact Hs|]. rewrite !map_length. lia.
  Qed.
  Lemma existsb_perm {X} (f : X -> bool) l l' : Permutation l l' -> existsb f l = existsb f l'.
  Proof.
    intros H. destruct (existsb f l') eqn:E.
    - apply existsb_exists in E. destruct E as (x & Hx & E). apply existsb_exists. exists x. split; [|exact E].
      eapply Permutation_in; [symmetry; exact H|exact Hx].
    - destruct (existsb f l) eqn:E'; [|reflexivity]. apply existsb_exists in E'. destruct E' as (x & Hx & E').
      rewrite <- E. symmetry. apply existsb_exists. exists x. split; [|exact E']. eapply Permutation_in; eauto.
  Qed.
  Lemma existsb_map {X Y} (f : Y -> bool) (g : X -> Y) l : existsb f (map g l) = existsb (fun x => f (g x)) l.
  Proof. induction l as [|x l IH]; [reflexivity|]. cbn. rewrite IH. reflexivity. Qed.

  Lemma sd_step_ok o (s : SD) : DInv s -> dop_ok eqb o -> steps o s.
  Proof.
    intros HI Hok. pose proof HI as [HR HD]. unfold steps. destruct o; cbn [sd_step ref_step fst snd dload].
    - eapply see_as; [apply setitem_ok, HI|reflexivity..].
    - pose proof (delitem_ok k s HI) as H. destruct (lookup eqb k (d_items s)); eapply see_as; try exact H; reflexivity.
    - exists s. unfold dsee, sd_getitem, items_of, bind, get, ret, liftr. rewrite d_get_lookup.
      destruct (lookup eqb k (d_items s)); auto.
    - exists s. unfold dsee, sd_get, items_of, bind, get, ret. rewrite d_get_lookup.
      destruct (lookup eqb k (d_items s)); auto.
    - exists s. unfold dsee, sd_contains, items_of, bind, get, ret. rewrite d_mem_lookup. auto.
    - exists s. auto.
    - exists s. unfold dsee. rewrite sd_iter_ok; auto.
    - exists s. unfold dsee. rewrite sd_reversed_ok; auto.
    - eapply see_as; [apply clear_ok, HI|reflexivity..].
    - pose proof (pop_ok k default s HI) as H. destruct (lookup eqb k (d_items s)); [|destruct default];
        (eapply see_as; [exact H|reflexivity..]).
    - pose proof (popitem_ok i s HI) as H. destruct (d_items s) as [|q d] eqn:Ed.
      + eapply see_as; [exact H|reflexivity..].
      + destruct (getz (ls (q :: d)) i); (eapply see_as; [exact H|reflexivity..]).
    - eapply see_as; [apply item_at, HI|reflexivity..].
    - pose proof (setdefault_ok k default s HI) as H. destruct (lookup eqb k (d_items s));
        (eapply see_as; [exact H|reflexivity..]).
    - eapply see_as; [apply update_ok, HI|reflexivity..].
    - eapply see_as; [apply update_ok, HI|reflexivity..].
    - apply (rebind_ok _ (fun l => APairs (l ++ other)) s _ _ (sd_items_ok s HI)). cbn.
      rewrite merge_app, merge_self; [reflexivity|]. apply listing_dk; auto using HW, HE.
    - apply (rebind_ok _ (fun l => APairs (other ++ l)) s _ _ (sd_items_ok s HI)). cbn.
      rewrite merge_app. reflexivity.
    - apply (rebind_ok _ (fun l => APairs l) s _ _ (sd_items_ok s HI)). cbn.
      apply merge_self. apply listing_dk; auto using HW, HE.
    - destruct insertion.
      + apply (rebind_ok (bind items_of (fun d => ret d)) (fun l => ADict l) s (d_items s)); [reflexivity|].
        cbn. apply merge_self, HD.
      + apply (rebind_ok (bind items_of (fun _ => sd_items T eqb)) (fun l => ADict l) s (ls (d_items s))).
        * unfold bind, items_of, bind, get, ret. apply sd_items_ok, HI.
        * cbn. apply merge_self. apply listing_dk; auto using HW, HE.
    - exists s. unfold dsee. rewrite sd_items_ok; auto.
    - exists s. unfold dsee. rewrite sd_values_ok; auto.
    - eapply see_as; [apply (view_reversed_ok _ (fun p => p) s HI)|..].
      + intros i s' HI'. pose proof (item_at i s' HI') as H. destruct (getz (ls (d_items s')) i); exact H.
      + cbn. rewrite map_id. reflexivity.
      + reflexivity.
    - eapply see_as; [apply (view_reversed_ok _ snd s HI)|..]; [|reflexivity..]. intros i s' HI'. apply value_at, HI'.
    - eapply see_as; [apply (view_reversed_ok _ fst s HI)|..]; [|reflexivity..]. intros i s' HI'. apply key_at, HI'.
    - exists s. unfold dsee, iv_contains, items_of, bind, get, ret. rewrite d_get_lookup.
      destruct (lookup eqb k (d_items s)); auto.
    - exists s. unfold dsee, vv_contains, bind. rewrite sd_values_ok by exact HI. unfold ret.
      rewrite existsb_map, (existsb_perm _ _ _ (listing_perm ltb HW (d_items s))). auto.
    - eapply see_as; [apply key_at, HI| |reflexivity]. rewrite getz_map. reflexivity.
    - eapply see_as; [apply item_at, HI|reflexivity..].
    - eapply see_as; [apply value_at, HI| |reflexivity]. rewrite getz_map. reflexivity.
    - eapply see_as; [apply key_slice, HI| |reflexivity]. rewrite sp_slice_map. reflexivity.
    - eapply see_as; [apply iv_slice_ok, HI|reflexivity..].
    - eapply see_as; [apply vv_slice_ok, HI| |reflexivity]. rewrite sp_slice_map. reflexivity.
    - pose proof (view_del_ok i s HI) as H. destruct (getz (ls (d_items s)) i); (eapply see_as; [exact H|reflexivity..]).
    - pose proof (view_del_slice_ok sl s HI) as H. destruct (sp_slice sl (ls (d_items s))); (eapply see_as; [exact H|reflexivity..]).
    - exists s. unfold dsee, sd_eq, items_of, bind, get, ret. rewrite eq_ok; auto.
    - unfold sd_fwd. destruct (k_fwd _ _ _ _ _ _ _ HK f _ _ HR) as (x & Ex & HR' & Hl); [destruct f; exact Hok|].
      rewrite Ex. eexists. split; [reflexivity|]. split; [reflexivity|]. split; [split; assumption|exact Hl].
  Qed.

  (** ** Histories *)
  Lemma sd_run_ok ops : forall s, DInv s -> Forall (dop_ok eqb) ops ->
    exists s', sd_run T eqb veqb ops s = (fst (ref_run ltb eqb veqb fref ops (d_items s)), s') /\
      d_items s' = snd (ref_run ltb eqb veqb fref ops (d_items s)) /\ DInv s' /\
      ld (d_list s') = fold_left (fun n o => dload o n) ops (ld (d_list s)).
  Proof.
    induction ops as [|o ops IH]; intros s HI Hok.
    - exists s. auto.
    - inversion Hok as [|? ? H1 H2]; subst. destruct (sd_step_ok o s HI H1) as (s1 & E1 & Hd1 & HI1 & Hl1).
      destruct (IH s1 HI1 H2) as (s2 & E2 & Hd2 & HI2 & Hl2). exists s2.
      unfold sd_run, ref_run in *. cbn [run]. rewrite E1, Hd1 in *. rewrite E2.
      destruct (rs o (d_items s)) as [r d]. cbn [fst snd] in *. destruct (run rs ops d) as [rr d2]. cbn [fst snd] in *.
      split; [reflexivity|]. split; [exact Hd2|]. split; [exact HI2|]. cbn [fold_left]. rewrite <- Hl1. exact Hl2.
  Qed.
  Lemma sd_reach_ok (s : SD) : sd_reach T eqb veqb s -> DInv s.
  Proof.
    intros (a & s0 & ops & E & Hok & ->). destruct (new_ok a) as (s0' & E' & _ & HI & _). rewrite E in E'. injection E' as <-.
    destruct (sd_run_ok ops s0 HI Hok) as (s' & -> & _ & HI' & _). exact HI'.
  Qed.
  Lemma sd_shows_ok (s : SD) : DInv s -> sd_shows T eqb s (ls (d_items s)).
  Proof. apply sd_items_ok. Qed.
  Lemma shows_unique (s : SD) l l' : sd_shows T eqb s l -> sd_shows T eqb s l' -> l = l'.
  Proof. unfold sd_shows. intros H H'. congruence. Qed.
  Lemma sd_check_ok (s : SD) : DInv s -> 4 <= ld (d_list s) -> sd_check T eqb s = (Ok tt, s).
  Proof.
    intros HI Hl. pose proof HI as [HR HD]. unfold sd_check, bind, get, onkeys, zoom, liftr.
    rewrite (k_check _ _ _ _ _ _ _ HK _ _ HR Hl), (k_len _ _ _ _ _ _ _ HK _ _ HR), map_length, listing_length by exact HW.
    rewrite Nat.eqb_refl. cbn [assertR d_list d_items]. rewrite (k_iter _ _ _ _ _ _ _ HK _ _ HR).
    replace (forallb _ _) with true; [destruct s; reflexivity|]. symmetry. apply forallb_forall. intros k Hk.
    rewrite d_mem_lookup. apply in_map_iff in Hk. destruct Hk as (p & <- & Hp). apply ls_In in Hp.
    rewrite (lookup_self eqb HE p _ HD Hp). reflexivity.
  Qed.
End DictFacts.

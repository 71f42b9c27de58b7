(** * Plain mappings as association lists *)
From Coq Require Import Permutation.
From Verif Require Import PyBase Model Spec History BaseFacts SpecFacts SliceFacts Reach ListProps
  ListClass ClassSpec ClassFacts ModelSet SetSpec HashFacts ModelDict DictSpec.
Local Unset Implicit Arguments.

(** ** Reading positions of a mapped list *)
Definition rmap {A B} (f : A -> B) (r : res A) : res B := match r with Ok x => Ok (f x) | Err e => Err e end.
Lemma getz_map {A B} (f : A -> B) l i : getz (map f l) i = rmap f (getz l i).
Proof.
  unfold getz. rewrite map_length. destruct (Z.ltb _ 0); [reflexivity|]. unfold getn.
  rewrite nth_error_map. destruct (nth_error l _); reflexivity.
Qed.
Lemma mapR_rmap {A B C} (f : B -> C) (g : A -> res B) l : mapR (fun x => rmap f (g x)) l = rmap (map f) (mapR g l).
Proof.
  induction l as [|a l IH]; [reflexivity|]. cbn. rewrite IH. destruct (g a); [|reflexivity]. cbn.
  destruct (mapR g l); reflexivity.
Qed.
Lemma sp_slice_map {A B} (f : A -> B) sl l : sp_slice sl (map f l) = rmap (map f) (sp_slice sl l).
Proof.
  unfold sp_slice. rewrite map_length. destruct (slice_indices sl (length l)) as [[[a b] st]|e]; [|reflexivity].
  cbn [rbind]. rewrite <- mapR_rmap. apply mapR_ext_in. intros x _. apply getz_map.
Qed.
Lemma getz_In {A} (l : list A) i x : getz l i = Ok x -> In x l.
Proof.
  intros H. destruct (sp_del_cases l i) as [(a & y & b & -> & _ & _ & E)|(_ & _ & E)]; rewrite E in H; [|discriminate].
  injection H as ->. apply in_elt.
Qed.
Lemma sp_slice_In {A} sl (l : list A) r x : sp_slice sl l = Ok r -> In x r -> In x l.
Proof.
  unfold sp_slice. destruct (slice_indices sl (length l)) as [[[a b] st]|e]; [|discriminate]. cbn [rbind].
  intros H Hx. destruct (mapR_In _ _ _ _ H Hx) as (i & _ & Hi). eapply getz_In, Hi.
Qed.

(** A slice never takes the same position twice. *)
Lemma slice_distinct {V} (eqb : V -> V -> bool) (HE : Equiv eqb) sl l vs : distinct eqb l -> sp_slice sl l = Ok vs -> distinct eqb vs.
Proof.
  intros HD. unfold sp_slice.
  destruct (slice_indices sl (length l)) as [[[start stop] step]|e] eqn:ES; cbn; [|discriminate].
  apply slice_indices_Ok in ES as (H0 & H1 & H2).
  assert (HB : forall i, In i (rangez start stop step) -> (0 <= i < Z.of_nat (length l))%Z).
  { intros i Hi. destruct (rangez_bound _ _ _ _ H0 Hi) as [H3 H4].
    destruct (Z.lt_trichotomy step 0) as [H|[H|H]]; [|contradiction|]; lia. }
  assert (HN : NoDup (rangez start stop step)).
  { unfold rangez. apply FinFun.Injective_map_NoDup; [|apply seq_NoDup]. intros i j H.
    assert ((Z.of_nat i * step = Z.of_nat j * step)%Z) as H' by lia. apply Z.mul_cancel_r in H'; [lia|exact H0]. }
  revert vs. induction (rangez start stop step) as [|i t IH]; intros vs H.
  - injection H as <-. exact I.
  - apply mapR_cons_inv in H as (x & r & -> & Ex & Er). inversion HN as [|? ? Hi HN']; subst. split.
    + intros y Hy. destruct (mapR_In _ _ _ _ Er Hy) as (j & Hj & Ey). destruct (eqb x y) eqn:E; [|reflexivity].
      destruct Hi. pose proof (HB i (or_introl eq_refl)). pose proof (HB j (or_intror Hj)).
      assert (0 <= i)%Z as Zi by lia. assert (0 <= j)%Z as Zj by lia.
      pose proof (distinct_nth eqb HE _ _ _ _ _ HD (getz_nth _ _ _ Zi Ex) (getz_nth _ _ _ Zj Ey) E).
      replace i with j by lia. exact Hj.
    + apply IH; auto. intros j Hj. apply HB. right. exact Hj.
Qed.

(** ** Stable sorting *)
Lemma filter_swap {V} (f g : V -> bool) l : filter f (filter g l) = filter g (filter f l).
Proof.
  induction l as [|x l IH]; [reflexivity|]. cbn. destruct (f x) eqn:F, (g x) eqn:G; cbn; rewrite ?F, ?G, IH; reflexivity.
Qed.
Lemma sp_sort_filter {V} (ltb : V -> V -> bool) (HW : SWO ltb) f l :
  sp_sort ltb (filter f l) = filter f (sp_sort ltb l).
Proof.
  symmetry. apply (stable_sort_is ltb HW). split; [apply sorted_filter, sp_sort_sorted; exact HW|].
  intros x. rewrite (filter_swap _ f), (filter_swap _ f), (proj2 (sp_sort_stable ltb HW l) x). reflexivity.
Qed.

Lemma sp_add_map {A B} (f : A -> B) (ltb : B -> B -> bool) x l :
  map f (sp_add (fun a b => ltb (f a) (f b)) x l) = sp_add ltb (f x) (map f l).
Proof. unfold sp_add. rewrite map_app. cbn. rewrite !filter_map_comm. reflexivity. Qed.
Lemma sp_sort_map {A B} (f : A -> B) (ltb : B -> B -> bool) l :
  map f (sp_sort (fun a b => ltb (f a) (f b)) l) = sp_sort ltb (map f l).
Proof.
  unfold sp_sort. change (@nil B) with (map f []). generalize (@nil A) as acc.
  induction l as [|x l IH]; intros acc; [reflexivity|]. cbn. rewrite IH, sp_add_map. reflexivity.
Qed.

Section Maps.
  Context {A B : Type}.
  Variables ltb eqb : A -> A -> bool.
  Hypothesis HW : SWO ltb.
  Hypothesis HE : Equiv eqb.
  Notation map_t := (list (A * B)).
  Notation keys := (map (@fst A B)).
  Notation dk := (distinct_keys eqb).

  (** ** Lookup *)
  Lemma lookup_cons k p (d : map_t) :
    lookup eqb k (p :: d) = if eqb (fst p) k then Some (snd p) else lookup eqb k d.
  Proof. unfold lookup. cbn. unfold same at 1. destruct (eqb (fst p) k); reflexivity. Qed.
  Lemma lookup_cases k (d : map_t) :
    (exists a k' v b, d = a ++ (k', v) :: b /\ eqb k' k = true /\ (forall p, In p a -> eqb (fst p) k = false) /\
       lookup eqb k d = Some v) \/
    ((forall p, In p d -> eqb (fst p) k = false) /\ lookup eqb k d = None).
  Proof.
    induction d as [|[k' v] d IH]; [right; split; [intros p []|reflexivity]|].
    unfold lookup, same in *. cbn. destruct (eqb k' k) eqn:E.
    - left. exists [], k', v, d. split; [reflexivity|]. split; [exact E|]. split; [intros p []|reflexivity].
    - destruct IH as [(a & k1 & v1 & b & -> & E1 & Ha & El)|[Hn El]].
      + left. exists ((k', v) :: a), k1, v1, b. split; [reflexivity|]. split; [exact E1|]. split; [|exact El].
        intros p [<-|Hp]; [exact E|auto].
      + right. split; [|exact El]. intros p [<-|Hp]; [exact E|auto].
  Qed.
  Lemma lookup_None k (d : map_t) : lookup eqb k d = None <-> forall p, In p d -> eqb (fst p) k = false.
  Proof.
    destruct (lookup_cases k d) as [(a & k' & v & b & -> & E & _ & El)|[Hn El]]; rewrite El; split; auto; [discriminate|].
    intros H. specialize (H (k', v) (in_elt _ _ _)). cbn in H. congruence.
  Qed.
  Lemma lookup_mem k (d : map_t) : lookup eqb k d = None <-> ~ member eqb k (keys d).
  Proof.
    rewrite lookup_None. split.
    - intros H (y & Hy & E). apply in_map_iff in Hy as (p & <- & Hp). rewrite H in E; [discriminate|exact Hp].
    - intros H p Hp. destruct (eqb (fst p) k) eqn:E; [|reflexivity]. destruct H. exists (fst p). split; [apply in_map, Hp|exact E].
  Qed.
  Lemma lookup_In k v (d : map_t) : dk d -> lookup eqb k d = Some v <-> maps eqb d k v.
  Proof.
    intros HD. split.
    - destruct (lookup_cases k d) as [(a & k' & v' & b & -> & E & _ & El)|[_ El]]; rewrite El; [|discriminate].
      intros [= <-]. exists k'. split; [apply in_elt|exact E].
    - intros (k' & Hin & E).
      destruct (lookup_cases k d) as [(a & k1 & v1 & b & -> & E1 & _ & El)|[Hn _]].
      2:{ specialize (Hn _ Hin). cbn in Hn. congruence. }
      rewrite El. f_equal. unfold distinct_keys in HD. rewrite map_app in HD. cbn in HD.
      apply in_app_iff in Hin as [Hin|[Hin|Hin]]; [|congruence|].
      + pose proof (distinct_mid eqb HE _ _ _ _ HD E1 k') as H. rewrite H in E; [discriminate|].
        apply in_app_iff. left. apply (in_map fst _ _ Hin).
      + pose proof (distinct_mid eqb HE _ _ _ _ HD E1 k') as H. rewrite H in E; [discriminate|].
        apply in_app_iff. right. apply (in_map fst _ _ Hin).
  Qed.
  Lemma lookup_self p (d : map_t) : dk d -> In p d -> lookup eqb (fst p) d = Some (snd p).
  Proof. intros HD Hp. apply lookup_In; [exact HD|]. exists (fst p). split; [destruct p; exact Hp|apply (eqv_refl HE)]. Qed.
  Lemma dk_perm (d d' : map_t) : Permutation d d' -> dk d -> dk d'.
  Proof. intros HP. apply distinct_perm; [exact HE|apply Permutation_map, HP]. Qed.
  Lemma maps_perm (d d' : map_t) k v : Permutation d d' -> maps eqb d k v <-> maps eqb d' k v.
  Proof.
    intros HP. split; intros (k' & Hin & E); exists k'; (split; [|exact E]);
      [exact (Permutation_in _ HP Hin)|exact (Permutation_in _ (Permutation_sym HP) Hin)].
  Qed.
  Lemma lookup_perm k (d d' : map_t) : Permutation d d' -> dk d -> lookup eqb k d = lookup eqb k d'.
  Proof.
    intros HP HD. pose proof (dk_perm _ _ HP HD) as HD'. destruct (lookup eqb k d') as [v|] eqn:E.
    - apply lookup_In; [exact HD|]. apply (maps_perm _ _ _ _ HP), lookup_In; assumption.
    - apply lookup_None. intros p Hp. apply (proj1 (lookup_None k d') E). eapply Permutation_in; eauto.
  Qed.
  Lemma lookup_cong k k' (d : map_t) : eqb k k' = true -> lookup eqb k d = lookup eqb k' d.
  Proof.
    intros E. unfold lookup. f_equal. induction d as [|p d IH]; [reflexivity|]. cbn. unfold same at 1 3.
    rewrite (eqb_r eqb HE _ _ (fst p) E). destruct (eqb (fst p) k'); auto.
  Qed.

  (** ** The model's dict primitives *)
  Lemma d_mem_lookup k (d : map_t) : d_mem eqb k d = match lookup eqb k d with Some _ => true | None => false end.
  Proof.
    unfold lookup, same. induction d as [|p d IH]; [reflexivity|]. cbn. destruct (eqb (fst p) k); [reflexivity|exact IH].
  Qed.
  Lemma d_get_lookup k (d : map_t) : d_get eqb k d = match lookup eqb k d with Some v => Ok v | None => Err KeyError end.
  Proof. unfold d_get, lookup, same. destruct (find _ d); reflexivity. Qed.
  Lemma d_set_store k v (d : map_t) : d_set eqb k v d = store eqb k v d.
  Proof.
    unfold d_set, store. rewrite d_mem_lookup. destruct (lookup eqb k d); [|reflexivity].
    apply map_ext. intros [x y]. unfold same. cbn. destruct (eqb x k); reflexivity.
  Qed.
  Lemma d_update_merge ps : forall d : map_t, d_update eqb d ps = merge eqb d ps.
  Proof.
    unfold d_update. induction ps as [|[k v] ps IH]; intros d; [reflexivity|]. cbn. rewrite d_set_store. apply IH.
  Qed.

  (** ** Storing and erasing *)
  Lemma store_keys k v (d : map_t) :
    keys (store eqb k v d) = match lookup eqb k d with Some _ => keys d | None => keys d ++ [k] end.
  Proof.
    unfold store. destruct (lookup eqb k d).
    - rewrite map_map. reflexivity.
    - rewrite map_app. reflexivity.
  Qed.
  Lemma store_dk k v (d : map_t) : dk d -> dk (store eqb k v d).
  Proof.
    intros HD. unfold distinct_keys. rewrite store_keys. destruct (lookup eqb k d) eqn:E; [exact HD|].
    apply distinct_snoc; auto. apply lookup_mem, E.
  Qed.
  Lemma store_map_lookup k v k' (d : map_t) : eqb k k' = false ->
    lookup eqb k' (map (fun p => (fst p, if same eqb k p then v else snd p)) d) = lookup eqb k' d.
  Proof.
    intros Ek. induction d as [|[x y] d IH]; [reflexivity|]. cbn [map]. rewrite !lookup_cons, IH. unfold same. cbn.
    destruct (eqb x k') eqn:E; [|reflexivity].
    destruct (eqb x k) eqn:E2; [|reflexivity]. rewrite (eqb_l eqb HE _ _ k' E2) in E. congruence.
  Qed.
  Lemma lookup_app k (a b : map_t) : lookup eqb k (a ++ b) =
    match lookup eqb k a with Some v => Some v | None => lookup eqb k b end.
  Proof.
    unfold lookup. induction a as [|p a IH]; [reflexivity|]. cbn. destruct (same eqb k p); [reflexivity|exact IH].
  Qed.
  Lemma lookup_store k v k' (d : map_t) :
    lookup eqb k' (store eqb k v d) = if eqb k k' then Some v else lookup eqb k' d.
  Proof.
    unfold store. destruct (lookup eqb k d) eqn:E.
    - destruct (eqb k k') eqn:Ek; [|apply store_map_lookup, Ek].
      rewrite (lookup_cong k k' _ Ek) in E.
      destruct (lookup_cases k' d) as [(a & k1 & v1 & b' & -> & E1 & Ha & El)|[_ El]]; [|congruence].
      rewrite map_app. cbn. rewrite lookup_app.
      replace (lookup eqb k' (map _ a)) with (@None B).
      + unfold lookup. cbn. unfold same. cbn. rewrite E1. rewrite (eqb_r eqb HE _ _ k1 Ek), E1. reflexivity.
      + symmetry. apply lookup_None. intros p Hp. apply in_map_iff in Hp as (q & <- & Hq). cbn. auto.
    - rewrite lookup_app. destruct (eqb k k') eqn:Ek.
      + rewrite (lookup_cong k k' _ Ek) in E. rewrite E. unfold lookup. cbn. unfold same. cbn. rewrite Ek. reflexivity.
      + destruct (lookup eqb k' d) eqn:E'; [reflexivity|]. unfold lookup. cbn. unfold same. cbn. rewrite Ek. reflexivity.
  Qed.
  Lemma erase_keys k (d : map_t) : keys (erase eqb k d) = set_del eqb k (keys d).
  Proof. unfold erase, set_del. rewrite filter_map_comm. reflexivity. Qed.
  Lemma erase_dk k (d : map_t) : dk d -> dk (erase eqb k d).
  Proof. intros H. unfold distinct_keys. rewrite erase_keys. apply set_del_distinct, H. Qed.
  Lemma filter_dk f (d : map_t) : dk d -> dk (filter f d).
  Proof.
    unfold distinct_keys. induction d as [|p d IH]; [auto|]. cbn. intros [H1 H2]. destruct (f p); [|auto]. cbn.
    split; [|auto]. intros y Hy. apply H1. apply in_map_iff in Hy as (q & <- & Hq). apply filter_In in Hq as [Hq _].
    apply in_map, Hq.
  Qed.
  Lemma merge_dk ps : forall d : map_t, dk d -> dk (merge eqb d ps).
  Proof. induction ps as [|[k v] ps IH]; intros d H; [exact H|]. apply IH, store_dk, H. Qed.
  Lemma merge_app ps qs : forall d : map_t, merge eqb d (ps ++ qs) = merge eqb (merge eqb d ps) qs.
  Proof. induction ps as [|[k v] ps IH]; intros d; [reflexivity|]. cbn. apply IH. Qed.
  Lemma merge_fresh ps : forall d : map_t, dk (d ++ ps) -> merge eqb d ps = d ++ ps.
  Proof.
    induction ps as [|[k v] ps IH]; intros d HD; [symmetry; apply app_nil_r|]. cbn.
    replace (store eqb k v d) with (d ++ [(k, v)]).
    - rewrite IH; rewrite <- app_assoc; [reflexivity|exact HD].
    - unfold store. replace (lookup eqb k d) with (@None B); [reflexivity|]. symmetry. apply lookup_None.
      intros p Hp. unfold distinct_keys in HD. rewrite map_app in HD. apply distinct_app in HD as (_ & _ & H).
      apply H; [apply in_map, Hp|cbn; auto].
  Qed.
  Lemma merge_self (d : map_t) : dk d -> merge eqb [] d = d.
  Proof. intros H. apply (merge_fresh d []), H. Qed.
  Lemma lookup_merge k ps : forall d : map_t,
    lookup eqb k (merge eqb d ps) = match lookup eqb k (rev ps) with Some v => Some v | None => lookup eqb k d end.
  Proof.
    induction ps as [|[k' v'] ps IH]; intros d; [reflexivity|]. cbn. rewrite IH, lookup_app, lookup_store.
    destruct (lookup eqb k (rev ps)); [reflexivity|]. unfold lookup at 2. cbn. unfold same. cbn.
    destruct (eqb k' k); reflexivity.
  Qed.
  (** Merging a dict built from pairs is merging the pairs. *)
  Lemma store_map_absent k v (d : map_t) : lookup eqb k d = None ->
    map (fun p => (fst p, if same eqb k p then v else snd p)) d = d.
  Proof.
    intros H. rewrite <- (map_id d) at 2. apply map_ext_in. intros [x y] Hp. pose proof (proj1 (lookup_None k d) H _ Hp) as E.
    unfold same. cbn in *. rewrite E. reflexivity.
  Qed.
  Lemma store_store k k' v w (d : map_t) : eqb k' k = true ->
    store eqb k v (store eqb k' w d) = store eqb k' v d.
  Proof.
    intros Ek. unfold store at 1. rewrite lookup_store, Ek. unfold store. destruct (lookup eqb k' d) eqn:E.
    - rewrite map_map. apply map_ext. intros [x y]. cbn. unfold same. cbn. rewrite (eqb_r eqb HE _ _ x Ek).
      destruct (eqb x k); reflexivity.
    - rewrite map_app. cbn. unfold same at 2. cbn. rewrite Ek. f_equal. apply store_map_absent.
      rewrite <- (lookup_cong _ _ d Ek). exact E.
  Qed.
  Lemma store_comm k k' v w (d : map_t) : eqb k' k = false -> lookup eqb k d <> None ->
    store eqb k v (store eqb k' w d) = store eqb k' w (store eqb k v d).
  Proof.
    intros Ek Hk. assert (Ek' : eqb k k' = false) by (rewrite (eqb_sym eqb HE); exact Ek).
    unfold store at 1 3. rewrite !lookup_store, Ek, Ek'. unfold store.
    destruct (lookup eqb k d) eqn:E; [|congruence]. destruct (lookup eqb k' d) eqn:E'.
    - rewrite !map_map. apply map_ext. intros [x y]. cbn. unfold same. cbn.
      destruct (eqb x k) eqn:X, (eqb x k') eqn:X'; try reflexivity.
      rewrite (eqb_l eqb HE _ _ k' X) in X'. congruence.
    - rewrite map_app. cbn. unfold same at 2. cbn. rewrite Ek. reflexivity.
  Qed.
  Lemma store_merge k v ps : forall d : map_t, lookup eqb k d <> None -> (forall p, In p ps -> eqb (fst p) k = false) ->
    store eqb k v (merge eqb d ps) = merge eqb (store eqb k v d) ps.
  Proof.
    induction ps as [|[k' w] ps IH]; intros d Hk Hp; [reflexivity|]. cbn.
    pose proof (Hp (k', w) (or_introl eq_refl)) as Ek. cbn in Ek. rewrite IH.
    - rewrite store_comm; auto.
    - rewrite lookup_store, Ek. exact Hk.
    - intros p H. apply Hp. right. exact H.
  Qed.
  Lemma merge_store k v (d e : map_t) : dk e -> merge eqb d (store eqb k v e) = store eqb k v (merge eqb d e).
  Proof.
    intros HD. destruct (lookup_cases k e) as [(a & k' & w & b & -> & Ek & Ha & El)|[Hn El]]; unfold store at 1; rewrite El.
    - unfold distinct_keys in HD. rewrite map_app in HD. cbn in HD.
      pose proof (distinct_mid eqb HE _ _ _ _ HD Ek) as Hab.
      assert (Hb : forall p, In p b -> eqb (fst p) k = false).
      { intros p Hp. apply Hab, in_app_iff. right. apply in_map, Hp. }
      rewrite map_app. cbn. unfold same at 2. cbn. rewrite Ek.
      rewrite !store_map_absent by (apply lookup_None; auto). rewrite !merge_app. cbn.
      rewrite (store_merge k v b (store eqb k' w (merge eqb d a))); [|rewrite lookup_store, Ek; discriminate|exact Hb]. rewrite store_store by exact Ek. reflexivity.
    - rewrite merge_app. reflexivity.
  Qed.
  Lemma merge_of ps : forall d : map_t, merge eqb d (merge eqb [] ps) = merge eqb d ps.
  Proof.
    intros d. induction ps as [|[k v] ps IH] using rev_ind; [reflexivity|]. rewrite !merge_app. cbn.
    rewrite merge_store by (apply merge_dk; exact I). rewrite IH. reflexivity.
  Qed.

  (** ** Items in key order *)
  Lemma item_swo : SWO (item_lt (B:=B) ltb).
  Proof. exact (by_key_swo (@fst A B) ltb HW). Qed.
  Lemma listing_perm (d : map_t) : Permutation (listing ltb d) d.
  Proof. apply sp_sort_perm, item_swo. Qed.
  Lemma listing_In (d : map_t) p : In p (listing ltb d) <-> In p d.
  Proof. split; apply Permutation_in; [apply listing_perm|symmetry; apply listing_perm]. Qed.
  Lemma listing_keys (d : map_t) : keys (listing ltb d) = sp_sort ltb (keys d).
  Proof. exact (sp_sort_map (@fst A B) ltb d). Qed.
  Lemma listing_dk (d : map_t) : dk d -> dk (listing ltb d).
  Proof. apply dk_perm. symmetry. apply listing_perm. Qed.
  Lemma listing_length (d : map_t) : length (listing ltb d) = length d.
  Proof. apply Permutation_length, listing_perm. Qed.
  Lemma listing_idem (d : map_t) : listing ltb (listing ltb d) = listing ltb d.
  Proof. apply (sp_sort_id _ item_swo), sp_sort_sorted, item_swo. Qed.
  Lemma listing_filter f (d : map_t) : listing ltb (filter f d) = filter f (listing ltb d).
  Proof. apply sp_sort_filter, item_swo. Qed.
  Lemma lookup_listing k (d : map_t) : dk d -> lookup eqb k (listing ltb d) = lookup eqb k d.
  Proof. intros H. symmetry. apply lookup_perm; [symmetry; apply listing_perm|exact H]. Qed.
End Maps.

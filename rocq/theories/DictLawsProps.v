(** * Lemmas: laws between the operations of SortedDict *)
From Coq Require Import Lia Permutation.
From Verif Require Import PyBase Model Spec History BaseFacts SpecFacts SliceFacts Reach ListClass ClassSpec ModelSet SetSpec ModelDict DictSpec MapFacts ListProps DictProps DictLawsSpec.
Local Unset Implicit Arguments.

Lemma getz_map {A B} (f : A -> B) l i : getz (map f l) i = match getz l i with Ok x => Ok (f x) | Err e => Err e end.
Proof.
  unfold getz. rewrite map_length. destruct (_ <? 0)%Z; [reflexivity|]. unfold getn. rewrite nth_error_map. destruct (nth_error l _); reflexivity.
Qed.
Lemma getz_cases {A} (l : list A) i : (exists x, getz l i = Ok x /\ In x l) \/ getz l i = Err IndexError.
Proof.
  unfold getz. destruct (_ <? 0)%Z; [auto|]. unfold getn. destruct (nth_error l _) eqn:E; [left|auto]. eexists. split; [reflexivity|]. eapply nth_error_In; eauto.
Qed.
Lemma mapR_map {X A B} (f : A -> B) (g : X -> res A) xs : mapR (fun x => match g x with Ok y => Ok (f y) | Err e => Err e end) xs =
  match mapR g xs with Ok ys => Ok (map f ys) | Err e => Err e end.
Proof.
  induction xs as [|x xs IH]; cbn; [reflexivity|]. destruct (g x); cbn; [|reflexivity]. rewrite IH. destruct (mapR g xs); reflexivity.
Qed.
Lemma slice_map {A B} (f : A -> B) sl l : sp_slice sl (map f l) = match sp_slice sl l with Ok x => Ok (map f x) | Err e => Err e end.
Proof.
  unfold sp_slice. rewrite map_length. destruct (slice_indices sl (length l)) as [[[a b] c]|e]; cbn [rbind]; [|reflexivity].
  rewrite <- mapR_map. clear. induction (rangez a b c) as [|x t IH]; cbn [mapR]; [reflexivity|]. rewrite getz_map, IH. reflexivity.
Qed.

Lemma slice_err {A} sl (l : list A) e : sp_slice sl l = Err e -> e = ValueError.
Proof.
  intros H. destruct (slice_indices_cases sl (length l)) as [[E _]|(_ & a & b & c & E)].
  - unfold sp_slice in H. rewrite E in H. cbn in H. congruence.
  - destruct (sp_slice_ok sl l a b c E) as (x & Ex & _). congruence.
Qed.

Section Maps.
  Context {A B : Type}.
  Variables ltb eqb : A -> A -> bool.
  Hypothesis HE : Equiv eqb.
  Notation map_t := (list (A * B)).
  Lemma store_store k v w (d : map_t) : store eqb k w (store eqb k v d) = store eqb k w d.
  Proof.
    pose proof (lookup_store eqb HE k v k d) as L. rewrite (HashFacts.eqb_refl eqb HE) in L. unfold store at 1. rewrite L. unfold store.
    destruct (lookup eqb k d) eqn:E.
    - rewrite map_map. apply map_ext. intros [x y]. unfold same. cbn. destruct (eqb x k); reflexivity.
    - rewrite map_app. cbn. unfold same at 2. cbn. rewrite (HashFacts.eqb_refl eqb HE). f_equal. rewrite <- map_id. apply map_ext_in. intros [a b] Hin.
      apply (proj1 (lookup_None eqb k d)) with (p := (a, b)) in E; [|exact Hin]. cbn in E. unfold same. cbn. rewrite E. reflexivity.
  Qed.
  Lemma erase_store k v (d : map_t) : lookup eqb k d = None -> erase eqb k (store eqb k v d) = d.
  Proof.
    intros E. unfold store. rewrite E. unfold erase. rewrite filter_app. cbn. unfold same at 2. cbn. rewrite (HashFacts.eqb_refl eqb HE). cbn. rewrite app_nil_r.
    apply filter_all. intros p Hp. unfold same. rewrite (proj1 (lookup_None eqb k d) E p Hp). reflexivity.
  Qed.
  Lemma store_same k v (d : map_t) : distinct_keys eqb d -> lookup eqb k d = Some v -> store eqb k v d = d.
  Proof.
    intros HD E. unfold store. rewrite E. rewrite <- map_id. apply map_ext_in. intros [a b] Hin. unfold same. cbn. destruct (eqb a k) eqn:Ea; [|reflexivity].
    pose proof (lookup_self eqb HE (a, b) d HD Hin) as L. cbn in L. rewrite (lookup_cong eqb HE a k d Ea), E in L. congruence.
  Qed.
End Maps.

Section Dict.
  Context {S A B K : Type}.
  Variable T : listcls S A K.
  Variables ltb eqb : A -> A -> bool.
  Variable veqb : B -> B -> bool.
  Variable fref : fwd A K -> list A -> out A * list A.
  Variable dflt : nat.
  Hypothesis HC : list_class T ltb eqb fref dflt.
  Notation do := (sd_step T eqb veqb).
  Notation rs := (ref_step ltb eqb veqb fref).
  Notation ls := (listing (B:=B) ltb).
  Definition is_dict (s : sdict S A B) (d : list (A * B)) : Prop := sd_reach T eqb veqb s /\ d_items s = d /\ distinct_keys eqb d.
  Lemma dask_ok s d o : is_dict s d -> dop_ok eqb o -> dask do o s = fst (rs o d) /\ is_dict (dafter do o s) (snd (rs o d)).
  Proof.
    intros (H1 & H2 & H3) Ho. destruct (c43_in_step S A B K T ltb eqb veqb fref dflt s HC H1) as (l & Hl & _).
    destruct (dict_step T ltb eqb veqb fref dflt HC s l o H1 Hl Ho) as (d' & s' & E1 & _ & _ & _ & E & R & E2 & _ & D). rewrite H2 in E1. subst d'.
    unfold dask, dafter. rewrite E. cbn [fst snd]. split; [reflexivity|]. unfold is_dict. auto.
  Qed.
  Lemma all_ok s d : is_dict s d -> all do s = OItems (ls d).
  Proof. intros H. apply (dask_ok s d DItems H I). Qed.
  Lemma all_after s d o : is_dict s d -> dop_ok eqb o -> all do (dafter do o s) = OItems (ls (snd (rs o d))).
  Proof. intros H Ho. apply all_ok, (dask_ok s d o H Ho). Qed.
  Lemma all_after2 s d o p : is_dict s d -> dop_ok eqb o -> dop_ok eqb p -> all do (dafter do p (dafter do o s)) = OItems (ls (snd (rs p (snd (rs o d))))).
  Proof. intros H Ho Hp. apply all_after; [|exact Hp]. apply (dask_ok s d o H Ho). Qed.
  Lemma ask_after s d o p : is_dict s d -> dop_ok eqb o -> dop_ok eqb p -> dask do p (dafter do o s) = fst (rs p (snd (rs o d))).
  Proof. intros H Ho Hp. apply dask_ok; [|exact Hp]. apply (dask_ok s d o H Ho). Qed.

  Lemma dlaws s d : is_dict s d -> dict_laws do eqb s.
  Proof.
    intros H. pose proof (class_swo T ltb eqb fref dflt HC) as HW. pose proof (class_eqv T ltb eqb fref dflt HC) as HE.
    assert (HD : distinct_keys eqb d) by apply H.
    assert (Q : forall o, dop_ok eqb o -> dask do o s = fst (rs o d)) by (intros o Ho; apply (dask_ok s d o H Ho)).
    assert (G : forall i k v, getz (ls d) i = Ok (k, v) -> lookup eqb k d = Some v).
    { intros i k v Ei. destruct (getz_cases (ls d) i) as [(x & Ex & Hx)|Ex]; rewrite Ei in Ex; [|discriminate]. injection Ex as <-.
      apply (lookup_self eqb HE (k, v) d HD). apply (listing_In ltb HW). exact Hx. }
    assert (N : length (ls d) = length d) by (apply listing_length; exact HW).
    split.
    - exists (ls d). rewrite !Q by exact I. rewrite (all_ok s d H). cbn [ref_step fst]. rewrite N. repeat split; reflexivity.
    - intros i. rewrite !Q by exact I. cbn [ref_step fst]. rewrite !getz_map. split; [reflexivity|].
      destruct (getz (ls d) i) as [[k v]|e] eqn:E.
      + left. exists k, v. cbn. rewrite Q by exact I. cbn [ref_step fst]. rewrite (G i k v E). auto.
      + right. destruct (getz_cases (ls d) i) as [(x & Ex & _)|Ex]; rewrite E in Ex; [discriminate|]. injection Ex as ->. auto.
    - intros sl. rewrite !Q by exact I. cbn [ref_step fst]. rewrite !slice_map. destruct (sp_slice sl (ls d)) as [l|e] eqn:E.
      + left. exists l. auto.
      + right. assert (e = ValueError) as -> by (eapply slice_err; eauto). auto.
    - intros k. destruct (lookup eqb k d) as [v|] eqn:E.
      + left. exists v. rewrite !Q by exact I. cbn [ref_step fst]. rewrite E. repeat split; rewrite ?Q by exact I; cbn [ref_step fst]; rewrite ?E; reflexivity.
      + right. rewrite !Q by exact I. cbn [ref_step fst]. rewrite E. repeat split; rewrite ?Q by exact I; cbn [ref_step fst]; rewrite ?E; reflexivity.
    - intros k v. split; [|split; [|split]].
      + intros k'. rewrite (ask_after s d) by (exact I || exact H). rewrite Q by exact I. cbn [ref_step fst snd]. rewrite (lookup_store eqb HE). destruct (eqb k k'); reflexivity.
      + intros w. rewrite (all_after2 s d) by (exact I || exact H). rewrite (all_after s d) by (exact I || exact H). cbn [ref_step fst snd]. rewrite (store_store eqb HE). reflexivity.
      + rewrite Q by exact I. cbn [ref_step fst snd]. destruct (lookup eqb k d) eqn:E; [discriminate|]. intros _.
        rewrite (all_after2 s d) by (exact I || exact H). rewrite (all_ok s d H). cbn [ref_step fst snd].
        rewrite (lookup_store eqb HE), (HashFacts.eqb_refl eqb HE). cbn [snd]. rewrite (erase_store eqb HE) by exact E. reflexivity.
      + rewrite Q by exact I. cbn [ref_step fst snd]. destruct (lookup eqb k d) eqn:E; [|discriminate]. intros [= ->].
        rewrite (all_after s d) by (exact I || exact H). rewrite (all_ok s d H). cbn [ref_step snd]. rewrite (store_same eqb HE) by assumption. reflexivity.
    - intros k k'. rewrite (ask_after s d) by (exact I || exact H). rewrite Q by exact I. cbn [ref_step fst snd]. destruct (lookup eqb k d) eqn:E; cbn [snd].
      + rewrite (lookup_erase eqb HE). destruct (eqb k k'); reflexivity.
      + destruct (eqb k k') eqn:Ek; [|reflexivity]. rewrite <- (lookup_cong eqb HE k k' d Ek), E. reflexivity.
    - intros k dv. rewrite !(all_after s d) by (exact I || exact H). cbn [ref_step snd]. destruct (lookup eqb k d), dv; reflexivity.
    - intros i. rewrite (Q (DPeekItem i)) by exact I. rewrite (Q DLen), (Q (DPopItem i)) by exact I. rewrite !(all_after s d) by (exact I || exact H). cbn [ref_step fst snd].
      destruct (getz (ls d) i) as [[k v]|e] eqn:E; cbn [reply].
      + rewrite (all_after s d) by (exact I || exact H). cbn [ref_step snd]. rewrite (G i k v E). destruct d as [|p t]; [|auto].
        specialize (G i k v E). cbn in G. discriminate.
      + rewrite (all_ok s d H). destruct (getz_cases (ls d) i) as [(x & Ex & _)|Ex]; rewrite E in Ex; [discriminate|]. injection Ex as ->. destruct d; auto.
    - intros i. rewrite (Q (DPeekItem i)) by exact I. rewrite (Q (DViewDel i)) by exact I. rewrite !(all_after s d) by (exact I || exact H). cbn [ref_step fst snd].
      destruct (getz (ls d) i) as [[k v]|e] eqn:E; cbn [reply].
      + rewrite (all_after s d) by (exact I || exact H). cbn [ref_step snd fst]. rewrite (G i k v E). auto.
      + rewrite (all_ok s d H). auto.
    - intros k v. rewrite (Q (DContains k)) by exact I. rewrite !(all_after s d) by (exact I || exact H). rewrite (all_ok s d H). cbn [ref_step fst snd].
      destruct (lookup eqb k d); reflexivity.
    - split; [rewrite (all_after s d) by (exact I || exact H); rewrite (all_ok s d H); reflexivity|]. split; [|split; [|split]].
      + intros k v ps. rewrite (all_after2 s d) by (exact I || exact H). rewrite (all_after s d) by (exact I || exact H). reflexivity.
      + intros ps. rewrite !(all_after s d) by (exact I || exact H). reflexivity.
      + intros a. rewrite !(all_after s d) by (exact I || exact H). reflexivity.
      + intros ps. rewrite (all_after2 s d) by (exact I || exact H). rewrite (all_after s d) by (exact I || exact H). reflexivity.
    - rewrite (all_after s d) by (exact I || exact H). rewrite (all_ok s d H). cbn [ref_step snd]. rewrite (listing_idem ltb HW). reflexivity.
    - rewrite (all_after s d) by (exact I || exact H). reflexivity.
  Qed.
End Dict.

(** ** C126 *)
Lemma c126_laws : forall S A B K (T : listcls S A K) ltb eqb (veqb : B -> B -> bool) fref dflt s,
  list_class T ltb eqb fref dflt -> sd_reach T eqb veqb s -> dict_laws (sd_step T eqb veqb) eqb s.
Proof.
  intros S A B K T ltb eqb veqb fref dflt s HC HR. apply (dlaws T ltb eqb veqb fref dflt HC s (d_items s)).
  destruct (sd_facts T ltb eqb veqb fref dflt HC s HR) as (_ & H & _). unfold is_dict. auto.
Qed.
